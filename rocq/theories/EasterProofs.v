(** The derived methods of easter's types, run on the trees of the model. *)
From Coq Require Import String Ascii List NArith Bool Lia Arith.
From Verif Require Import Base Word Token Punc Ast Track Node NodeProofs SpecTree Derive Easter SpecDerive DeriveProofs.
Import ListNotations.
Local Open Scope string_scope.
Local Open Scope list_scope.
Local Open Scope nat_scope.

(** ** The declarations *)

Fixpoint nodupb {A} (eqb : A -> A -> bool) (l : list A) : bool :=
  match l with [] => true | a :: l => negb (existsb (eqb a) l) && nodupb eqb l end.
Lemma nodupb_ok {A} (eqb : A -> A -> bool) l :
  (forall a, eqb a a = true) -> nodupb eqb l = true -> NoDup l.
Proof.
  intros Hr. induction l as [|a l IH]; cbn; [constructor|]. intros H. apply andb_true_iff in H. destruct H as [H1 H2].
  constructor; [|apply IH, H2]. intros K. apply negb_true_iff in H1.
  rewrite (proj2 (existsb_exists _ _)) in H1; [discriminate|]. exists a. split; [exact K|apply Hr].
Qed.
Definition declarableb (d : macro_input) : bool :=
  nodupb path_eqb (map fst (variants d))
  && forallb (fun v => match snd v with Vd_Struct fs => nodupb String.eqb (map fst fs) | _ => true end) (variants d).
Lemma declarableb_ok d : declarableb d = true -> declarable d.
Proof.
  intros H. apply andb_true_iff in H. destruct H as [H1 H2]. split; [eapply nodupb_ok; [apply path_eqb_refl|exact H1]|].
  intros p fs Hin. rewrite forallb_forall in H2. apply H2 in Hin. cbn in Hin.
  eapply nodupb_ok; [apply String.eqb_refl|exact Hin].
Qed.
Theorem easter_declarable d : In d easter -> declarable (td_input d).
Proof.
  intros H. apply declarableb_ok. assert (F : forallb (fun d => declarableb (td_input d)) easter = true) by (vm_compute; reflexivity).
  rewrite forallb_forall in F. apply F, H.
Qed.

(** The declaration and variant of a path. *)
Definition lookup (P : list type_decl) (p : list ident) : option (type_decl * variant_data) :=
  match p with
  | [] => None
  | t :: _ =>
      match find_type P t with
      | Some d =>
          match find (fun v => path_eqb p (fst v)) (variants (td_input d)) with
          | Some v => Some (d, snd v)
          | None => None
          end
      | None => None
      end
  end.
Lemma lookup_ok P p d vd : lookup P p = Some (d, vd) ->
  exists t q, p = t :: q /\ find_type P t = Some d /\ In d P /\ mi_ident (td_input d) = t
    /\ In (p, vd) (variants (td_input d)).
Proof.
  destruct p as [|t q]; [discriminate|]. cbn [lookup]. destruct (find_type P t) as [d'|] eqn:E; [|discriminate].
  destruct (find _ _) as [[p' vd']|] eqn:F; [|discriminate]. intros H. injection H as <- <-. cbn.
  apply find_some in F. destruct F as [F1 F2]. apply path_eqb_iff in F2. cbn in F2. subst p'.
  exists t, q. pose proof E as E'. apply find_some in E'. destruct E' as [E1 E2]. apply String.eqb_eq in E2.
  repeat split; try assumption. congruence.
Qed.

(** ** Running with enough time *)

Lemma untracks_all P fs fs' :
  Forall2 (untracks P) fs fs' -> exists k0, forall k, k0 <= k -> Forall2 (fun a b => untrack_val P k a = Some b) fs fs'.
Proof.
  induction 1 as [|a b fs fs' [k1 H1] _ [k2 H2]]; [exists 0; constructor|].
  exists (max k1 k2). intros k Hk. constructor; [apply H1|apply H2]; lia.
Qed.
Section Run.
Variable P : list type_decl.
Hypothesis HP : forall d, In d P -> declarable (td_input d).

Lemma u_tuple t x d ts fs fs' :
  lookup P [t; x] = Some (d, Vd_Tuple ts) -> derives d "Untrack" = true -> length fs = length ts ->
  Forall2 (untracks P) fs fs' -> untracks P (Var t x fs) (Var t x fs').
Proof.
  intros HL Hu Hl HF. apply lookup_ok in HL. destruct HL as (t' & q & E & Hf & Hin & _ & Hv). injection E as <- <-.
  apply untracks_all in HF. destruct HF as [k0 HF]. exists (S k0). intros [|k] Hk; [lia|]. cbn [untrack_val Var val_type].
  rewrite Hf, Hu. eapply run_untrack_iff; [apply HP, Hin|exact Hv|split; [reflexivity|exact Hl]|].
  constructor. apply HF. lia.
Qed.
Lemma u_struct t d gs fs fs' :
  lookup P [t] = Some (d, Vd_Struct gs) -> derives d "Untrack" = true -> map fst fs = map fst gs -> map fst fs' = map fst gs ->
  Forall2 (untracks P) (map snd fs) (map snd fs') -> untracks P (Str t fs) (Str t fs').
Proof.
  intros HL Hu Hl Hl' HF. apply lookup_ok in HL. destruct HL as (t' & q & E & Hf & Hin & _ & Hv). injection E as <- <-.
  apply untracks_all in HF. destruct HF as [k0 HF]. exists (S k0). intros [|k] Hk; [lia|]. cbn [untrack_val Str val_type].
  rewrite Hf, Hu. eapply run_untrack_iff; [apply HP, Hin|exact Hv|split; [reflexivity|exact Hl]|].
  constructor. specialize (HF k ltac:(lia)). clear -HF Hl Hl'. rewrite <- Hl' in Hl. clear Hl'.
  revert fs' Hl HF. induction fs as [|[a v] fs IH]; intros [|[b w] fs'] Hl HF; try discriminate; [constructor|].
  cbn in *. inversion HF; subst. injection Hl as -> Hl. constructor; [split; [reflexivity|assumption]|apply IH; assumption].
Qed.
Lemma u_loc l : untracks P (V_Loc l) (V_Loc None).
Proof. exists 1. intros [|k] Hk; [lia|reflexivity]. Qed.
Lemma u_data d d' : untrack_data d = Some d' -> untracks P (V_Data d) (V_Data d').
Proof. intros H. exists 1. intros [|k] Hk; [lia|]. cbn. rewrite H. reflexivity. Qed.
Lemma u_opt {A} (f : A -> val) (u : A -> A) o :
  (forall a, o = Some a -> untracks P (f a) (f (u a))) -> untracks P (v_opt f o) (v_opt f (option_map u o)).
Proof.
  destruct o as [a|]; intros H.
  - destruct (H a eq_refl) as [k0 K]. exists (S k0). intros [|k] Hk; [lia|]. cbn. rewrite K by lia. reflexivity.
  - exists 1. intros [|k] Hk; [lia|reflexivity].
Qed.
Lemma u_list {A} (f : A -> val) (u : A -> A) l :
  (forall a, In a l -> untracks P (f a) (f (u a))) -> untracks P (v_list f l) (v_list f (map u l)).
Proof.
  intros H. assert (K : Forall2 (untracks P) (map f l) (map f (map u l))).
  { induction l as [|a l IH]; cbn; constructor; [apply H; left; reflexivity|]. apply IH. intros b Hb. apply H. right. exact Hb. }
  apply untracks_all in K. destruct K as [k0 K]. exists (S k0). intros [|k] Hk; [lia|]. cbn.
  specialize (K k ltac:(lia)). apply map_opt_iff in K. rewrite K. reflexivity.
Qed.
End Run.

(** Hand-written methods. *)
Lemma u_id i : untracks easter (v_id i) (v_id (id_untrack i)).
Proof. exists 1. intros [|k] Hk; [lia|]. destruct i. lazy. reflexivity. Qed.
Lemma u_dk i : untracks easter (v_dk i) (v_dk (dot_key_untrack i)).
Proof. exists 1. intros [|k] Hk; [lia|]. destruct i. lazy. reflexivity. Qed.
Lemma u_op {T} (f : T -> data) o : untracks easter (v_op f o) (v_op f (op_untrack o)).
Proof. exists 1. intros [|k] Hk; [lia|]. destruct o. lazy. reflexivity. Qed.
Lemma u_pk i : untracks easter (v_pk i) (v_pk (prop_key_untrack i)).
Proof. exists 2. intros [|[|k]] Hk; [lia|lia|]. destruct i; lazy; reflexivity. Qed.

Notation UE := (untracks easter).
Definition u_T := u_tuple easter easter_declarable.
Definition u_S := u_struct easter easter_declarable.

Definition U (n : node) : Prop :=
  UE (node_val n) (node_val (node_untrack n))
  /\ match n with
     | N_ipatt (Compound c) => UE (v_cpatt v_id c) (v_cpatt v_id (cpatt_untrack id_untrack c))
     | _ => True
     end.

Ltac member := cbn [children expr_children prop_children pval_children target_children stmt_children func_children
    patt_children pp_children of_opt option_map];
  repeat first [apply in_eq | apply in_cons | (apply in_map; assumption)
    | solve [apply in_or_app; left; member] | solve [apply in_or_app; right; member]
    | (eapply in_flat_map; eexists; split; [eassumption|apply in_eq])].

Ltac kid IH :=
  lazymatch goal with
  | |- UE (v_expr ?a) _ => exact (proj1 (IH (N_expr a) ltac:(member)))
  | |- UE (v_eli ?a) _ => exact (proj1 (IH (N_eli a) ltac:(member)))
  | |- UE (v_prop ?a) _ => exact (proj1 (IH (N_prop a) ltac:(member)))
  | |- UE (v_pval ?a) _ => exact (proj1 (IH (N_pval a) ltac:(member)))
  | |- UE (v_target ?a) _ => exact (proj1 (IH (N_target a) ltac:(member)))
  | |- UE (v_stmt ?a) _ => exact (proj1 (IH (N_stmt a) ltac:(member)))
  | |- UE (v_block ?a) _ => exact (proj1 (IH (N_block a) ltac:(member)))
  | |- UE (v_fh ?a) _ => exact (proj1 (IH (N_fh a) ltac:(member)))
  | |- UE (v_fi ?a) _ => exact (proj1 (IH (N_fi a) ltac:(member)))
  | |- UE (v_fo ?a) _ => exact (proj1 (IH (N_fo a) ltac:(member)))
  | |- UE (v_catch ?a) _ => exact (proj1 (IH (N_catch a) ltac:(member)))
  | |- UE (v_case ?a) _ => exact (proj1 (IH (N_case a) ltac:(member)))
  | |- UE (v_item ?a) _ => exact (proj1 (IH (N_item a) ltac:(member)))
  | |- UE (v_decl ?a) _ => exact (proj1 (IH (N_decl a) ltac:(member)))
  | |- UE (v_dtor ?a) _ => exact (proj1 (IH (N_dtor a) ltac:(member)))
  | |- UE (v_cdtor ?a) _ => exact (proj1 (IH (N_cdtor a) ltac:(member)))
  | |- UE (v_func (v_opt v_id) _ ?a) _ => exact (proj1 (IH (N_fexpr a) ltac:(member)))
  | |- UE (v_func v_pk _ ?a) _ => exact (proj1 (IH (N_fmeth a) ltac:(member)))
  | |- UE (v_func v_id _ ?a) _ => exact (proj1 (IH (N_fdecl a) ltac:(member)))
  | |- UE (v_body v_item ?a) _ => exact (proj1 (IH (N_body a) ltac:(member)))
  | |- UE (v_body v_mitem ?a) _ => exact (proj1 (IH (N_mod a) ltac:(member)))
  | |- UE (v_patt_of v_target _ ?a) _ => exact (proj1 (IH (N_tpatt a) ltac:(member)))
  | |- UE (v_patt v_target ?a) _ => exact (proj1 (IH (N_tpatt a) ltac:(member)))
  | |- UE (v_patt_of v_id _ ?a) _ => exact (proj1 (IH (N_ipatt a) ltac:(member)))
  | |- UE (v_patt v_id ?a) _ => exact (proj1 (IH (N_ipatt a) ltac:(member)))
  | |- UE (v_rest (v_patt_of v_target _) ?a) _ => exact (proj1 (IH (N_trest a) ltac:(member)))
  | |- UE (v_rest (v_patt_of v_id _) ?a) _ => exact (proj1 (IH (N_irest a) ltac:(member)))
  | |- UE (v_rest (v_patt v_target) ?a) _ => exact (proj1 (IH (N_trest a) ltac:(member)))
  | |- UE (v_pp (v_patt v_target) ?a) _ => exact (proj1 (IH (N_tpp a) ltac:(member)))
  | |- UE (v_pp (v_patt v_id) ?a) _ => exact (proj1 (IH (N_ipp a) ltac:(member)))
  | |- UE (v_rest (v_patt v_id) ?a) _ => exact (proj1 (IH (N_irest a) ltac:(member)))
  | |- UE (v_pp (v_patt_of v_target _) ?a) _ => exact (proj1 (IH (N_tpp a) ltac:(member)))
  | |- UE (v_pp (v_patt_of v_id _) ?a) _ => exact (proj1 (IH (N_ipp a) ltac:(member)))
  | |- UE (v_cpatt v_id ?a) _ => exact (proj2 (IH (N_ipatt (Compound a)) ltac:(member)))
  | |- UE (v_params ?a) _ => exact (proj1 (IH (N_params a) ltac:(member)))
  | |- UE (v_dir ?a) _ => exact (proj1 (IH (N_dir a) ltac:(member)))
  | |- UE (v_import ?a) _ => exact (proj1 (IH (N_import a) ltac:(member)))
  | |- UE (v_export ?a) _ => exact (proj1 (IH (N_export a) ltac:(member)))
  | |- UE (v_mitem ?a) _ => exact (proj1 (IH (N_mitem a) ltac:(member)))
  end.
Ltac go IH :=
  lazymatch goal with
  | |- UE (V_Loc _) _ => apply u_loc
  | |- UE (v_semi _) _ => apply u_data; reflexivity
  | |- UE (v_string _) _ => apply u_data; reflexivity
  | |- UE (v_number _) _ => apply u_data; reflexivity
  | |- UE (V_Data _) _ => apply u_data; reflexivity
  | |- UE (v_id _) _ => apply u_id
  | |- UE (v_dk _) _ => apply u_dk
  | |- UE (v_pk _) _ => apply u_pk
  | |- UE (v_op _ _) _ => apply u_op
  | |- UE (v_opt (v_list _) _) _ => apply u_opt; intros ? ->; go IH
  | |- UE (v_opt _ _) _ => apply u_opt; intros ? ->; go IH
  | |- UE (v_list _ _) _ => apply u_list; intros ? ?; go IH
  | |- UE (Var _ _ _) _ =>
      eapply u_T; [lazy; reflexivity|reflexivity|reflexivity|repeat first [apply Forall2_nil|apply Forall2_cons]; go IH]
  | |- UE (Str _ _) _ =>
      eapply u_S; [lazy; reflexivity|reflexivity|reflexivity|reflexivity|cbn [map snd]; repeat first [apply Forall2_nil|apply Forall2_cons]; go IH]
  | |- _ => kid IH
  end.
Lemma arr_val {T} (ft : T -> val) l es r : v_cpatt ft (C_Arr l es r) =
  Var "CompoundPatt" "Arr" [V_Loc l; v_list (v_opt (v_patt ft)) es; v_opt (v_rest (v_patt ft)) r].
Proof. reflexivity. Qed.
Lemma obj_val {T} (ft : T -> val) l ps : v_cpatt ft (C_Obj l ps) =
  Var "CompoundPatt" "Obj" [V_Loc l; v_list (v_pp (v_patt ft)) ps].
Proof. reflexivity. Qed.
Lemma arr_untrack {T} (ft : T -> T) l es r : cpatt_untrack ft (C_Arr l es r) =
  C_Arr None (map (option_map (patt_untrack ft)) es) (option_map (rest_untrack (patt_untrack ft)) r).
Proof. reflexivity. Qed.
Lemma obj_untrack {T} (ft : T -> T) l ps : cpatt_untrack ft (C_Obj l ps) = C_Obj None (map (prop_patt_untrack (patt_untrack ft)) ps).
Proof. reflexivity. Qed.
Lemma node_untracks n : U n.
Proof.
  induction n as [n IH] using node_ind'.
  destruct n as [[]|[]|[]|[]|[]|[]|[]|[]|[]|[]|[]|[]|[]|[]|[]|[]| | | | |[|[]]| |[]|[|[]]| |[]| | | | |[]| | | | | |[]|[]|[]].
  all: try (split; [|exact Logic.I]).
  all: cbn [node_val node_untrack v_expr expr_untrack v_eli eli_untrack v_prop prop_untrack v_pval prop_val_untrack
    v_target target_untrack v_stmt stmt_untrack v_block block_untrack v_fh for_head_untrack v_fi for_in_head_untrack
    v_fo for_of_head_untrack v_catch catch_untrack v_case case_untrack v_item item_untrack v_decl decl_untrack
    v_dtor dtor_untrack v_cdtor const_dtor_untrack v_import import_untrack v_export export_untrack
    v_mitem mod_item_untrack].
  all: try (go IH; fail).
  all: try match goal with x : func _ _ |- _ => destruct x as [l0 i0 p0 b0 g0] end.
  all: try match goal with x : body _ |- _ => destruct x as [l0 ds0 is0] end.
  all: try match goal with x : module |- _ => destruct x as [l0 ds0 is0] end.
  all: try match goal with x : rest_patt _ |- _ => destruct x as [l0 p0] end.
  all: try match goal with x : params |- _ => destruct x as [l0 ps0 r0] end.
  all: try match goal with x : dir |- _ => destruct x as [l0 s0 sm0] end.
  all: try lazymatch goal with |- U (N_ipatt (Compound ?c)) =>
    assert (K : UE (v_cpatt v_id c) (v_cpatt v_id (cpatt_untrack id_untrack c)));
    [|split; [apply (u_T "Patt" "Compound" _ _ [_] [_] eq_refl eq_refl eq_refl); repeat constructor; exact K|exact K]] end.
  all: lazymatch goal with
    | |- UE (v_func _ _ _) _ => unfold v_func, func_untrack
    | |- UE (v_body _ _) _ => unfold v_body, module_untrack, body_untrack
    | |- UE (v_rest _ _) _ => unfold v_rest, rest_untrack
    | |- UE (v_params _) _ => unfold v_params, params_untrack
    | |- UE (v_dir _) _ => unfold v_dir, dir_untrack
    | |- UE (v_patt _ _) _ => unfold v_patt, patt_untrack
    | |- _ => idtac
    end.
  all: cbn [v_patt_of patt_of_untrack v_pp prop_patt_untrack
    fn_loc fn_id fn_params fn_body fn_generator bo_loc bo_dirs bo_items rp_loc rp_patt pa_loc pa_list pa_rest dir_loc dir_string dir_semi].
  all: rewrite ?arr_untrack, ?obj_untrack, ?arr_val, ?obj_val.
  all: try (go IH; fail).
Qed.

(** ** Types *)

Lemma t_tuple t x d ts fs args :
  lookup easter [t; x] = Some (d, Vd_Tuple ts) -> length args = length (mi_params (td_input d)) ->
  Forall2 (typed easter) (map (subst_ty (combine (map fst (mi_params (td_input d))) args)) ts) fs ->
  typed easter (RTy t args) (Var t x fs).
Proof.
  intros HL Ha HF. apply lookup_ok in HL. destruct HL as (t' & q & E & _ & Hin & Ht & Hv). injection E as <- <-.
  rewrite <- Ht at 1. eapply ty_tuple; [exact Hin|exact Ha|exact Hv|].
  clear -HF. revert fs HF. induction ts as [|t ts IH]; intros fs HF; inversion HF; subst; constructor; auto.
Qed.
Lemma t_struct t d gs fs args :
  lookup easter [t] = Some (d, Vd_Struct gs) -> length args = length (mi_params (td_input d)) -> map fst gs = map fst fs ->
  Forall2 (typed easter) (map (fun g => subst_ty (combine (map fst (mi_params (td_input d))) args) (snd g)) gs) (map snd fs) ->
  typed easter (RTy t args) (Str t fs).
Proof.
  intros HL Ha Hn HF. apply lookup_ok in HL. destruct HL as (t' & q & E & _ & Hin & Ht & Hv). injection E as <- <-.
  rewrite <- Ht at 1. eapply ty_struct; [exact Hin|exact Ha|exact Hv|].
  clear -HF Hn. revert fs HF Hn. induction gs as [|[a t] gs IH]; intros [|[b v] fs] HF Hn; try discriminate; [constructor|].
  cbn in *. inversion HF; subst. injection Hn as -> Hn. constructor; auto.
Qed.
Lemma t_opt {A} t (f : A -> val) o : t <> Ty "Span" ->
  (forall a, o = Some a -> typed easter t (f a)) -> typed easter (RTy "Option" [t]) (v_opt f o).
Proof. intros Ht H. destruct o; [apply ty_some|apply ty_none]; auto. Qed.
Lemma t_list {A} t (f : A -> val) l :
  (forall a, In a l -> typed easter t (f a)) -> typed easter (RTy "Vec" [t]) (v_list f l).
Proof. intros H. apply ty_vec. apply Forall_forall. intros v Hv. apply in_map_iff in Hv. destruct Hv as (a & <- & Ha). auto. Qed.

Ltac fields T :=
  repeat first [apply Forall2_nil|apply Forall2_cons];
  lazymatch goal with
  | |- typed _ ?t ?v => let t' := eval lazy in t in change (typed easter t' v)
  end; T.
Ltac leaf :=
  lazymatch goal with
  | |- typed _ (RTy "Box" _) _ => apply ty_box; leaf
  | |- typed _ _ (V_Loc _) => apply ty_loc
  | |- typed _ _ (V_Data ?d) => exact (ty_data easter d)
  | |- typed _ _ (v_semi ?s) => exact (ty_data easter (Da_Semi s))
  | |- typed _ _ (v_string ?s) => exact (ty_data easter (Da_StringLit s))
  | |- typed _ _ (v_number ?s) => exact (ty_data easter (Da_NumberLit s))
  | |- typed _ _ (Var _ _ _) => eapply t_tuple; [lazy; reflexivity|reflexivity|cbn [map]; fields ltac:(idtac; leaf)]
  | |- typed _ _ (Str _ _) => eapply t_struct; [lazy; reflexivity|reflexivity|reflexivity|cbn [map snd]; fields ltac:(idtac; leaf)]
  end.
Lemma t_id i : typed easter (Ty "Id") (v_id i).
Proof. unfold v_id. leaf. Qed.
Lemma t_dk i : typed easter (Ty "DotKey") (v_dk i).
Proof. unfold v_dk. leaf. Qed.
Lemma t_pk i : typed easter (Ty "PropKey") (v_pk i).
Proof. destruct i; cbn [v_pk]; leaf. Qed.
Lemma t_unop o : typed easter (Ty "Unop") (v_op Da_Unop o).
Proof. eapply ty_alias; [cbn; tauto|]. unfold v_op, App. leaf. Qed.
Lemma t_binop o : typed easter (Ty "Binop") (v_op Da_Binop o).
Proof. eapply ty_alias; [cbn; tauto|]. unfold v_op, App. leaf. Qed.
Lemma t_logop o : typed easter (Ty "Logop") (v_op Da_Logop o).
Proof. eapply ty_alias; [cbn; tauto|]. unfold v_op, App. leaf. Qed.
Lemma t_assop o : typed easter (Ty "Assop") (v_op Da_Assop o).
Proof. eapply ty_alias; [cbn; tauto|]. unfold v_op, App. leaf. Qed.

Definition TY (n : node) : Prop :=
  typed easter (node_type n) (node_val n)
  /\ match n with
     | N_ipatt (Compound c) => typed easter (App "CompoundPatt" (Ty "Id")) (v_cpatt v_id c)
     | _ => True
     end.
Ltac tkid IH :=
  lazymatch goal with
  | |- typed _ _ (v_expr ?a) => exact (proj1 (IH (N_expr a) ltac:(member)))
  | |- typed _ _ (v_eli ?a) => exact (proj1 (IH (N_eli a) ltac:(member)))
  | |- typed _ _ (v_prop ?a) => exact (proj1 (IH (N_prop a) ltac:(member)))
  | |- typed _ _ (v_pval ?a) => exact (proj1 (IH (N_pval a) ltac:(member)))
  | |- typed _ _ (v_target ?a) => exact (proj1 (IH (N_target a) ltac:(member)))
  | |- typed _ _ (v_stmt ?a) => exact (proj1 (IH (N_stmt a) ltac:(member)))
  | |- typed _ _ (v_block ?a) => exact (proj1 (IH (N_block a) ltac:(member)))
  | |- typed _ _ (v_fh ?a) => exact (proj1 (IH (N_fh a) ltac:(member)))
  | |- typed _ _ (v_fi ?a) => exact (proj1 (IH (N_fi a) ltac:(member)))
  | |- typed _ _ (v_fo ?a) => exact (proj1 (IH (N_fo a) ltac:(member)))
  | |- typed _ _ (v_catch ?a) => exact (proj1 (IH (N_catch a) ltac:(member)))
  | |- typed _ _ (v_case ?a) => exact (proj1 (IH (N_case a) ltac:(member)))
  | |- typed _ _ (v_item ?a) => exact (proj1 (IH (N_item a) ltac:(member)))
  | |- typed _ _ (v_decl ?a) => exact (proj1 (IH (N_decl a) ltac:(member)))
  | |- typed _ _ (v_dtor ?a) => exact (proj1 (IH (N_dtor a) ltac:(member)))
  | |- typed _ _ (v_cdtor ?a) => exact (proj1 (IH (N_cdtor a) ltac:(member)))
  | |- typed _ _ (v_func (v_opt v_id) _ ?a) => exact (proj1 (IH (N_fexpr a) ltac:(member)))
  | |- typed _ _ (v_func v_pk _ ?a) => exact (proj1 (IH (N_fmeth a) ltac:(member)))
  | |- typed _ _ (v_func v_id _ ?a) => exact (proj1 (IH (N_fdecl a) ltac:(member)))
  | |- typed _ _ (v_body v_item ?a) => exact (proj1 (IH (N_body a) ltac:(member)))
  | |- typed _ _ (v_body v_mitem ?a) => exact (proj1 (IH (N_mod a) ltac:(member)))
  | |- typed _ _ (v_patt_of v_target _ ?a) => exact (proj1 (IH (N_tpatt a) ltac:(member)))
  | |- typed _ _ (v_patt v_target ?a) => exact (proj1 (IH (N_tpatt a) ltac:(member)))
  | |- typed _ _ (v_patt_of v_id _ ?a) => exact (proj1 (IH (N_ipatt a) ltac:(member)))
  | |- typed _ _ (v_patt v_id ?a) => exact (proj1 (IH (N_ipatt a) ltac:(member)))
  | |- typed _ _ (v_rest (v_patt_of v_target _) ?a) => exact (proj1 (IH (N_trest a) ltac:(member)))
  | |- typed _ _ (v_rest (v_patt_of v_id _) ?a) => exact (proj1 (IH (N_irest a) ltac:(member)))
  | |- typed _ _ (v_rest (v_patt v_target) ?a) => exact (proj1 (IH (N_trest a) ltac:(member)))
  | |- typed _ _ (v_pp (v_patt v_target) ?a) => exact (proj1 (IH (N_tpp a) ltac:(member)))
  | |- typed _ _ (v_pp (v_patt v_id) ?a) => exact (proj1 (IH (N_ipp a) ltac:(member)))
  | |- typed _ _ (v_rest (v_patt v_id) ?a) => exact (proj1 (IH (N_irest a) ltac:(member)))
  | |- typed _ _ (v_pp (v_patt_of v_target _) ?a) => exact (proj1 (IH (N_tpp a) ltac:(member)))
  | |- typed _ _ (v_pp (v_patt_of v_id _) ?a) => exact (proj1 (IH (N_ipp a) ltac:(member)))
  | |- typed _ _ (v_cpatt v_id ?a) => exact (proj2 (IH (N_ipatt (Compound a)) ltac:(member)))
  | |- typed _ _ (v_params ?a) => exact (proj1 (IH (N_params a) ltac:(member)))
  | |- typed _ _ (v_dir ?a) => exact (proj1 (IH (N_dir a) ltac:(member)))
  | |- typed _ _ (v_import ?a) => exact (proj1 (IH (N_import a) ltac:(member)))
  | |- typed _ _ (v_export ?a) => exact (proj1 (IH (N_export a) ltac:(member)))
  | |- typed _ _ (v_mitem ?a) => exact (proj1 (IH (N_mitem a) ltac:(member)))
  end.

Ltac tgo IH :=
  lazymatch goal with
  | |- typed _ (RTy "Box" _) _ => apply ty_box; tgo IH
  | |- typed _ _ (v_id _) => apply t_id
  | |- typed _ _ (v_dk _) => apply t_dk
  | |- typed _ _ (v_pk _) => apply t_pk
  | |- typed _ _ (v_op Da_Unop _) => apply t_unop
  | |- typed _ _ (v_op Da_Binop _) => apply t_binop
  | |- typed _ _ (v_op Da_Logop _) => apply t_logop
  | |- typed _ _ (v_op Da_Assop _) => apply t_assop
  | |- typed _ _ (v_opt _ _) => apply t_opt; [discriminate|intros ? ->; tgo IH]
  | |- typed _ _ (v_list _ _) => apply t_list; intros ? ?; tgo IH
  | |- typed _ _ (V_Loc _) => leaf
  | |- typed _ _ (V_Data _) => leaf
  | |- typed _ _ (v_semi _) => leaf
  | |- typed _ _ (v_string _) => leaf
  | |- typed _ _ (v_number _) => leaf
  | |- typed _ _ (Var _ _ _) => eapply t_tuple; [lazy; reflexivity|reflexivity|cbn [map]; fields ltac:(idtac; tgo IH)]
  | |- typed _ _ (Str _ _) => eapply t_struct; [lazy; reflexivity|reflexivity|reflexivity|cbn [map snd]; fields ltac:(idtac; tgo IH)]
  | |- _ => tkid IH
  end.
Lemma node_typed n : TY n.
Proof.
  induction n as [n IH] using node_ind'.
  destruct n as [[]|[]|[]|[]|[]|[]|[]|[]|[]|[]|[]|[]|[]|[]|[]|[]| | | | |[|[]]| |[]|[|[]]| |[]| | | | |[]| | | | | |[]|[]|[]].
  all: try (split; [|exact Logic.I]).
  all: cbn [node_val v_expr v_eli v_prop v_pval node_type
    v_target v_stmt v_block v_fh v_fi v_fo v_catch v_case v_item v_decl v_dtor v_cdtor v_import v_export v_mitem].
  all: try (tgo IH; fail).
  all: try match goal with x : func _ _ |- _ => destruct x as [l0 i0 p0 b0 g0] end.
  all: try match goal with x : body _ |- _ => destruct x as [l0 ds0 is0] end.
  all: try match goal with x : module |- _ => destruct x as [l0 ds0 is0] end.
  all: try match goal with x : rest_patt _ |- _ => destruct x as [l0 p0] end.
  all: try match goal with x : params |- _ => destruct x as [l0 ps0 r0] end.
  all: try match goal with x : dir |- _ => destruct x as [l0 s0 sm0] end.
  all: try lazymatch goal with |- TY (N_ipatt (Compound ?c)) =>
    assert (K : typed easter (App "CompoundPatt" (Ty "Id")) (v_cpatt v_id c));
    [|split; [apply (t_tuple "Patt" "Compound" _ _ [_] [_] eq_refl eq_refl); repeat constructor; exact K|exact K]] end.
  all: try match goal with |- typed _ (Ty "Script") _ => eapply ty_alias; [left; reflexivity|] end.
  all: try match goal with |- typed _ (Ty "Module") _ => eapply ty_alias; [right; left; reflexivity|] end.
  all: lazymatch goal with
    | |- typed _ _ (v_func _ _ _) => unfold v_func
    | |- typed _ _ (v_body _ _) => unfold v_body
    | |- typed _ _ (v_rest _ _) => unfold v_rest
    | |- typed _ _ (v_params _) => unfold v_params
    | |- typed _ _ (v_dir _) => unfold v_dir
    | |- typed _ _ (v_patt _ _) => unfold v_patt
    | |- _ => idtac
    end.
  all: cbn [v_patt_of v_pp
    fn_loc fn_id fn_params fn_body fn_generator bo_loc bo_dirs bo_items rp_loc rp_patt pa_loc pa_list pa_rest dir_loc dir_string dir_semi].
  all: rewrite ?arr_val, ?obj_val.
  all: try (tgo IH; fail).
Qed.

(** ** Locations *)

Theorem easter_expands d m : In d easter -> derives d (tracking_trait m) = true ->
  exists i, expand_tracking (td_input d) m = inl i.
Proof.
  intros H Hd. assert (F : forallb (fun d => forallb (fun m => negb (derives d (tracking_trait m))
      || match expand_tracking (td_input d) m with inl _ => true | inr _ => false end) [Immutable; Mutable]) easter = true)
    by (vm_compute; reflexivity).
  rewrite forallb_forall in F. apply F in H. rewrite forallb_forall in H.
  specialize (H m ltac:(destruct m; cbn; tauto)). rewrite Hd in H. cbn [negb orb] in H.
  destruct (expand_tracking (td_input d) m) as [i|]; [exists i; reflexivity|discriminate].
Qed.

(** Through the method of [v] the location [l] is read, and writing another one makes it [g]. *)
Definition TR (m : mutability) (v : val) (l : loc) (g : loc -> val) : Prop :=
  exists p, tracks easter m v p /\ read_place p v = Some (V_Loc l)
    /\ forall l', write_place p (V_Loc l') v = Some (g l').

Definition tracking_else (P : list type_decl) (m : mutability) (k : nat) (v : val) : option place :=
  match val_type v with
  | Some t =>
      match find_type P t with
      | Some d =>
          if derives d (tracking_trait m) then
            match expand_tracking (td_input d) m with
            | inl i => run_tracking m (tracking_val P m k) (im_arms i) v
            | inr _ => None
            end
          else None
      | None => None
      end
  | None => None
  end.
Lemma tracking_tuple P m k t x fs : String.eqb t "Patt" = false ->
  tracking_val P m (S k) (V_Tuple [t; x] fs) = tracking_else P m k (V_Tuple [t; x] fs).
Proof.
  intros H. cbn [tracking_val].
  repeat match goal with
  | |- context [match ?a with _ => _ end] => is_var a; destruct a; try reflexivity
  end; try discriminate H.
Qed.

Lemma tr_loc m l : TR m (V_Loc l) l V_Loc.
Proof. exists []. split; [exists 1; intros [|k] Hk; [lia|reflexivity]|]. split; reflexivity. Qed.
Lemma tr_here m t x d ts l fs g :
  lookup easter [t; x] = Some (d, Vd_Tuple (location_type :: ts)) -> derives d (tracking_trait m) = true ->
  String.eqb t "Patt" = false -> length fs = length ts -> (forall l', g l' = Var t x (V_Loc l' :: fs)) ->
  TR m (Var t x (V_Loc l :: fs)) l g.
Proof.
  intros HL Hd Ht Hl Hg. apply lookup_ok in HL. destruct HL as (t' & q & E & Hf & Hin & _ & Hv). injection E as <- <-.
  destruct (easter_expands _ m Hin Hd) as [i Hi].
  exists [0]. split; [|split; [reflexivity|intros l'; rewrite Hg; reflexivity]].
  exists 1. intros [|k] Hk; [lia|]. unfold Var. rewrite tracking_tuple by exact Ht. unfold tracking_else. cbn [val_type].
  rewrite Hf, Hd, Hi. eapply run_tracking_iff; [apply easter_declarable, Hin|exact Hi|exact Hv|split; [reflexivity|cbn; congruence]|].
  cbn. split; [reflexivity|congruence].
Qed.
Lemma tr_first m t x d t0 ts w l fs h g :
  lookup easter [t; x] = Some (d, Vd_Tuple (t0 :: ts)) -> is_location_type t0 = false -> derives d (tracking_trait m) = true ->
  String.eqb t "Patt" = false -> length fs = length ts -> TR m w l h -> (forall l', g l' = Var t x (h l' :: fs)) ->
  TR m (Var t x (w :: fs)) l g.
Proof.
  intros HL H0 Hd Ht Hl (p & [k0 H] & Hr & Hw) Hg.
  apply lookup_ok in HL. destruct HL as (t' & q & E & Hf & Hin & _ & Hv). injection E as <- <-.
  destruct (easter_expands _ m Hin Hd) as [i Hi].
  exists (0 :: p). split; [|split; [exact Hr|intros l'; cbn; rewrite Hw, Hg; reflexivity]].
  exists (S k0). intros [|k] Hk; [lia|]. unfold Var. rewrite tracking_tuple by exact Ht. unfold tracking_else. cbn [val_type].
  rewrite Hf, Hd, Hi. eapply run_tracking_iff; [apply easter_declarable, Hin|exact Hi|exact Hv|split; [reflexivity|cbn; congruence]|].
  cbn. split; [intros ->; vm_compute in H0; discriminate|intros _; exists p; split; [apply H; lia|reflexivity]].
Qed.
Lemma tr_patt m x w l h g :
  TR m w l h -> (forall l', g l' = Var "Patt" x [h l']) -> TR m (Var "Patt" x [w]) l g.
Proof.
  intros (p & [k0 H] & Hr & Hw) Hg.
  exists (0 :: p). split; [|split; [exact Hr|intros l'; cbn; rewrite Hw, Hg; reflexivity]].
  exists (S k0). intros [|k] Hk; [lia|]. cbn. rewrite H by lia. reflexivity.
Qed.
Lemma tr_struct m t d gs l fs g :
  lookup easter [t] = Some (d, Vd_Struct gs) -> derives d (tracking_trait m) = true ->
  "location" :: map fst fs = map fst gs -> (forall l', g l' = Str t (("location", V_Loc l') :: fs)) ->
  TR m (Str t (("location", V_Loc l) :: fs)) l g.
Proof.
  intros HL Hd Hn Hg. apply lookup_ok in HL. destruct HL as (t' & q & E & Hf & Hin & _ & Hv). injection E as <- <-.
  destruct (easter_expands _ m Hin Hd) as [i Hi].
  exists [0]. split; [|split; [reflexivity|intros l'; rewrite Hg; cbn [write_place val_fields Str map snd nth_error option_map]]].
  - exists 1. intros [|k] Hk; [lia|]. cbn [Str tracking_val val_type]. rewrite Hf, Hd, Hi.
    eapply run_tracking_iff; [apply easter_declarable, Hin|exact Hi|exact Hv|split; [reflexivity|exact Hn]|].
    exists 0. split; reflexivity.
  - unfold Str. cbn. f_equal. f_equal. f_equal. clear. induction fs as [|[a b] fs IH]; [reflexivity|]. cbn. f_equal. exact IH.
Qed.

Create HintDb tr.
Ltac trg :=
  lazymatch goal with
  | |- TR _ (V_Loc _) _ _ => apply tr_loc
  | |- TR _ (Var "Patt" _ _) _ _ => eapply tr_patt; [trg|intro; reflexivity]
  | |- TR ?m (Var _ _ (V_Loc _ :: _)) _ _ =>
      eapply tr_here; [lazy; reflexivity|destruct m; reflexivity|reflexivity|reflexivity|intro; reflexivity]
  | |- TR ?m (Var _ _ _) _ _ =>
      eapply tr_first; [lazy; reflexivity|reflexivity|destruct m; reflexivity|reflexivity|reflexivity|trg|intro; reflexivity]
  | |- TR ?m (Str _ _) _ _ => eapply tr_struct; [lazy; reflexivity|destruct m; reflexivity|reflexivity|intro; reflexivity]
  | |- _ => solve [eauto with tr]
  end.
Lemma tr_id m (x : id) : TR m (v_id x) (id_loc x) (fun l => v_id (id_set_loc x l)).
Proof. unfold v_id; trg. Qed.
#[local] Hint Resolve tr_id : tr.
Lemma tr_dk m (x : dot_key) : TR m (v_dk x) (dk_loc x) (fun l => v_dk (dot_key_set_loc x l)).
Proof. unfold v_dk; trg. Qed.
#[local] Hint Resolve tr_dk : tr.
Lemma tr_pk m (x : prop_key) : TR m (v_pk x) (prop_key_loc x) (fun l => v_pk (prop_key_set_loc x l)).
Proof. destruct x; cbn [v_pk prop_key_loc]; trg. Qed.
#[local] Hint Resolve tr_pk : tr.
Lemma tr_target m (x : target) : TR m (v_target x) (target_loc x) (fun l => v_target (target_set_loc x l)).
Proof. destruct x; cbn [v_target target_loc]; trg. Qed.
#[local] Hint Resolve tr_target : tr.
Lemma tr_func {I B} m (f : I -> val) (g : B -> val) (x : func I B) :
  TR m (v_func f g x) (fn_loc x) (fun l => v_func f g (func_set_loc x l)).
Proof. unfold v_func; trg. Qed.
#[local] Hint Resolve tr_func : tr.
Lemma tr_body {I} m (f : I -> val) (x : body I) : TR m (v_body f x) (bo_loc x) (fun l => v_body f (body_set_loc x l)).
Proof. unfold v_body; trg. Qed.
#[local] Hint Resolve tr_body : tr.
Lemma tr_cpatt {T} m (f : T -> val) (x : cpatt T) : TR m (v_cpatt f x) (cpatt_loc x) (fun l => v_cpatt f (cpatt_set_loc x l)).
Proof. destruct x; cbn [v_cpatt cpatt_loc]; trg. Qed.
#[local] Hint Resolve tr_cpatt : tr.
Lemma tr_ipatt m (x : patt id) : TR m (v_patt v_id x) (patt_id_loc x) (fun l => v_patt v_id (patt_id_set_loc x l)).
Proof. unfold v_patt. destruct x; cbn [v_patt_of patt_id_loc patt_of_loc]; trg. Qed.
#[local] Hint Resolve tr_ipatt : tr.
Lemma tr_tpatt m (x : patt target) :
  TR m (v_patt v_target x) (patt_target_loc x) (fun l => v_patt v_target (patt_target_set_loc x l)).
Proof. unfold v_patt. destruct x; cbn [v_patt_of patt_target_loc patt_of_loc]; trg. Qed.
#[local] Hint Resolve tr_tpatt : tr.
Lemma tr_rest {P} m (f : P -> val) (x : rest_of P) : TR m (v_rest f x) (rp_loc x) (fun l => v_rest f (rest_set_loc x l)).
Proof. unfold v_rest; trg. Qed.
#[local] Hint Resolve tr_rest : tr.
Lemma tr_pp {P} m (f : P -> val) (x : prop_patt_of P) : TR m (v_pp f x) (prop_patt_loc x) (fun l => v_pp f (prop_patt_set_loc x l)).
Proof. destruct x; cbn [v_pp prop_patt_loc]; trg. Qed.
#[local] Hint Resolve tr_pp : tr.
Lemma tr_params m x : TR m (v_params x) (pa_loc x) (fun l => v_params (params_set_loc x l)).
Proof. unfold v_params; trg. Qed.
Lemma tr_dir m x : TR m (v_dir x) (dir_loc x) (fun l => v_dir (dir_set_loc x l)).
Proof. unfold v_dir; trg. Qed.
Lemma tr_op {T} m (f : T -> data) (x : op T) : TR m (v_op f x) (op_loc x) (fun l => v_op f (Op l (op_tag x))).
Proof. unfold v_op; trg. Qed.
#[local] Hint Resolve tr_params tr_dir tr_op : tr.
Lemma tr_expr m x : TR m (v_expr x) (expr_loc x) (fun l => v_expr (expr_set_loc x l)).
Proof. destruct x; cbn [v_expr expr_loc]; trg. Qed.
#[local] Hint Resolve tr_expr : tr.
Lemma tr_eli m x : TR m (v_eli x) (eli_loc x) (fun l => v_eli (eli_set_loc x l)).
Proof. destruct x; cbn [v_eli eli_loc]; trg. Qed.
Lemma tr_pval m x : TR m (v_pval x) (prop_val_loc x) (fun l => v_pval (prop_val_set_loc x l)).
Proof. destruct x; cbn [v_pval prop_val_loc]; trg. Qed.
Lemma tr_prop m x : TR m (v_prop x) (prop_loc x) (fun l => v_prop (prop_set_loc x l)).
Proof. destruct x; cbn [v_prop prop_loc]; trg. Qed.
Lemma tr_block m x : TR m (v_block x) (block_loc x) (fun l => v_block (block_set_loc x l)).
Proof. destruct x; cbn [v_block block_loc]; trg. Qed.
#[local] Hint Resolve tr_eli tr_pval tr_prop tr_block : tr.
Lemma tr_fh m x : TR m (v_fh x) (for_head_loc x) (fun l => v_fh (for_head_set_loc x l)).
Proof. destruct x; cbn [v_fh for_head_loc]; trg. Qed.
Lemma tr_fi m x : TR m (v_fi x) (for_in_head_loc x) (fun l => v_fi (for_in_head_set_loc x l)).
Proof. destruct x; cbn [v_fi for_in_head_loc]; trg. Qed.
Lemma tr_fo m x : TR m (v_fo x) (for_of_head_loc x) (fun l => v_fo (for_of_head_set_loc x l)).
Proof. destruct x; cbn [v_fo for_of_head_loc]; trg. Qed.
Lemma tr_catch m x : TR m (v_catch x) (catch_loc x) (fun l => v_catch (catch_set_loc x l)).
Proof. destruct x; cbn [v_catch catch_loc]; trg. Qed.
Lemma tr_case m x : TR m (v_case x) (case_loc x) (fun l => v_case (case_set_loc x l)).
Proof. destruct x; cbn [v_case case_loc]; trg. Qed.
Lemma tr_decl m x : TR m (v_decl x) (decl_loc x) (fun l => v_decl (decl_set_loc x l)).
Proof. destruct x; cbn [v_decl decl_loc]; trg. Qed.
Lemma tr_dtor m x : TR m (v_dtor x) (dtor_loc x) (fun l => v_dtor (dtor_set_loc x l)).
Proof. destruct x; cbn [v_dtor dtor_loc]; trg. Qed.
Lemma tr_cdtor m x : TR m (v_cdtor x) (const_dtor_loc x) (fun l => v_cdtor (const_dtor_set_loc x l)).
Proof. destruct x; cbn [v_cdtor const_dtor_loc]; trg. Qed.
#[local] Hint Resolve tr_fh tr_fi tr_fo tr_catch tr_case tr_decl tr_dtor tr_cdtor : tr.
Lemma tr_stmt m x : TR m (v_stmt x) (stmt_loc x) (fun l => v_stmt (stmt_set_loc x l)).
Proof. destruct x; cbn [v_stmt stmt_loc]; trg. Qed.
#[local] Hint Resolve tr_stmt : tr.
Lemma tr_item m x : TR m (v_item x) (item_loc x) (fun l => v_item (item_set_loc x l)).
Proof. destruct x; cbn [v_item item_loc]; trg. Qed.
Lemma tr_import m x : TR m (v_import x) (import_loc x) (fun l => v_import (import_set_loc x l)).
Proof. destruct x; cbn [v_import import_loc]; trg. Qed.
Lemma tr_export m x : TR m (v_export x) (export_loc x) (fun l => v_export (export_set_loc x l)).
Proof. destruct x; cbn [v_export export_loc]; trg. Qed.
#[local] Hint Resolve tr_item tr_import tr_export : tr.
Lemma tr_mitem m x : TR m (v_mitem x) (mod_item_loc x) (fun l => v_mitem (mod_item_set_loc x l)).
Proof. destruct x; cbn [v_mitem mod_item_loc]; trg. Qed.
#[local] Hint Resolve tr_mitem : tr.

Theorem node_tracks m n : TR m (node_val n) (node_loc n) (fun l => node_val (node_set_loc n l)).
Proof. destruct n; cbn [node_val node_loc node_set_loc]; eauto with tr. Qed.
