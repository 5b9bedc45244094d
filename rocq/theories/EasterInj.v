(** Distinct trees are distinct values of easter's types. *)
From Coq Require Import String Ascii List NArith Bool Lia Arith.
From Verif Require Import Base Word Token Punc Ast Track Node NodeProofs SpecTree Derive Easter SpecDerive DeriveProofs EasterProofs.
Import ListNotations.
Local Open Scope string_scope.
Local Open Scope list_scope.
Local Open Scope nat_scope.

Lemma i_opt {A} (f : A -> val) o o' :
  (forall a, o = Some a -> forall a', f a = f a' -> a = a') -> v_opt f o = v_opt f o' -> o = o'.
Proof.
  destruct o as [a|], o' as [a'|]; cbn; intros H E; try discriminate; [|reflexivity].
  injection E as E. f_equal. eapply H; [reflexivity|exact E].
Qed.
Lemma i_list {A} (f : A -> val) l l' :
  (forall a, In a l -> forall a', f a = f a' -> a = a') -> v_list f l = v_list f l' -> l = l'.
Proof.
  unfold v_list. intros H E. injection E as E. revert l' E. induction l as [|a l IH]; intros [|a' l'] E; try discriminate; [reflexivity|].
  cbn in E. injection E as E1 E2. f_equal; [apply H; [left; reflexivity|exact E1]|]. apply IH; [|exact E2].
  intros b Hb. apply H. right. exact Hb.
Qed.
Lemma i_id i j : v_id i = v_id j -> i = j.
Proof. destruct i, j. cbn. intros H. injection H as -> ->. reflexivity. Qed.
Lemma i_dk i j : v_dk i = v_dk j -> i = j.
Proof. destruct i, j. cbn. intros H. injection H as -> ->. reflexivity. Qed.
Lemma i_pk i j : v_pk i = v_pk j -> i = j.
Proof. destruct i, j; cbn; intros H; try discriminate; injection H as -> ->; reflexivity. Qed.
Lemma i_op {T} (f : T -> data) (i j : op T) : (forall a b, f a = f b -> a = b) -> v_op f i = v_op f j -> i = j.
Proof. intros Hf. destruct i, j. cbn. intros H. injection H as -> H. apply Hf in H. subst. reflexivity. Qed.
Lemma i_unop (i j : op unop_tag) : v_op Da_Unop i = v_op Da_Unop j -> i = j.
Proof. apply i_op. congruence. Qed.
Lemma i_binop (i j : op binop_tag) : v_op Da_Binop i = v_op Da_Binop j -> i = j.
Proof. apply i_op. congruence. Qed.
Lemma i_logop (i j : op logop_tag) : v_op Da_Logop i = v_op Da_Logop j -> i = j.
Proof. apply i_op. congruence. Qed.
Lemma i_assop (i j : op assop_tag) : v_op Da_Assop i = v_op Da_Assop j -> i = j.
Proof. apply i_op. congruence. Qed.

Definition same_as {A} (f : A -> val) (a : A) : Prop := forall a', f a = f a' -> a = a'.
(** No other tree of the kind of [n] has its value. *)
Definition INJ (n : node) : Prop :=
  match n with
  | N_expr x => same_as v_expr x
  | N_eli x => same_as v_eli x
  | N_prop x => same_as v_prop x
  | N_pval x => same_as v_pval x
  | N_target x => same_as v_target x
  | N_stmt x => same_as v_stmt x
  | N_block x => same_as v_block x
  | N_fh x => same_as v_fh x
  | N_fi x => same_as v_fi x
  | N_fo x => same_as v_fo x
  | N_catch x => same_as v_catch x
  | N_case x => same_as v_case x
  | N_item x => same_as v_item x
  | N_decl x => same_as v_decl x
  | N_dtor x => same_as v_dtor x
  | N_cdtor x => same_as v_cdtor x
  | N_fexpr x => same_as (v_func (v_opt v_id) (v_body v_item)) x
  | N_fmeth x => same_as (v_func v_pk (v_body v_item)) x
  | N_fdecl x => same_as (v_func v_id (v_body v_item)) x
  | N_body x => same_as (v_body v_item) x
  | N_tpatt x => same_as (v_patt v_target) x
  | N_trest x => same_as (v_rest (v_patt v_target)) x
  | N_tpp x => same_as (v_pp (v_patt v_target)) x
  | N_ipatt x => same_as (v_patt v_id) x
  | N_irest x => same_as (v_rest (v_patt v_id)) x
  | N_ipp x => same_as (v_pp (v_patt v_id)) x
  | N_params x => same_as v_params x
  | N_dir x => same_as v_dir x
  | N_id x => same_as v_id x
  | N_dk x => same_as v_dk x
  | N_pk x => same_as v_pk x
  | N_unop x => same_as (v_op Da_Unop) x
  | N_binop x => same_as (v_op Da_Binop) x
  | N_logop x => same_as (v_op Da_Logop) x
  | N_assop x => same_as (v_op Da_Assop) x
  | N_mod x => same_as (v_body v_mitem) x
  | N_mitem x => same_as v_mitem x
  | N_import x => same_as v_import x
  | N_export x => same_as v_export x
  end.
Lemma i_compound (c c' : cpatt id) : same_as (v_patt v_id) (Compound c) -> v_cpatt v_id c = v_cpatt v_id c' -> c = c'.
Proof. intros H E. specialize (H (Compound c')). cbn in H. rewrite E in H. specialize (H eq_refl). congruence. Qed.

Ltac ikid IH :=
  lazymatch goal with
  | |- v_expr ?a = _ -> _ => exact (IH (N_expr a) ltac:(member) _)
  | |- v_eli ?a = _ -> _ => exact (IH (N_eli a) ltac:(member) _)
  | |- v_prop ?a = _ -> _ => exact (IH (N_prop a) ltac:(member) _)
  | |- v_pval ?a = _ -> _ => exact (IH (N_pval a) ltac:(member) _)
  | |- v_target ?a = _ -> _ => exact (IH (N_target a) ltac:(member) _)
  | |- v_stmt ?a = _ -> _ => exact (IH (N_stmt a) ltac:(member) _)
  | |- v_block ?a = _ -> _ => exact (IH (N_block a) ltac:(member) _)
  | |- v_fh ?a = _ -> _ => exact (IH (N_fh a) ltac:(member) _)
  | |- v_fi ?a = _ -> _ => exact (IH (N_fi a) ltac:(member) _)
  | |- v_fo ?a = _ -> _ => exact (IH (N_fo a) ltac:(member) _)
  | |- v_catch ?a = _ -> _ => exact (IH (N_catch a) ltac:(member) _)
  | |- v_case ?a = _ -> _ => exact (IH (N_case a) ltac:(member) _)
  | |- v_item ?a = _ -> _ => exact (IH (N_item a) ltac:(member) _)
  | |- v_decl ?a = _ -> _ => exact (IH (N_decl a) ltac:(member) _)
  | |- v_dtor ?a = _ -> _ => exact (IH (N_dtor a) ltac:(member) _)
  | |- v_cdtor ?a = _ -> _ => exact (IH (N_cdtor a) ltac:(member) _)
  | |- v_func (v_opt v_id) _ ?a = _ -> _ => exact (IH (N_fexpr a) ltac:(member) _)
  | |- v_func v_pk _ ?a = _ -> _ => exact (IH (N_fmeth a) ltac:(member) _)
  | |- v_func v_id _ ?a = _ -> _ => exact (IH (N_fdecl a) ltac:(member) _)
  | |- v_body v_item ?a = _ -> _ => exact (IH (N_body a) ltac:(member) _)
  | |- v_patt v_target ?a = _ -> _ => exact (IH (N_tpatt a) ltac:(member) _)
  | |- v_patt v_id ?a = _ -> _ => exact (IH (N_ipatt a) ltac:(member) _)
  | |- v_patt_of v_target _ ?a = _ -> _ => exact (IH (N_tpatt a) ltac:(member) _)
  | |- v_patt_of v_id _ ?a = _ -> _ => exact (IH (N_ipatt a) ltac:(member) _)
  | |- v_rest (v_patt_of v_target _) ?a = _ -> _ => exact (IH (N_trest a) ltac:(member) _)
  | |- v_rest (v_patt_of v_id _) ?a = _ -> _ => exact (IH (N_irest a) ltac:(member) _)
  | |- v_pp (v_patt_of v_target _) ?a = _ -> _ => exact (IH (N_tpp a) ltac:(member) _)
  | |- v_pp (v_patt_of v_id _) ?a = _ -> _ => exact (IH (N_ipp a) ltac:(member) _)
  | |- v_rest (v_patt v_target) ?a = _ -> _ => exact (IH (N_trest a) ltac:(member) _)
  | |- v_pp (v_patt v_target) ?a = _ -> _ => exact (IH (N_tpp a) ltac:(member) _)
  | |- v_pp (v_patt v_id) ?a = _ -> _ => exact (IH (N_ipp a) ltac:(member) _)
  | |- v_rest (v_patt v_id) ?a = _ -> _ => exact (IH (N_irest a) ltac:(member) _)
  | |- v_cpatt v_id ?a = _ -> _ => apply i_compound; exact (IH (N_ipatt (Compound a)) ltac:(member))
  | |- v_params ?a = _ -> _ => exact (IH (N_params a) ltac:(member) _)
  | |- v_dir ?a = _ -> _ => exact (IH (N_dir a) ltac:(member) _)
  | |- v_import ?a = _ -> _ => exact (IH (N_import a) ltac:(member) _)
  | |- v_export ?a = _ -> _ => exact (IH (N_export a) ltac:(member) _)
  | |- v_mitem ?a = _ -> _ => exact (IH (N_mitem a) ltac:(member) _)
  | |- v_id _ = _ -> _ => apply i_id
  | |- v_dk _ = _ -> _ => apply i_dk
  | |- v_pk _ = _ -> _ => apply i_pk
  | |- v_op Da_Unop _ = _ -> _ => apply i_unop
  | |- v_op Da_Binop _ = _ -> _ => apply i_binop
  | |- v_op Da_Logop _ = _ -> _ => apply i_logop
  | |- v_op Da_Assop _ = _ -> _ => apply i_assop
  | |- v_semi _ = _ -> _ => let H := fresh in intros H; injection H; trivial
  | |- v_string _ = _ -> _ => let H := fresh in intros H; injection H; trivial
  | |- v_number _ = _ -> _ => let H := fresh in intros H; injection H; trivial
  | |- V_Data _ = _ -> _ => let H := fresh in intros H; injection H; trivial
  | |- V_Loc _ = _ -> _ => let H := fresh in intros H; injection H; trivial
  | |- v_opt _ _ = _ -> _ => apply i_opt; intros ? -> ?; ikid IH
  | |- v_list _ _ = _ -> _ => apply i_list; intros ? ? ?; ikid IH
  end.
(** Equal tuples have equal fields. *)
Lemma tuple_eq t x t' x' fs fs' : Var t x fs = Var t' x' fs' -> x = x' /\ fs = fs'.
Proof. unfold Var. intros H. injection H. auto. Qed.
Lemma str_eq t t' fs fs' : Str t fs = Str t' fs' -> map snd fs = map snd fs'.
Proof. unfold Str. intros H. injection H. intros -> _. reflexivity. Qed.
Lemma cons_eq {A} (a b : A) l m : a :: l = b :: m -> a = b /\ l = m.
Proof. intros H. injection H. auto. Qed.
Ltac igo_in IH H :=
  first [apply tuple_eq in H; destruct H as [_ H]|apply str_eq in H; cbn [map snd] in H];
  repeat match type of H with
  | _ :: _ = _ :: _ => let E := fresh "E" in apply cons_eq in H; destruct H as [E H]
  end; clear H;
  repeat match goal with
  | E : V_Data _ = V_Data _ |- _ => injection E; clear E; intros; subst
  | E : ?f ?a = ?f ?b |- _ => lazymatch type of E with @eq val _ _ => idtac end;
      let K := fresh "K" in assert (K : a = b) by (revert E; ikid IH); clear E; subst
  end; reflexivity.
Ltac igo IH :=
  let x := fresh "x'" in let H := fresh "H" in
  intros x H; destruct x;
  cbn [v_expr v_eli v_prop v_pval v_target v_stmt v_block v_fh v_fi v_fo v_catch v_case v_item v_decl v_dtor v_cdtor v_import v_export v_mitem] in H;
  try (apply tuple_eq in H; destruct H as [H _]; discriminate H);
  igo_in IH H.

Lemma node_inj n : INJ n.
Proof.
  induction n as [n IH] using node_ind'.
  destruct n as [[]|[]|[]|[]|[]|[]|[]|[]|[]|[]|[]|[]|[]|[]|[]|[]| | | | |[|[]]| |[]|[|[]]| |[]| | | | |[]| | | | | |[]|[]|[]].
  all: cbn [INJ].
  all: try (igo IH; fail).
  all: try match goal with x : func _ _ |- _ => destruct x as [l0 i0 p0 b0 g0] end.
  all: try match goal with x : body _ |- _ => destruct x as [l0 ds0 is0] end.
  all: try match goal with x : module |- _ => destruct x as [l0 ds0 is0] end.
  all: try match goal with x : rest_patt _ |- _ => destruct x as [l0 p0] end.
  all: try match goal with x : params |- _ => destruct x as [l0 ps0 r0] end.
  all: try match goal with x : dir |- _ => destruct x as [l0 s0 sm0] end.
  all: lazymatch goal with
    | |- same_as (v_patt _) _ => intros [|[]] H; cbn [v_patt v_patt_of v_cpatt] in H;
        try (apply tuple_eq in H; destruct H as [H _]; discriminate H);
        unfold v_patt in H; cbn [v_patt_of] in H; apply tuple_eq in H; destruct H as [_ H]; apply cons_eq in H; destruct H as [H _];
        try (apply tuple_eq in H; destruct H as [H _]; discriminate H);
        rewrite ?arr_val, ?obj_val in H; igo_in IH H
    | |- same_as (v_func _ _) _ => intros [l1 i1 p1 b1 g1] H; unfold v_func in H;
        cbn [fn_loc fn_id fn_params fn_body fn_generator] in H; igo_in IH H
    | |- same_as (v_body _) _ => intros [l1 ds1 is1] H; unfold v_body in H; cbn [bo_loc bo_dirs bo_items] in H; igo_in IH H
    | |- same_as (v_rest _) _ => intros [l1 p1] H; unfold v_rest in H; cbn [rp_loc rp_patt] in H; igo_in IH H
    | |- same_as v_params _ => intros [l1 ps1 r1] H; unfold v_params in H; cbn [pa_loc pa_list pa_rest] in H; igo_in IH H
    | |- same_as v_dir _ => intros [l1 s1 sm1] H; unfold v_dir in H; cbn [dir_loc dir_string dir_semi] in H; igo_in IH H
    | |- same_as v_id _ => intros ?; apply i_id
    | |- same_as v_dk _ => intros ?; apply i_dk
    | |- same_as (v_op Da_Unop) _ => intros ?; apply i_unop
    | |- same_as (v_op Da_Binop) _ => intros ?; apply i_binop
    | |- same_as (v_op Da_Logop) _ => intros ?; apply i_logop
    | |- same_as (v_op Da_Assop) _ => intros ?; apply i_assop
    end.
Qed.

