(** What the conversion accepts is an encoding of its result. *)
From Coq Require Import String Ascii List NArith ZArith Bool Lia.
From Verif Require Import Base F64 Word Token Punc Ast Track Node SpecTree Cover CoverProofs NodeProofs
  LexTheorems PropTree Unjson Estree SpecEstree EstreeProofs.
Import ListNotations.
Local Open Scope nat_scope.
Local Arguments ex {A} m _ : simpl never.
Local Arguments lit _ : simpl never.

(** ** Fields after another field was taken out *)
Definition other (k : string) (k' : str) : Prop := str_eqb (lit k) k' = false.
Lemma has_wo o k k' v : other k k' -> has (without k' o) k v <-> has o k v.
Proof. intros H. rewrite !has_lookup. now rewrite lookup_without. Qed.
Lemma id_at_wo o k k' i : other k k' -> est_id_at (without k' o) k i <-> est_id_at o k i.
Proof.
  intros H. split; intros X; inversion X as [x ? L Hi]; subst; apply (EIA _ _ x);
  try exact Hi; revert L; now apply has_wo.
Qed.
Lemma id_opt_wo o k k' i : other k k' -> est_id_opt (without k' o) k i <-> est_id_opt o k i.
Proof.
  intros H. split; intros X; inversion X as [L|j Hj]; subst; constructor; try (revert L; now apply has_wo);
  revert Hj; now apply id_at_wo.
Qed.
Lemma at_wo std o k k' n : other k k' -> est_at std (without k' o) k n <-> est_at std o k n.
Proof.
  intros H. split; intros X; inversion X as [? ? x ? L Hi]; subst; apply (EAt _ _ _ x);
  try exact Hi; revert L; now apply has_wo.
Qed.
Lemma opt_wo std o k k' n : other k k' -> est_opt std (without k' o) k n <-> est_opt std o k n.
Proof.
  intros H. split; intros X; inversion X as [? ? L|? ? m L]; subst; constructor;
  try (revert L; now apply has_wo); revert L; now apply at_wo.
Qed.
Lemma list_wo std o k k' ns : other k k' -> est_list std (without k' o) k ns <-> est_list std o k ns.
Proof.
  intros H. split; intros X; inversion X as [? ? js ? L F]; subst; apply (EList _ _ _ js);
  try exact F; revert L; now apply has_wo.
Qed.
Lemma holes_wo std o k k' ns : other k k' -> est_holes std (without k' o) k ns <-> est_holes std o k ns.
Proof.
  intros H. split; intros X; inversion X as [? ? js ? L F]; subst; apply (EHoles _ _ _ js);
  try exact F; revert L; now apply has_wo.
Qed.
Lemma key_at_wo std o k' p : other "key" k' -> est_key_at std (without k' o) p <-> est_key_at std o p.
Proof.
  intros H. split; intros X; inversion X as [x ? L Hi]; subst; apply (EKA _ _ x);
  try exact Hi; revert L; now apply has_wo.
Qed.

Lemma elems_iff std {A} (f : A -> node) js xs :
  est_elems std js (map Some (map f xs)) <-> Forall2 (fun j a => exists o, j = J_Object o /\ est std o (f a)) js xs.
Proof.
  split.
  - revert js. induction xs as [|x xs IH]; cbn; intros js H.
    + inversion H. constructor.
    + inversion H as [|o n js' ns Hn Hs|]; subst. constructor; [now exists o|now apply IH].
  - induction 1 as [|j a js xs (o & -> & H) F IH]; cbn; now constructor.
Qed.

Section Forward.
Variable R : est_rec.
Hypothesis HE : forall o e, r_expr R o = Ok e -> est false o (N_expr e).
Hypothesis HI : forall b o i, r_item R b o = Ok i ->
  est false o (N_item i) /\ (b = false -> exists s, i = I_Stmt s).

Lemma into_stmt_inv o s : into_stmt R o = Ok s -> est false o (N_stmt s).
Proof.
  unfold into_stmt. intros H. apply and_then_inv in H as (i & Hi & H).
  apply HI in Hi as [Hi _]. destruct i as [d|s']; [discriminate|]. injection H as ->.
  inversion Hi; subst; assumption.
Qed.
Lemma extract_expr_inv k o e o' : extract_expr R (lit k) o = Ok (e, o') ->
  est_at false o k (N_expr e) /\ o' = without (lit k) o.
Proof.
  unfold extract_expr. intros H. apply bind_inv in H as (x & s & H1 & H). apply x_object_inv in H1 as [L ->].
  apply lift_inv in H as [H ->]. split; [|reflexivity]. apply (EAt _ _ _ x); [now apply has_lookup|auto].
Qed.
Lemma extract_stmt_inv k o e o' : extract_stmt R (lit k) o = Ok (e, o') ->
  est_at false o k (N_stmt e) /\ o' = without (lit k) o.
Proof.
  unfold extract_stmt. intros H. apply bind_inv in H as (x & s & H1 & H). apply x_object_inv in H1 as [L ->].
  apply lift_inv in H as [H ->]. split; [|reflexivity].
  apply (EAt _ _ _ x); [now apply has_lookup|now apply into_stmt_inv].
Qed.
Lemma opt_inv {A} (f : object -> eres A) (N : A -> node) k o r o' :
  (forall x a, f x = Ok a -> est false x (N a)) ->
  (x <- ex (extract_object_opt (lit k)) ;;
   match x with Some x => a <- lift (f x) ;; ret (Some a) | None => ret None end) o = Ok (r, o') ->
  est_opt false o k (option_map N r) /\ o' = without (lit k) o.
Proof.
  intros F H. apply bind_inv in H as (x & s & H1 & H). apply x_object_opt_inv in H1 as [L ->].
  apply has_lookup in L. destruct x as [x|].
  - apply bind_inv in H as (a & s & H1 & H). apply lift_inv in H1 as [H1 ->]. injection H as <- <-.
    split; [|reflexivity]. constructor. apply (EAt _ _ _ x); auto.
  - injection H as <- <-. split; [|reflexivity]. now constructor.
Qed.
Lemma extract_expr_opt_inv k o r o' : extract_expr_opt R (lit k) o = Ok (r, o') ->
  est_opt false o k (option_map N_expr r) /\ o' = without (lit k) o.
Proof. apply opt_inv. auto. Qed.
Lemma extract_stmt_opt_inv k o r o' : extract_stmt_opt R (lit k) o = Ok (r, o') ->
  est_opt false o k (option_map N_stmt r) /\ o' = without (lit k) o.
Proof. apply opt_inv. intros x a. apply into_stmt_inv. Qed.

Lemma match_opt_inv {A} (f : object -> eres A) (N : A -> node) k o (s : object) x r s' :
  (forall x a, f x = Ok a -> est false x (N a)) ->
  has o k (match x with Some a => J_Object a | None => J_Null end) ->
  match x with Some x => a <- lift (f x) ;; ret (Some a) | None => ret None end s = Ok (r, s') ->
  est_opt false o k (option_map N r) /\ s' = s.
Proof.
  intros F L H. destruct x as [x|].
  - apply bind_inv in H as (a & s1 & H1 & H). apply lift_inv in H1 as [H1 ->]. injection H as <- <-.
    split; [|reflexivity]. constructor. apply (EAt _ _ _ x); auto.
  - injection H as <- <-. split; [|reflexivity]. now constructor.
Qed.
Lemma list_inv {A} (f : object -> eres A) (N : A -> node) k o r o' :
  (forall x a, f x = Ok a -> est false x (N a)) ->
  extract_list f (lit k) o = Ok (r, o') -> est_list false o k (map N r) /\ o' = without (lit k) o.
Proof.
  intros F H. apply extract_list_iff in H as (js & L & -> & H). split; [|reflexivity].
  apply (EList _ _ _ js); [now apply has_lookup|]. apply elems_iff. revert H. apply Forall2_impl.
  intros j a (x & -> & Hx). exists x. split; [reflexivity|auto].
Qed.

Lemma target_inv k o t o' : extract_assign_target R (lit k) o = Ok (t, o') ->
  est_at false o k (N_expr (target_expr t)) /\ o' = without (lit k) o.
Proof.
  unfold extract_assign_target. intros H. apply bind_inv in H as (e & s & H1 & H).
  apply extract_expr_inv in H1 as [H1 ->]. destruct (into_assign_target e) as [|t'] eqn:E; [discriminate|].
  injection H as <- <-. apply target_iff in E. subst e. now split.
Qed.
Lemma tpatt_inv k o p o' : extract_assign_patt R (lit k) o = Ok (p, o') ->
  est_at false o k (N_expr (patt_expr p)) /\ rests_unlocated p /\ o' = without (lit k) o.
Proof.
  unfold extract_assign_patt. intros H. apply bind_inv in H as (e & s & H1 & H).
  apply extract_expr_inv in H1 as [H1 ->]. destruct (into_assign_patt e) as [|p'] eqn:E; [discriminate|].
  injection H as <- <-. apply patt_iff in E as [-> E]. now split.
Qed.

(** Reading off what a successful conversion found. *)
Ltac wo1 := match goal with
  | H : lookup _ _ = Some _ |- _ => apply has_lookup in H
  | H : has (without _ _) _ _ |- _ => apply has_wo in H; [|reflexivity]
  | H : est_id_at (without _ _) _ _ |- _ => apply id_at_wo in H; [|reflexivity]
  | H : est_id_opt (without _ _) _ _ |- _ => apply id_opt_wo in H; [|reflexivity]
  | H : est_at _ (without _ _) _ _ |- _ => apply at_wo in H; [|reflexivity]
  | H : est_opt _ (without _ _) _ _ |- _ => apply opt_wo in H; [|reflexivity]
  | H : est_list _ (without _ _) _ _ |- _ => apply list_wo in H; [|reflexivity]
  | H : est_holes _ (without _ _) _ _ |- _ => apply holes_wo in H; [|reflexivity]
  | H : tag_of _ = Ok _ |- _ => apply tag_typed in H
  end.
Ltac inv1 := match goal with
  | H : run _ _ = Ok _ |- _ => apply run_inv in H as (? & H)
  | H : and_then _ _ = Ok _ |- _ => apply and_then_inv in H as (? & ? & H)
  | H : bind _ _ _ = Ok _ |- _ => apply bind_inv in H as (? & ? & ? & H); cbv beta in H
  | H : lift _ _ = Ok (_, _) |- _ => apply lift_inv in H as [H ->]
  | H : ex (extract_object _) _ = Ok _ |- _ => apply x_object_inv in H as [H ->]
  | H : ex (extract_object_opt _) _ = Ok _ |- _ => apply x_object_opt_inv in H as [H ->]
  | H : ex (extract_array _) _ = Ok _ |- _ => apply x_array_inv in H as [H ->]
  | H : ex (extract_string _) _ = Ok _ |- _ => apply x_string_inv in H as [H ->]
  | H : ex (extract_bool _) _ = Ok _ |- _ => apply x_bool_inv in H as [H ->]
  | H : ex (extract_bool_opt _) _ = Ok _ |- _ => apply x_bool_opt_inv in H as [H ->]
  | H : extract_id _ _ = Ok _ |- _ => apply extract_id_iff in H as [H ->]
  | H : extract_id_opt _ _ = Ok _ |- _ => apply extract_id_opt_iff in H as [H ->]
  | H : extract_patt _ _ = Ok _ |- _ => apply extract_patt_iff in H as (? & -> & H & ->)
  | H : extract_params _ _ = Ok _ |- _ => apply extract_params_iff in H as (? & H & ? & ->)
  | H : extract_expr _ _ _ = Ok _ |- _ => apply extract_expr_inv in H as [H ->]
  | H : extract_expr_opt _ _ _ = Ok _ |- _ => apply extract_expr_opt_inv in H as [H ->]
  | H : extract_stmt _ _ _ = Ok _ |- _ => apply extract_stmt_inv in H as [H ->]
  | H : extract_stmt_opt _ _ _ = Ok _ |- _ => apply extract_stmt_opt_inv in H as [H ->]
  | H : extract_assign_target _ _ _ = Ok _ |- _ => apply target_inv in H as [H ->]
  | H : extract_assign_patt _ _ _ = Ok _ |- _ => apply tpatt_inv in H as (H & ? & ->)
  | H : into_id _ = Ok _ |- _ => apply into_id_iff in H
  | H : r_expr R _ = Ok _ |- _ => apply HE in H
  | H : ret _ _ = Ok _ |- _ => injection H as <- <-
  | H : get _ = Ok _ |- _ => injection H as <- <-
  | H : Ok _ = Ok _ |- _ => injection H as <-
  | H : Err _ = Ok _ |- _ => discriminate H
  | H : err _ _ = Ok _ |- _ => discriminate H
  | H : string_error _ _ = Ok _ |- _ => discriminate H
  | H : array_error _ _ = Ok _ |- _ => discriminate H
  | H : node_type_error _ _ = Ok _ |- _ => discriminate H
  | H : est_type_error _ _ = Ok _ |- _ => discriminate H
  | H : str_eqb _ _ = true |- _ => apply str_eqb_iff' in H; subst
  | H : (if str_eqb ?a ?b then _ else _) _ = Ok _ |- _ => destruct (str_eqb a b) eqn:?
  end.
Ltac inv := repeat (inv1 || wo1).
Ltac alsos := unfold also; try discriminate.

Lemma eli_inv o i : into_expr_list_item R o = Ok i -> est false o (N_eli i).
Proof.
  unfold into_expr_list_item. intros H. apply and_then_inv in H as (t & Ht & H).
  assert (D : t = Tg_SpreadElement \/ and_then (r_expr R o) (fun e => Ok (L_Expr e)) = Ok i)
    by (destruct t; auto).
  destruct D as [->|D].
  - inv. now constructor.
  - clear H. inv. now constructor.
Qed.
Lemma extract_expr_list_inv k o r o' : extract_expr_list R (lit k) o = Ok (r, o') ->
  est_list false o k (map N_eli r) /\ o' = without (lit k) o.
Proof. apply list_inv. apply eli_inv. Qed.
Lemma extract_exprs_inv k o r o' : extract_exprs R (lit k) o = Ok (r, o') ->
  est_list false o k (map N_expr r) /\ o' = without (lit k) o.
Proof. apply list_inv. auto. Qed.
Lemma extract_stmt_list_inv k o r o' : extract_stmt_list R (lit k) o = Ok (r, o') ->
  est_list false o k (map N_item r) /\ o' = without (lit k) o.
Proof. apply list_inv. intros x a H. unfold into_stmt_list_item in H. apply HI in H. tauto. Qed.
Lemma extract_holes_inv k o r o' : extract_expr_opt_list R (lit k) o = Ok (r, o') ->
  est_holes false o k (map (option_map N_eli) r) /\ o' = without (lit k) o.
Proof.
  unfold extract_expr_opt_list. intros H. apply bind_inv in H as (l & s & H1 & H).
  apply x_array_inv in H1 as [L ->]. apply lift_inv in H as [H ->]. split; [|reflexivity].
  apply (EHoles _ _ _ l); [now apply has_lookup|]. apply map_res_iff in H. clear L.
  induction H as [|j x l r Hx F IH]; [constructor|].
  apply and_then_inv in Hx as (oo & Ho & Hx). destruct j; cbn in Ho; try discriminate; injection Ho as <-.
  - injection Hx as <-. now constructor.
  - apply and_then_inv in Hx as (i & Hi & Hx). injection Hx as <-. constructor; [now apply eli_inv|exact IH].
Qed.

Lemma script_inv o b o' : extract_script R (lit "body") o = Ok (b, o') -> est false o (N_body b).
Proof.
  unfold extract_script. intros H. apply bind_inv in H as (l & s & H1 & H).
  apply extract_stmt_list_inv in H1 as [H1 ->].
  destruct (split_prefix l item_is_directive) as [front items] eqn:E. injection H as <- <-.
  apply (Es_body _ _ l); [exact H1|]. apply splits_iff. now rewrite E.
Qed.

Lemma fun_inv {I} o (i : I) f : into_fun R o i = Ok f -> exists ps b g,
  f = Fun None i ps b g /\ forall j, est false o (N_fexpr (Fun None j ps b g)).
Proof.
  unfold into_fun. intros H. inv.
  match goal with X : extract_script _ _ _ = Ok _ |- _ => apply script_inv in X end.
  match goal with |- exists _ _ _, Fun None _ ?p ?q ?r = _ /\ _ => exists p, q, r end.
  split; [reflexivity|]. intros j.
  eapply Es_fun; alsos; eauto. destruct x0; [now left|now right].
Qed.

Lemma block_inv o b : into_block R o = Ok b -> est false o (N_block b).
Proof.
  unfold into_block. intros H. apply and_then_inv in H as (t & Ht & H).
  destruct t; try discriminate H. inv.
  match goal with X : extract_stmt_list _ _ _ = Ok _ |- _ => apply extract_stmt_list_inv in X as [X ->] end.
  now constructor.
Qed.
Lemma extract_block_inv k o b o' : extract_block R (lit k) o = Ok (b, o') ->
  est_at false o k (N_block b) /\ o' = without (lit k) o.
Proof.
  unfold extract_block. intros H. inv. split; [|reflexivity].
  eapply EAt; [eassumption|]. now apply block_inv.
Qed.
Lemma case_inv o c : into_case R o = Ok c -> est false o (N_case c).
Proof.
  unfold into_case. intros H. inv.
  match goal with X : extract_stmt_list _ _ _ = Ok _ |- _ => apply extract_stmt_list_inv in X as [X ->] end.
  inv. constructor; alsos; auto.
Qed.
Lemma extract_case_list_inv k o r o' : extract_case_list R (lit k) o = Ok (r, o') ->
  est_list false o k (map N_case r) /\ o' = without (lit k) o.
Proof. apply list_inv. apply case_inv. Qed.
Lemma catch_inv o c : into_catch R o = Ok c -> est false o (N_catch c).
Proof.
  unfold into_catch. intros H. inv.
  match goal with X : extract_block _ _ _ = Ok _ |- _ => apply extract_block_inv in X as [X ->] end.
  inv. constructor; alsos; auto.
Qed.
Lemma extract_catch_opt_inv k o r o' : extract_catch_opt R (lit k) o = Ok (r, o') ->
  est_opt false o k (option_map N_catch r) /\ o' = without (lit k) o.
Proof. apply opt_inv. apply catch_inv. Qed.
Lemma dtor_inv o d : into_dtor R o = Ok d -> est false o (N_dtor d).
Proof.
  unfold into_dtor. intros H. inv. cbn [Parser.dtor_from_init_opt] in H. inv.
  match goal with X : est_id_at _ _ ?i |- _ =>
    assert (id_loc i = None) as -> by (inversion X as [? ? ? Y]; inversion Y; reflexivity) end.
  constructor; alsos; auto.
Qed.
Lemma extract_dtor_list_inv k o r o' : extract_dtor_list R (lit k) o = Ok (r, o') ->
  est_list false o k (map N_dtor r) /\ o' = without (lit k) o.
Proof. apply list_inv. apply dtor_inv. Qed.

Ltac xq Q := first
  [ apply x_object_inv in Q as [Q ->] | apply x_object_opt_inv in Q as [Q ->] | apply x_array_inv in Q as [Q ->]
  | apply x_string_inv in Q as [Q ->] | apply x_bool_inv in Q as [Q ->] | apply lift_inv in Q as [Q ->] | idtac ].
Ltac dbind H x Q := apply bind_inv in H as (x & ? & Q & H); cbv beta in H; xq Q.
Lemma prop_inv o p : into_prop R o = Ok p -> est false o (N_prop p).
Proof.
  unfold into_prop. intros H. apply run_inv in H as (o' & H).
  dbind H key Q1. dbind H val Q2. dbind H kind Q3. cbv zeta in H.
  assert (KA : forall k, into_prop_key key = Ok k -> est_key_at false o k).
  { intros k Hk. apply into_prop_key_iff in Hk. econstructor; [|exact Hk]. now apply has_lookup. }
  destruct (str_eqb kind (lit "init")) eqn:K1.
  - dbind H m Q4. destruct m.
    + inv. match goal with X : into_fun _ _ _ = Ok _ |- _ => apply fun_inv in X as (ps & b & g & -> & X) end.
      eapply Es_method; alsos; eauto.
    + dbind H sh Q5. destruct sh.
      * inv. eapply Es_shorthand; alsos; eauto. econstructor; eauto.
      * inv. apply Es_init; alsos; auto. econstructor; eauto.
  - destruct (str_eqb kind (lit "get")) eqn:K2.
    + dbind H y Q4. destruct y as [b bo]. inv.
      match goal with X : extract_script _ _ _ = Ok _ |- _ => apply script_inv in X end.
      eapply Es_get; alsos; eauto.
    + destruct (str_eqb kind (lit "set")) eqn:K3; [|discriminate H].
      dbind H f Q4. apply fun_inv in Q4 as (ps & b & g & -> & X).
      cbn [fn_params fn_body] in H. destruct ps as [l ps rest]. cbn [pa_list] in H.
      destruct ps as [|p1 [|p2 ps]]; try discriminate H. inv.
      assert (l = None) as -> by (specialize (X None); inversion X; subst;
        match goal with Y : est_params _ _ |- _ => inversion Y; reflexivity end).
      eapply Es_set; alsos; eauto.
Qed.
Lemma extract_prop_list_inv k o r o' : extract_prop_list R (lit k) o = Ok (r, o') ->
  est_list false o k (map N_prop r) /\ o' = without (lit k) o.
Proof. apply list_inv. apply prop_inv. Qed.

Ltac inv2 := match goal with
  | H : extract_expr_list _ _ _ = Ok _ |- _ => apply extract_expr_list_inv in H as [H ->]
  | H : extract_exprs _ _ _ = Ok _ |- _ => apply extract_exprs_inv in H as [H ->]
  | H : extract_expr_opt_list _ _ _ = Ok _ |- _ => apply extract_holes_inv in H as [H ->]
  | H : extract_stmt_list _ _ _ = Ok _ |- _ => apply extract_stmt_list_inv in H as [H ->]
  | H : extract_prop_list _ _ _ = Ok _ |- _ => apply extract_prop_list_inv in H as [H ->]
  | H : extract_case_list _ _ _ = Ok _ |- _ => apply extract_case_list_inv in H as [H ->]
  | H : extract_dtor_list _ _ _ = Ok _ |- _ => apply extract_dtor_list_inv in H as [H ->]
  | H : extract_catch_opt _ _ _ = Ok _ |- _ => apply extract_catch_opt_inv in H as [H ->]
  | H : extract_block _ _ _ = Ok _ |- _ => apply extract_block_inv in H as [H ->]
  | H : into_block _ _ = Ok _ |- _ => apply block_inv in H
  end.
Ltac invs := repeat (inv1 || inv2 || wo1).

Lemma id_name_at o k i : est_id_at o k i -> exists x s, has o k (J_Object x) /\ typed x "Identifier" /\
  has x "name" (J_String s) /\ i = Id None (name_from s).
Proof. intros H. inversion H as [x ? L Hi]; subst. inversion Hi as [? s T Hn]; subst. now exists x, s. Qed.

Lemma fun_without o k f : other "generator" k -> other "params" k -> other "body" k ->
  est false (without k o) (N_fexpr f) -> est false o (N_fexpr f).
Proof.
  intros H1 H2 H3 X. inversion X; subst. repeat match goal with
  | H : has (without _ _) _ _ |- _ => apply has_wo in H; [|assumption] end.
  eapply Es_fun; alsos; eauto.
Qed.

Lemma expr_inv o e : into_expr_body R o = Ok e -> est false o (N_expr e).
Proof.
  unfold into_expr_body. intros H. apply and_then_inv in H as (t & Ht & H). apply tag_typed in Ht.
  apply run_inv in H as (o' & H).
  destruct t; try discriminate H.
  - invs. now constructor.
  - invs. constructor; [exact Ht|]. now apply into_lit_iff.
  - dbind H s Q1. unfold op_from_str in H. destruct (binop_tag_from_str s) as [t|] eqn:E; [|discriminate H].
    apply C48_binop_text in E. subst s. invs. now constructor.
  - dbind H s Q1. dbind H r Q2. destruct (str_eqb s (lit "=")) eqn:E.
    + invs. eapply Es_assign; eauto; alsos.
    + unfold op_from_str in H. destruct (assop_tag_from_str s) as [t|] eqn:E'; [|discriminate H].
      apply C48_assop_text in E'. subst s. invs. eapply Es_assignop; eauto.
  - dbind H s Q1. unfold op_from_str in H. destruct (logop_tag_from_str s) as [t|] eqn:E; [|discriminate H].
    apply C48_logop_text in E. subst s. invs. now constructor.
  - dbind H s Q1. unfold op_from_str in H. destruct (unop_tag_from_str s) as [t|] eqn:E; [|discriminate H].
    apply C48_unop_text in E. subst s. invs. apply Es_unary; alsos; auto.
  - dbind H s Q1. dbind H a Q2. dbind H b Q3. destruct (str_eqb s (lit "++")) eqn:E1.
    + destruct b; invs; [eapply Es_preinc|eapply Es_postinc]; eauto.
    + destruct (str_eqb s (lit "--")) eqn:E2; [|discriminate H]. destruct b; invs; [eapply Es_predec|eapply Es_postdec]; eauto.
  - dbind H a Q1. dbind H b Q2. destruct b.
    + invs. now constructor.
    + dbind H i Q3. invs. apply id_name_at in Q3 as (x0 & s & L & T & Hn & ->). cbn [id_name]. rewrite name_string_from.
      eapply Es_dot; eauto.
  - invs. now constructor.
  - invs. now constructor.
  - invs. now constructor.
  - dbind H i Q1. dbind H self Q2. injection Q2 as <- <-. dbind H f Q3. invs.
    apply fun_inv in Q3 as (ps & b & g & -> & X).
    apply (Es_function _ _ i); auto. apply (fun_without _ (lit "id")); auto; reflexivity.
  - invs. now constructor.
  - invs. now constructor.
  - invs. now constructor.
  - invs. now constructor.
  - dbind H m Q1. dbind H p Q2. cbv zeta in H.
    apply extract_id_iff in Q1 as [Q1 ->]. apply extract_id_iff in Q2 as [Q2 ->].
    apply id_name_at in Q1 as (x & s & L1 & T1 & N1 & ->).
    apply id_at_wo in Q2; [|reflexivity]. apply id_name_at in Q2 as (y & s' & L2 & T2 & N2 & ->).
    cbn [id_name] in H. rewrite !name_string_from in H.
    destruct (str_eqb s (lit "new")) eqn:E1; [|discriminate H].
    destruct (str_eqb s' (lit "target")) eqn:E2; [|discriminate H]. cbn [andb] in H. invs.
    eapply Es_newtarget; eauto.
Qed.

Lemma const_inv std o ds cs : est_list std o "declarations" (map N_dtor ds) -> into_const ds = Ok cs ->
  Forall2 const_of ds cs.
Proof.
  intros L H. apply map_res_iff in H. inversion L as [? ? js ? _ F]; subst. apply elems_iff in F.
  assert (G : Forall (fun d => exists i e, d = Dt_Simple None i e /\ id_loc i = None) ds).
  { clear H L. induction F as [|j d js ds (x & -> & Hx) F IH]; constructor; [|exact IH].
    inversion Hx; subst. do 2 eexists. split; [reflexivity|].
    match goal with X : est_id_at _ _ _ |- _ => apply id_name_at in X as (? & ? & _ & _ & _ & ->) end. reflexivity. }
  clear L F. induction H as [|d c ds cs Hc H IH]; [constructor|]. inversion G as [|? ? (i & e & -> & Hi) G']; subst.
  constructor; [|auto]. destruct e as [e|]; [|discriminate Hc]. injection Hc as <-.
  unfold Parser.const_dtor_from_init. cbn. rewrite Hi. constructor.
Qed.

Lemma fh_inv o h : into_for_head R o = Ok h -> est false o (N_fh h).
Proof.
  unfold into_for_head. intros H. apply and_then_inv in H as (t & Ht & H).
  assert (D : t = Tg_VariableDeclaration \/ and_then (r_expr R o) (fun e => Ok (FH_Expr None e)) = Ok h)
    by (destruct t; auto).
  destruct D as [->|D].
  - apply tag_typed in Ht. apply run_inv in H as (o' & H). dbind H ds Q1. dbind H kind Q2. invs.
    + now constructor.
    + now constructor.
    + eapply Es_head_const; eauto using const_inv.
  - clear H. invs. now constructor.
Qed.

Lemma fi_inv o h : into_for_in_head R o = Ok h -> est false o (N_fi h).
Proof.
  unfold into_for_in_head. intros H. apply and_then_inv in H as (t & Ht & H).
  assert (D : t = Tg_VariableDeclaration \/
    and_then (r_expr R o) (fun e => match into_assign_patt e with
           | inr p => Ok (FI_Patt p) | inl _ => Err (EE_InvalidLHS (lit "left")) end) = Ok h)
    by (destruct t; auto).
  destruct D as [->|D].
  - apply tag_typed in Ht. apply run_inv in H as (o' & H). dbind H ds Q1. dbind H kind Q2.
    destruct ds as [|d [|d2 ds]]; try discriminate H. dbind H obj Q3.
    destruct d; cbn in Q3; try discriminate. injection Q3 as <-.
    dbind H y Q4. destruct y as [lhs obj]. dbind H y Q5. destruct y as [init obj2].
    apply extract_patt_iff in Q4 as (i & -> & Q4 & ->). apply extract_expr_opt_inv in Q5 as [Q5 ->].
    apply opt_wo in Q5; [|reflexivity]. apply has_lookup in Q1. apply has_lookup in Q2.
    apply has_wo in Q2; [|reflexivity].
    assert (L : est_list false o "declarations" [N_dtor (Dt_Simple None i init)]).
    { eapply EList; [exact Q1|]. constructor; [|constructor]. constructor; alsos; auto. }
    destruct init as [e|].
    + destruct (str_eqb kind (lit "var")) eqn:E; [|discriminate H]. invs. eapply Es_in_var; eauto.
    + invs; (eapply (Es_in _ _ _ (Dt_Simple None i None)); [exact Ht|exact Q2|exact L|reflexivity|cbn; tauto]).
  - clear H. apply and_then_inv in D as (e & He & D). destruct (into_assign_patt e) as [|p] eqn:E; [discriminate D|].
    injection D as <-. apply patt_iff in E as [-> E]. eapply Es_in_patt; eauto; alsos.
Qed.

Lemma fo_inv o h : into_for_of_head R o = Ok h -> est false o (N_fo h).
Proof.
  unfold into_for_of_head. intros H. apply and_then_inv in H as (t & Ht & H).
  assert (D : t = Tg_VariableDeclaration \/
    and_then (r_expr R o) (fun e => match into_assign_patt e with
           | inr p => Ok (FO_Patt p) | inl _ => Err (EE_InvalidLHS (lit "left")) end) = Ok h)
    by (destruct t; auto).
  destruct D as [->|D].
  - apply tag_typed in Ht. apply run_inv in H as (o' & H). dbind H ds Q1. dbind H kind Q2.
    destruct ds as [|d [|d2 ds]]; try discriminate H. dbind H obj Q3.
    destruct d; cbn in Q3; try discriminate. injection Q3 as <-.
    dbind H y Q4. destruct y as [lhs obj].
    apply extract_patt_iff in Q4 as (i & -> & Q4 & ->). apply has_lookup in Q1. apply has_lookup in Q2.
    apply has_wo in Q2; [|reflexivity].
    invs; (eapply Es_of; [exact Ht|exact Q2|exact Q1|alsos|exact Q4|cbn; tauto]).
  - clear H. apply and_then_inv in D as (e & He & D). destruct (into_assign_patt e) as [|p] eqn:E; [discriminate D|].
    injection D as <-. apply patt_iff in E as [-> E]. eapply Es_of_patt; eauto; alsos.
Qed.

Lemma item_inv b o i : into_item_body R b o = Ok i ->
  est false o (N_item i) /\ (b = false -> exists s, i = I_Stmt s).
Proof.
  unfold into_item_body. intros H. apply and_then_inv in H as (t & Ht & H). apply tag_typed in Ht.
  cbv zeta in H. apply run_inv in H as (o' & H).
  assert (ST : forall s, i = I_Stmt s -> est false o (N_stmt s) ->
    est false o (N_item i) /\ (b = false -> exists s, i = I_Stmt s)).
  { intros s -> Hs. split; [now constructor|]. intros _. now exists s. }
  destruct t; try discriminate H.
  - destruct b; [|discriminate H]. cbn [negb] in H. split; [|discriminate].
    dbind H j Q1. apply extract_id_iff in Q1 as [Q1 ->]. dbind H self Q2. injection Q2 as <- <-. dbind H f Q3.
    apply fun_inv in Q3 as (ps & bd & g & -> & X). invs. apply Es_decl_item.
    eapply Es_fundecl; eauto. apply (fun_without _ (lit "id")); auto; reflexivity.
  - dbind H ds Q1. dbind H kind Q2. apply extract_dtor_list_inv in Q1 as [Q1 ->].
    destruct (str_eqb kind (lit "var")) eqn:E1.
    { invs. eapply ST; [reflexivity|]. now constructor. }
    destruct (str_eqb kind (lit "let")) eqn:E2.
    { destruct b; [|discriminate H]. cbn [negb] in H. invs. split; [|discriminate]. apply Es_decl_item. now constructor. }
    destruct (str_eqb kind (lit "const")) eqn:E3; [|discriminate H].
    destruct b; [|discriminate H]. cbn [negb] in H. invs. split; [|discriminate]. apply Es_decl_item.
    eapply Es_const; eauto using const_inv.
  - invs. eapply ST; [reflexivity|]. now constructor.
  - invs. eapply ST; [reflexivity|]. now constructor.
  - invs. eapply ST; [reflexivity|]. now constructor.
  - invs. eapply ST; [reflexivity|]. now constructor.
  - invs. eapply ST; [reflexivity|]. now constructor.
  - invs. match goal with X : match _ with Some _ => _ | None => _ end _ = Ok _, Y : has _ "init" _ |- _ =>
      apply (match_opt_inv _ N_fh _ _ _ _ _ _ fh_inv Y) in X as [X ->] end. invs.
    eapply ST; [reflexivity|]. now constructor.
  - invs. eapply ST; [reflexivity|]. constructor; auto. econstructor; eauto using fi_inv.
  - invs. eapply ST; [reflexivity|]. constructor; auto. econstructor; eauto using fo_inv.
  - invs. eapply ST; [reflexivity|]. now constructor.
  - invs. eapply ST; [reflexivity|]. now constructor.
  - invs. eapply ST; [reflexivity|]. now constructor.
  - invs. eapply ST; [reflexivity|]. now constructor.
  - invs. eapply ST; [reflexivity|]. now constructor.
  - invs. eapply ST; [reflexivity|]. now constructor.
  - invs. eapply ST; [reflexivity|]. now constructor.
  - invs. eapply ST; [reflexivity|]. now constructor.
  - invs. eapply ST; [reflexivity|]. now constructor.
  - invs. match goal with X : match _ with Some _ => _ | None => _ end _ = Ok _, Y : has _ "finalizer" _ |- _ =>
      apply (match_opt_inv _ N_block _ _ _ _ _ _ block_inv Y) in X as [X ->] end. invs.
    eapply ST; [reflexivity|]. now constructor.
Qed.
End Forward.

Theorem conv_sound n :
  (forall o e, r_expr (est_rec_of n) o = Ok e -> est false o (N_expr e))
  /\ (forall b o i, r_item (est_rec_of n) b o = Ok i ->
        est false o (N_item i) /\ (b = false -> exists s, i = I_Stmt s)).
Proof.
  induction n as [|n [IH1 IH2]]; cbn; [split; discriminate|].
  split; intros; [now apply (expr_inv (est_rec_of n))|now apply (item_inv (est_rec_of n))].
Qed.

Theorem into_script_sound o s : into_script o = Ok s -> est false o (N_body s).
Proof.
  unfold into_script. intros H. apply run_inv in H as (o' & H).
  destruct (conv_sound (json_depth (J_Object o))) as [H1 H2]. eapply script_inv; eauto.
Qed.
