(** Every encoding is accepted, and gives the tree it encodes. *)
From Coq Require Import String Ascii List NArith ZArith Bool Lia.
From Verif Require Import Base F64 Word Token Punc Ast Track Node SpecTree Cover CoverProofs NodeProofs
  LexTheorems PropTree Unjson Estree SpecEstree EstreeProofs EstreeConv.
Import ListNotations.
Local Open Scope nat_scope.
Local Arguments ex {A} m _ : simpl never.
Local Arguments lit _ : simpl never.

Scheme est_mind := Minimality for est Sort Prop
with est_at_mind := Minimality for est_at Sort Prop
with est_opt_mind := Minimality for est_opt Sort Prop
with est_list_mind := Minimality for est_list Sort Prop
with est_holes_mind := Minimality for est_holes Sort Prop
with est_elems_mind := Minimality for est_elems Sort Prop.

(** The conversion of an object to a node of a given kind. *)
Definition conv (R : est_rec) (o : object) (n : node) : Prop :=
  match n with
  | N_expr e => r_expr R o = Ok e
  | N_eli e => into_expr_list_item R o = Ok e
  | N_prop p => into_prop R o = Ok p
  | N_fexpr f => forall I (i : I) o1,
      lookup (lit "generator") o1 = lookup (lit "generator") o -> lookup (lit "params") o1 = lookup (lit "params") o ->
      lookup (lit "body") o1 = lookup (lit "body") o ->
      into_fun R o1 i = Ok (Fun None i (fn_params f) (fn_body f) (fn_generator f))
  | N_body b => run (extract_script R (lit "body")) o = Ok b
  | N_stmt s => forall b, r_item R b o = Ok (I_Stmt s)
  | N_decl d => r_item R true o = Ok (I_Decl d)
  | N_item i => r_item R true o = Ok i
  | N_block b => into_block R o = Ok b
  | N_catch c => into_catch R o = Ok c
  | N_case c => into_case R o = Ok c
  | N_dtor d => into_dtor R o = Ok d
  | N_fh h => into_for_head R o = Ok h
  | N_fi h => into_for_in_head R o = Ok h
  | N_fo h => into_for_of_head R o = Ok h
  | _ => True
  end.

(** Fuel that suffices.  Conversions that do not call the recursion on the object itself
    need one less. *)
Definition enough (n : node) (o : object) (m : nat) : Prop :=
  match n with
  | N_fexpr _ | N_body _ | N_block _ | N_prop _ | N_catch _ | N_case _ | N_dtor _ => odepth o <= S m
  | _ => odepth o <= m
  end.
Lemma enough_inside n x o m : odepth x < odepth o -> odepth o <= S m -> enough n x m.
Proof. intros H1 H2. destruct n; unfold enough; lia. Qed.

Definition Pn (o : object) (n : node) : Prop := forall m, enough n o m -> conv (est_rec_of m) o n.
Definition Pat (o : object) (k : string) (n : node) : Prop :=
  exists x, has o k (J_Object x) /\ forall m, odepth o <= S m -> conv (est_rec_of m) x n.
Definition Popt (o : object) (k : string) (n : option node) : Prop :=
  match n with Some n => Pat o k n | None => has o k J_Null end.
Definition elem (m : nat) (j : json) (n : option node) : Prop :=
  match n with Some n => exists x, j = J_Object x /\ conv (est_rec_of m) x n | None => j = J_Null end.
Definition Pelems (js : list json) (ns : list (option node)) : Prop :=
  forall m, adepth js <= m -> Forall2 (elem m) js ns.
Definition Pholes (o : object) (k : string) (ns : list (option node)) : Prop :=
  exists js, has o k (J_Array js) /\ forall m, odepth o <= S m -> Forall2 (elem m) js ns.
Definition Plist (o : object) (k : string) (ns : list node) : Prop := Pholes o k (map Some ns).

(** What a field of the object yields, from any object that agrees on that field. *)
Definition Ext {A} (m : eM A) (k : string) (o : object) (r : A) : Prop :=
  forall o1, lookup (lit k) o1 = lookup (lit k) o -> m o1 = Ok (r, without (lit k) o1).

Lemma X_string o k s : has o k (J_String s) -> Ext (ex (extract_string (lit k))) k o s.
Proof. intros H o1 E. apply has_lookup in H. apply x_string_ok. congruence. Qed.
Lemma X_bool o k s : has o k (J_Bool s) -> Ext (ex (extract_bool (lit k))) k o s.
Proof. intros H o1 E. apply has_lookup in H. apply x_bool_ok. congruence. Qed.
Lemma X_bool_opt o k v g : has o k v -> v = J_Bool g \/ v = J_Null /\ g = false ->
  exists r, Ext (ex (extract_bool_opt (lit k))) k o r /\ match r with Some g => g | None => false end = g.
Proof.
  intros H D. apply has_lookup in H. destruct D as [->|[-> ->]].
  - exists (Some g). split; [|reflexivity]. intros o1 E. apply x_bool_opt_ok. congruence.
  - exists None. split; [|reflexivity]. intros o1 E. apply x_bool_opt_ok. congruence.
Qed.
Lemma X_object o k s : has o k (J_Object s) -> Ext (ex (extract_object (lit k))) k o s.
Proof. intros H o1 E. apply has_lookup in H. apply x_object_ok. congruence. Qed.
Lemma X_oo_some o k s : has o k (J_Object s) -> Ext (ex (extract_object_opt (lit k))) k o (Some s).
Proof. intros H o1 E. apply has_lookup in H. apply x_object_opt_ok. congruence. Qed.
Lemma X_oo_none o k : has o k J_Null -> Ext (ex (extract_object_opt (lit k))) k o None.
Proof. intros H o1 E. apply has_lookup in H. apply x_object_opt_ok. congruence. Qed.
Lemma X_array o k s : has o k (J_Array s) -> Ext (ex (extract_array (lit k))) k o s.
Proof. intros H o1 E. apply has_lookup in H. apply x_array_ok. congruence. Qed.
Lemma X_id o k i : est_id_at o k i -> Ext (extract_id (lit k)) k o i.
Proof.
  intros H o1 E. apply extract_id_iff. split; [|reflexivity]. inversion H as [x ? L Hi]; subst.
  apply (EIA _ _ x); [|exact Hi]. apply has_lookup. apply has_lookup in L. congruence.
Qed.
Lemma X_patt o k i : est_id_at o k i -> Ext (extract_patt (lit k)) k o (Simple i).
Proof.
  intros H o1 E. apply extract_patt_iff. exists i. split; [reflexivity|]. split; [|reflexivity].
  inversion H as [x ? L Hi]; subst.
  apply (EIA _ _ x); [|exact Hi]. apply has_lookup. apply has_lookup in L. congruence.
Qed.
Lemma X_id_opt o k i : est_id_opt o k i -> Ext (extract_id_opt (lit k)) k o i.
Proof.
  intros H o1 E. apply extract_id_opt_iff. split; [|reflexivity]. inversion H as [L|j Hj]; subst.
  - constructor. apply has_lookup. apply has_lookup in L. congruence.
  - constructor. inversion Hj as [x ? L Hi]; subst.
    apply (EIA _ _ x); [|exact Hi]. apply has_lookup. apply has_lookup in L. congruence.
Qed.
Lemma X_params o k js ps : has o k (J_Array js) -> est_params js ps -> Ext (extract_params (lit k)) k o ps.
Proof.
  intros H P o1 E. apply extract_params_iff. exists js. repeat split; [|exact P].
  apply has_lookup. apply has_lookup in H. congruence.
Qed.

Section Fuel.
Variable m : nat.
Notation R := (est_rec_of m).

Lemma X_expr o k e : odepth o <= S m -> Pat o k (N_expr e) -> Ext (extract_expr R (lit k)) k o e.
Proof.
  intros D (x & L & C) o1 E. unfold extract_expr. rewrite (bind_ok _ _ _ _ _ (X_object _ _ _ L o1 E)).
  now rewrite (C m D).
Qed.
Lemma into_stmt_ok x s : conv R x (N_stmt s) -> into_stmt R x = Ok s.
Proof. intros C. unfold into_stmt. now rewrite (C false). Qed.
Lemma X_stmt o k e : odepth o <= S m -> Pat o k (N_stmt e) -> Ext (extract_stmt R (lit k)) k o e.
Proof.
  intros D (x & L & C) o1 E. unfold extract_stmt. rewrite (bind_ok _ _ _ _ _ (X_object _ _ _ L o1 E)).
  now rewrite (into_stmt_ok _ _ (C m D)).
Qed.
Lemma X_block o k e : odepth o <= S m -> Pat o k (N_block e) -> Ext (extract_block R (lit k)) k o e.
Proof.
  intros D (x & L & C) o1 E. unfold extract_block. rewrite (bind_ok _ _ _ _ _ (X_object _ _ _ L o1 E)).
  now rewrite (C m D).
Qed.
Lemma X_target o k t : odepth o <= S m -> Pat o k (N_expr (target_expr t)) ->
  Ext (extract_assign_target R (lit k)) k o t.
Proof.
  intros D C o1 E. unfold extract_assign_target. rewrite (bind_ok _ _ _ _ _ (X_expr _ _ _ D C o1 E)).
  now rewrite (proj2 (target_iff _ _) eq_refl).
Qed.
Lemma X_tpatt o k p : odepth o <= S m -> rests_unlocated p -> Pat o k (N_expr (patt_expr p)) ->
  Ext (extract_assign_patt R (lit k)) k o p.
Proof.
  intros D U C o1 E. unfold extract_assign_patt. rewrite (bind_ok _ _ _ _ _ (X_expr _ _ _ D C o1 E)).
  now rewrite (proj2 (patt_iff _ p) (conj eq_refl U)).
Qed.

Lemma X_match {A} (f : object -> eres A) (N : A -> node) o k r :
  (forall x a, conv R x (N a) -> f x = Ok a) -> odepth o <= S m -> Popt o k (option_map N r) ->
  Ext (x <- ex (extract_object_opt (lit k)) ;;
       match x with Some x => a <- lift (f x) ;; ret (Some a) | None => ret None end) k o r.
Proof.
  intros F D C o1 E. destruct r as [r|]; cbn in C.
  - destruct C as (x & L & C). apply has_lookup in L.
    rewrite (bind_ok _ _ _ (Some x) (without (lit k) o1)) by (apply x_object_opt_ok; congruence).
    unfold bind. now rewrite (F x r (C m D)).
  - apply has_lookup in C. rewrite (bind_ok _ _ _ None (without (lit k) o1)) by (apply x_object_opt_ok; congruence).
    reflexivity.
Qed.
Lemma X_expr_opt o k r : odepth o <= S m -> Popt o k (option_map N_expr r) ->
  Ext (extract_expr_opt R (lit k)) k o r.
Proof. apply (X_match (r_expr R) N_expr). auto. Qed.
Lemma X_stmt_opt o k r : odepth o <= S m -> Popt o k (option_map N_stmt r) ->
  Ext (extract_stmt_opt R (lit k)) k o r.
Proof. apply (X_match (into_stmt R) N_stmt). apply into_stmt_ok. Qed.
Lemma X_catch_opt o k r : odepth o <= S m -> Popt o k (option_map N_catch r) ->
  Ext (extract_catch_opt R (lit k)) k o r.
Proof. apply (X_match (into_catch R) N_catch). auto. Qed.

Lemma elems_list {A} (f : object -> eres A) (N : A -> node) js xs :
  (forall x a, conv R x (N a) -> f x = Ok a) -> Forall2 (elem m) js (map Some (map N xs)) ->
  Forall2 (item_of f) js xs.
Proof.
  intros F. revert js. induction xs as [|a xs IH]; cbn; intros js H; inversion H; subst; constructor; auto.
  match goal with X : elem _ _ _ |- _ => destruct X as (y & -> & X); exists y; auto end.
Qed.
Lemma X_list {A} (f : object -> eres A) (N : A -> node) o k xs :
  (forall x a, conv R x (N a) -> f x = Ok a) -> odepth o <= S m -> Plist o k (map N xs) ->
  Ext (extract_list f (lit k)) k o xs.
Proof.
  intros F D (js & L & C) o1 E. apply extract_list_iff. exists js. repeat split.
  - apply has_lookup in L. congruence.
  - apply (elems_list f N); auto.
Qed.
Lemma X_expr_list o k r : odepth o <= S m -> Plist o k (map N_eli r) -> Ext (extract_expr_list R (lit k)) k o r.
Proof. apply X_list. auto. Qed.
Lemma X_exprs o k r : odepth o <= S m -> Plist o k (map N_expr r) -> Ext (extract_exprs R (lit k)) k o r.
Proof. apply X_list. auto. Qed.
Lemma X_stmt_list o k r : odepth o <= S m -> Plist o k (map N_item r) -> Ext (extract_stmt_list R (lit k)) k o r.
Proof. apply X_list. auto. Qed.
Lemma X_prop_list o k r : odepth o <= S m -> Plist o k (map N_prop r) -> Ext (extract_prop_list R (lit k)) k o r.
Proof. apply X_list. auto. Qed.
Lemma X_case_list o k r : odepth o <= S m -> Plist o k (map N_case r) -> Ext (extract_case_list R (lit k)) k o r.
Proof. apply X_list. auto. Qed.
Lemma X_dtor_list o k r : odepth o <= S m -> Plist o k (map N_dtor r) -> Ext (extract_dtor_list R (lit k)) k o r.
Proof. apply X_list. auto. Qed.
Lemma X_holes o k r : odepth o <= S m -> Pholes o k (map (option_map N_eli) r) ->
  Ext (extract_expr_opt_list R (lit k)) k o r.
Proof.
  intros D (js & L & C) o1 E. unfold extract_expr_opt_list.
  rewrite (bind_ok _ _ _ _ _ (X_array _ _ _ L o1 E)). cbv beta. specialize (C m D). clear L.
  match goal with |- lift (map_res ?g js) _ = _ => assert (X : map_res g js = Ok r); [|now rewrite X] end.
  apply map_res_iff. revert js C. induction r as [|x r IH]; cbn; intros js C; inversion C; subst; constructor; auto.
  match goal with X : elem _ _ ?z |- _ => destruct x as [x|]; cbn in X;
    [destruct X as (y & -> & X); cbn; now rewrite X|now subst] end.
Qed.
Lemma X_script o r : odepth o <= S m -> conv R o (N_body r) ->
  run (extract_script R (lit "body")) o = Ok r.
Proof. auto. Qed.
End Fuel.

Lemma Pn_expr o e : (forall m, odepth o <= S m -> into_expr_body (est_rec_of m) o = Ok e) -> Pn o (N_expr e).
Proof. intros H [|m] D; unfold enough in D; [rewrite odepth_eq in D; lia|]. cbn. apply H. lia. Qed.
Lemma Pn_stmt o s : (forall m b, odepth o <= S m -> into_item_body (est_rec_of m) b o = Ok (I_Stmt s)) ->
  Pn o (N_stmt s).
Proof. intros H [|m] D; unfold enough in D; [rewrite odepth_eq in D; lia|]. intros b. cbn. apply H. lia. Qed.
Lemma Pn_decl o d : (forall m, odepth o <= S m -> into_item_body (est_rec_of m) true o = Ok (I_Decl d)) ->
  Pn o (N_decl d).
Proof. intros H [|m] D; unfold enough in D; [rewrite odepth_eq in D; lia|]. cbn. apply H. lia. Qed.

(** The field extracted next. *)
Ltac lk := repeat (rewrite lookup_without by reflexivity); reflexivity.
Ltac ext D := first
  [ eapply X_string; eassumption | eapply X_bool; eassumption | eapply X_object; eassumption
  | eapply X_oo_some; eassumption | eapply X_oo_none; eassumption
  | eapply X_array; eassumption | eapply X_id; eassumption | eapply X_patt; eassumption
  | eapply X_id_opt; eassumption | eapply X_params; eassumption
  | eapply (X_expr _ _ _ _ D); eassumption | eapply (X_stmt _ _ _ _ D); eassumption
  | eapply (X_block _ _ _ _ D); eassumption | eapply (X_target _ _ _ _ D); eassumption
  | eapply (X_tpatt _ _ _ _ D); eassumption
  | eapply (X_expr_opt _ _ _ _ D); eassumption | eapply (X_stmt_opt _ _ _ _ D); eassumption
  | eapply (X_catch_opt _ _ _ _ D); eassumption | eapply (X_expr_list _ _ _ _ D); eassumption
  | eapply (X_exprs _ _ _ _ D); eassumption | eapply (X_stmt_list _ _ _ _ D); eassumption
  | eapply (X_prop_list _ _ _ _ D); eassumption | eapply (X_case_list _ _ _ _ D); eassumption
  | eapply (X_dtor_list _ _ _ _ D); eassumption | eapply (X_holes _ _ _ _ D); eassumption
  | eassumption ].
Ltac step D := erewrite bind_ok; [|eapply (fun H : Ext _ _ _ _ => H); [ext D|lk]]; cbv beta iota.

Ltac tag t T := match type of T with typed ?o _ => apply (tag_typed o t) in T; rewrite T; cbn [and_then] end.
Ltac expr t T := apply Pn_expr; intros m D; unfold into_expr_body; tag t T; unfold run.
Ltac steps D := repeat (step D); try reflexivity.

Lemma bind_stmt (mm : eM stmt) s o o' : mm o = Ok (s, o') -> (s <- mm ;; ret (I_Stmt s)) o = Ok (I_Stmt s, o').
Proof. unfold bind. now intros ->. Qed.
Ltac stm t T := apply Pn_stmt; intros m al D; unfold into_item_body; tag t T; cbv zeta;
  eapply run_ok, bind_stmt.
Ltac kind := match goal with |- context [str_eqb (lit ?a) (lit ?b)] =>
  let v := eval cbv in (str_eqb (lit a) (lit b)) in change (str_eqb (lit a) (lit b)) with v end;
  cbv iota; try kind.
Ltac lstep X := erewrite bind_ok; [|unfold bind, lift, ret; rewrite X; reflexivity]; cbv beta iota.

Lemma into_block_tag R o b : into_block R o = Ok b -> tag_of o = Ok Tg_BlockStatement.
Proof.
  unfold into_block. intros H. apply and_then_inv in H as (t & T & H). destruct t; try discriminate H. exact T.
Qed.
Lemma r_expr_tag m o e : r_expr (est_rec_of m) o = Ok e ->
  exists t, tag_of o = Ok t /\ t <> Tg_SpreadElement /\ t <> Tg_VariableDeclaration.
Proof.
  destruct m as [|m]; [discriminate|]. cbn. unfold into_expr_body. intros H.
  apply and_then_inv in H as (t & T & H). exists t. split; [exact T|].
  split; intros ->; discriminate H.
Qed.
Lemma into_dtor_inv R x l i e : into_dtor R x = Ok (Dt_Simple l i e) -> id_loc i = None /\
  exists o1 o2, extract_patt (lit "id") x = Ok (Simple i, o1) /\ extract_expr_opt R (lit "init") o1 = Ok (e, o2).
Proof.
  unfold into_dtor. intros H. apply run_inv in H as (o' & H). apply bind_inv in H as (p & o1 & H1 & H).
  apply bind_inv in H as (r & o2 & H2 & H).
  pose proof H1 as H1'. apply extract_patt_iff in H1 as (j & -> & H1 & ->). cbn in H. unfold ret in H.
  injection H as _ -> -> _.
  split; [inversion H1 as [? ? ? Y]; inversion Y; reflexivity|]. exists (without (lit "id") x), o2. now split.
Qed.
Lemma into_const_ok m o ds cs : odepth o <= S m -> Plist o "declarations" (map N_dtor ds) ->
  Forall2 const_of ds cs -> into_const ds = Ok cs.
Proof.
  intros D (js & L & C) H. specialize (C m D). unfold into_const. apply map_res_iff. clear L.
  revert js C. induction H as [|d c ds cs Hd H IH]; intros js C; constructor.
  - destruct Hd as [i e]. cbn in C. inversion C as [|? ? ? ? X F]; subst. destruct X as (y & -> & X). cbn in X.
    apply into_dtor_inv in X as [X _]. unfold Parser.const_dtor_from_init. cbn. now rewrite X.
  - cbn in C. inversion C; subst. eauto.
Qed.

Theorem complete o n : est false o n -> Pn o n.
Proof.
  apply (est_mind false Pn Pat Popt Plist Pholes Pelems); try clear o n.
  - (* id *) intros o i H. apply Pn_expr. intros m D. unfold into_expr_body.
    pose proof H as Hi. inversion H as [? s T Hn]; subst. tag Tg_Identifier T.
    apply into_id_iff in Hi. unfold run, bind. now rewrite Hi.
  - (* literal *) intros o e T H. expr Tg_Literal T. apply into_lit_iff in H. now rewrite H.
  - (* binary *) intros o t l r T O _ Hl _ Hr. expr Tg_BinaryExpression T.
    step D. unfold op_from_str. rewrite (proj2 (C48_binop_text _ t) eq_refl). steps D.
  - (* logical *) intros o t l r T O _ Hl _ Hr. expr Tg_LogicalExpression T.
    step D. unfold op_from_str. rewrite (proj2 (C48_logop_text _ t) eq_refl). steps D.
  - (* assign *) intros o l r p T O _ Hl _ Hr -> U _. expr Tg_AssignmentExpression T.
    step D. step D. change (str_eqb (lit "=") (lit "=")) with true. cbv iota. steps D.
  - (* assignop *) intros o t l r p T O _ Hl _ Hr ->. expr Tg_AssignmentExpression T.
    step D. step D. replace (str_eqb (assop_tag_text t) (lit "=")) with false by (now destruct t).
    unfold op_from_str. rewrite (proj2 (C48_assop_text _ t) eq_refl). steps D.
  - (* unary *) intros o t a T O _ _ Ha. expr Tg_UnaryExpression T.
    step D. unfold op_from_str. rewrite (proj2 (C48_unop_text _ t) eq_refl). steps D.
  - intros o a x T O B _ Ha ->. expr Tg_UpdateExpression T. steps D.
  - intros o a x T O B _ Ha ->. expr Tg_UpdateExpression T. steps D.
  - intros o a x T O B _ Ha ->. expr Tg_UpdateExpression T. steps D.
  - intros o a x T O B _ Ha ->. expr Tg_UpdateExpression T. steps D.
  - (* dot *) intros o a p s T B _ Ha Hp Tp Hs. expr Tg_MemberExpression T.
    assert (Hi : est_id_at o "property" (Id None (name_from s))) by (apply (EIA _ _ p); [exact Hp|now constructor]).
    steps D. unfold ret; cbn [id_name].
    now rewrite name_string_from.
  - (* brack *) intros o a b T B _ Ha _ Hb. expr Tg_MemberExpression T. steps D.
  - (* call *) intros o a args T _ Ha _ Hb. expr Tg_CallExpression T. steps D.
  - (* new *) intros o a args T _ Ha _ Hb. expr Tg_NewExpression T. steps D.
  - (* array *) intros o es T _ Ha. expr Tg_ArrayExpression T. steps D.
  - (* object *) intros o ps T _ Ha. expr Tg_ObjectExpression T. steps D.
  - (* function *) intros o i f T Hi E He Hf. expr Tg_FunctionExpression T. step D.
    unfold bind at 1, get, bind, lift. rewrite (Hf m D) by lk. inversion He; subst. reflexivity.
  - (* sequence *) intros o es T _ Ha. expr Tg_SequenceExpression T. steps D.
  - (* cond *) intros o a b c T _ Ha _ Hb _ Hc. expr Tg_ConditionalExpression T. steps D.
  - (* this *) intros o T. expr Tg_ThisExpression T. reflexivity.
  - (* new.target *) intros o x p T Hm Tm Nm Hp Tp Np. expr Tg_MetaProperty T.
    assert (H1 : est_id_at o "meta" (Id None (name_from (lit "new")))) by (apply (EIA _ _ x); [exact Hm|now constructor]).
    assert (H2 : est_id_at o "property" (Id None (name_from (lit "target")))) by (apply (EIA _ _ p); [exact Hp|now constructor]).
    steps D.
  - (* item *) intros o e _ H m D. specialize (H m D). cbn in *. unfold into_expr_list_item.
    destruct (r_expr_tag _ _ _ H) as (t & T & N1 & N2). rewrite T. cbn [and_then]. rewrite H.
    destruct t; try reflexivity; congruence.
  - (* spread *) intros o e T _ H m D. unfold conv, into_expr_list_item. tag Tg_SpreadElement T.
    assert (D' : odepth o <= S m) by (unfold enough in D; lia).
    unfold run. now rewrite (X_expr _ _ _ _ D' H o eq_refl).
  - (* init *) intros o k e _ _ K M S [ko k2 Lk Hk] _ (v & Lv & Hv) m D. unfold conv, into_prop, run. unfold enough in D.
    apply into_prop_key_iff in Hk. do 3 step D. kind. step D. step D.
    lstep (Hv m D). now lstep Hk.
  - (* shorthand *) intros o i v _ _ K M S [ko k2 Lk Hk] Lv _ m D. unfold conv, into_prop, run. unfold enough in D.
    apply into_id_iff in Hk. do 3 step D. kind. step D. step D. now lstep Hk.
  - (* method *) intros o k v f ps b g _ _ K M _ [ko k2 Lk Hk] Lv _ -> _ Hf m D. unfold conv, into_prop, run. unfold enough in D.
    apply into_prop_key_iff in Hk. do 3 step D. kind. step D. lstep Hk.
    assert (Hin : odepth v < odepth o) by (apply has_lookup in Lv; exact (lookup_depth _ _ _ Lv)).
    assert (Dv : enough (N_fexpr (Fun None None ps b g)) v m) by (unfold enough; lia).
    now lstep (Hf m Dv _ k2 v eq_refl eq_refl eq_refl).
  - (* get *) intros o k v bo b _ _ K _ [ko k2 Lk Hk] Lv _ Lb _ _ Hb m D. unfold conv, into_prop, run. unfold enough in D.
    apply into_prop_key_iff in Hk. do 3 step D. kind. 
    assert (Hin : odepth v < odepth o) by (apply has_lookup in Lv; exact (lookup_depth _ _ _ Lv)).
    assert (Hin' : odepth bo < odepth v) by (apply has_lookup in Lb; exact (lookup_depth _ _ _ Lb)).
    assert (Dv : enough (N_body b) bo m) by (unfold enough; lia).
    lstep (X_object _ _ _ Lb v eq_refl). lstep (Hb m Dv). now lstep Hk.
  - (* set *) intros o k v f p rest b g _ _ K _ [ko k2 Lk Hk] Lv _ -> _ Hf m D. unfold conv, into_prop, run. unfold enough in D.
    apply into_prop_key_iff in Hk. do 3 step D. kind.
    assert (Hin : odepth v < odepth o) by (apply has_lookup in Lv; exact (lookup_depth _ _ _ Lv)).
    assert (Dv : enough (N_fexpr (Fun None (@None id) (Params None [p] rest) b g)) v m) by (unfold enough; lia).
    lstep (Hf m Dv _ tt v eq_refl eq_refl eq_refl). cbn [fn_params pa_list]. now lstep Hk.
  - (* fun *) intros o i ps b g v js bo Hg Dg _ Hj Hps Hb _ _ IH m D I j o1 E1 E2 E3. unfold enough in D.
    destruct (X_bool_opt _ _ _ _ Hg Dg) as (r & Xr & <-).
    unfold into_fun, run. rewrite (bind_ok _ _ _ _ _ (Xr o1 E1)). cbv beta.
    rewrite (bind_ok _ _ _ _ _ (X_params _ _ _ _ Hj Hps (without (lit "generator") o1)
      ltac:(rewrite lookup_without by reflexivity; exact E2))). cbv beta.
    rewrite (bind_ok _ _ _ _ _ (X_object _ _ _ Hb (without (lit "params") (without (lit "generator") o1))
      ltac:(rewrite !lookup_without by reflexivity; exact E3))). cbv beta.
    assert (Hin : odepth bo < odepth o) by (apply has_lookup in Hb; exact (lookup_depth _ _ _ Hb)).
    assert (Dv : enough (N_body b) bo m) by (unfold enough; lia).
    now lstep (IH m Dv).
  - (* body *) intros o l ds is _ Hl Sp m D. unfold conv, extract_script, run. step D.
    apply splits_iff in Sp. destruct (split_prefix l item_is_directive). now destruct Sp as [-> ->].
  - (* empty *) intros o T. stm Tg_EmptyStatement T. reflexivity.
  - (* block *) intros o b He H. apply Pn_stmt. intros m al D. unfold into_item_body.
    unfold conv, Pn, enough in H. rewrite (into_block_tag _ _ _ (H m D)). cbn [and_then]. cbv zeta.
    eapply run_ok, bind_stmt. now lstep (H m D).
  - (* var *) intros o ds T K _ Hd. apply Pn_stmt. intros m al D. unfold into_item_body.
    tag Tg_VariableDeclaration T. cbv zeta. unfold run. step D. step D. now kind.
  - (* expr *) intros o e T _ H1. stm Tg_ExpressionStatement T. steps D.
  - (* if *) intros o e a b T _ H1 _ H2 _ H3. stm Tg_IfStatement T. steps D.
  - (* label *) intros o i b T Hi _ H1. stm Tg_LabeledStatement T. steps D.
  - (* break *) intros o i T Hi. stm Tg_BreakStatement T. steps D.
  - (* continue *) intros o i T Hi. stm Tg_ContinueStatement T. steps D.
  - (* with *) intros o e b T _ H1 _ H2. stm Tg_WithStatement T. steps D.
  - (* switch *) intros o e cs T _ H1 _ H2. stm Tg_SwitchStatement T. steps D.
  - (* return *) intros o e T _ H1. stm Tg_ReturnStatement T. steps D.
  - (* throw *) intros o e T _ H1. stm Tg_ThrowStatement T. steps D.
  - (* try *) intros o b c f T _ H1 _ H2 _ H3. stm Tg_TryStatement T. step D. step D.
    destruct f as [f|]; cbn in H3.
    + destruct H3 as (x & L & C). steps D. lstep (C m D). reflexivity.
    + steps D.
  - (* while *) intros o e b T _ H1 _ H2. stm Tg_WhileStatement T. steps D.
  - (* do while *) intros o e b T _ H1 _ H2. stm Tg_DoWhileStatement T. steps D.
  - (* for *) intros o h t u b T _ H1 _ H2 _ H3 _ H4. stm Tg_ForStatement T.
    destruct h as [h|]; cbn in H1.
    + destruct H1 as (x & L & C). step D. lstep (C m D). steps D.
    + step D. erewrite bind_ok; [|reflexivity]. cbv beta iota. steps D.
  - (* for in *) intros o h e b T _ (x & L & C) _ H2 _ H3. stm Tg_ForInStatement T. step D. lstep (C m D). steps D.
  - (* for of *) intros o h e b T _ (x & L & C) _ H2 _ H3. stm Tg_ForOfStatement T. step D. lstep (C m D). steps D.
  - (* debugger *) intros o T. stm Tg_DebuggerStatement T. reflexivity.
  - (* block *) intros o is T _ H m D. unfold conv, into_block. tag Tg_BlockStatement T. unfold run.
    now rewrite (X_stmt_list _ _ _ _ D H o eq_refl).
  - (* catch *) intros o p b _ Hp _ Hb m D. unfold conv, into_catch, run. unfold enough in D. steps D.
  - (* case *) intros o e is _ _ H1 _ H2 m D. unfold conv, into_case, run. unfold enough in D. steps D.
  - (* dtor *) intros o i e _ Hi _ H2 m D. unfold conv, into_dtor, run. unfold enough in D. step D. step D.
    cbn. assert (id_loc i = None) as -> by (inversion Hi as [? ? ? Y]; inversion Y; reflexivity). reflexivity.
  - intros o ds T K _ H m D. unfold enough in D. assert (D' : odepth o <= S m) by lia.
    unfold conv, into_for_head. tag Tg_VariableDeclaration T. unfold run. step D'. step D'. now kind.
  - intros o ds T K _ H m D. unfold enough in D. assert (D' : odepth o <= S m) by lia.
    unfold conv, into_for_head. tag Tg_VariableDeclaration T. unfold run. step D'. step D'. now kind.
  - intros o ds cs T K _ H F m D. unfold enough in D. assert (D' : odepth o <= S m) by lia.
    unfold conv, into_for_head. tag Tg_VariableDeclaration T. unfold run. step D'. step D'. kind.
    now lstep (into_const_ok _ _ _ _ D' H F).
  - intros o e _ H m D. specialize (H m D). unfold conv, into_for_head.
    destruct (r_expr_tag _ _ _ H) as (t & T & N1 & N2). rewrite T. cbn [and_then]. unfold conv in H. rewrite H.
    destruct t; try reflexivity; congruence.
  - (* in var *) intros o d i e T K _ (js & L & C) -> m D. unfold enough in D. assert (D' : odepth o <= S m) by lia.
    unfold conv, into_for_in_head. tag Tg_VariableDeclaration T. unfold run. step D'. step D'.
    specialize (C m D'). inversion C as [|? ? ? ? X F]; subst. inversion F; subst. destruct X as (xo & -> & X).
    apply into_dtor_inv in X as (_ & o1 & o2 & E1 & E2).
    erewrite bind_ok; [|reflexivity]. cbv beta iota. lstep E1. lstep E2. now kind.
  - (* in *) intros o k d i h T K _ (js & L & C) -> Hk m D. unfold enough in D. assert (D' : odepth o <= S m) by (destruct Hk as [X|[X|[X|[]]]]; injection X as <- <-; lia).
    assert (DD : odepth o <= S m) by exact D'.
    enough (G : into_for_in_head (est_rec_of m) o = Ok (h None (Simple i)))
      by (destruct Hk as [X|[X|[X|[]]]]; injection X as <- <-; exact G).
    unfold into_for_in_head. tag Tg_VariableDeclaration T. unfold run. step D'. step D'.
    specialize (C m D'). inversion C as [|? ? ? ? X F]; subst. inversion F; subst. destruct X as (xo & -> & X).
    apply into_dtor_inv in X as (_ & o1 & o2 & E1 & E2).
    erewrite bind_ok; [|reflexivity]. cbv beta iota. lstep E1. lstep E2.
    destruct Hk as [X|[X|[X|[]]]]; injection X as <- <-; now kind.
  - (* in pattern *) intros o e p _ H -> U _ m D. specialize (H m D). unfold conv, into_for_in_head.
    destruct (r_expr_tag _ _ _ H) as (t & T & N1 & N2). rewrite T. cbn [and_then]. unfold conv in H. rewrite H.
    cbn [and_then]. rewrite (proj2 (patt_iff _ p) (conj eq_refl U)). destruct t; try reflexivity; congruence.
  - (* of *) intros o k dob i h T K L _ Hi Hk m D.
    enough (G : into_for_of_head (est_rec_of m) o = Ok (h None (Simple i)))
      by (destruct Hk as [X|[X|[X|[]]]]; injection X as <- <-; exact G).
    unfold into_for_of_head. tag Tg_VariableDeclaration T. unfold run. step D. step D.
    erewrite bind_ok; [|reflexivity]. cbv beta iota. lstep (X_patt _ _ _ Hi dob eq_refl).
    destruct Hk as [X|[X|[X|[]]]]; injection X as <- <-; now kind.
  - (* of pattern *) intros o e p _ H -> U _ m D. specialize (H m D). unfold conv, into_for_of_head.
    destruct (r_expr_tag _ _ _ H) as (t & T & N1 & N2). rewrite T. cbn [and_then]. unfold conv in H. rewrite H.
    cbn [and_then]. rewrite (proj2 (patt_iff _ p) (conj eq_refl U)). destruct t; try reflexivity; congruence.
  - (* function declaration *) intros o f ps b g i T Hi -> _ Hf. apply Pn_decl. intros m D. unfold into_item_body.
    tag Tg_FunctionDeclaration T. cbv zeta. cbn [negb]. unfold run. step D.
    unfold bind at 1, get, bind, lift. rewrite (Hf m D) by lk. reflexivity.
  - (* let *) intros o ds T K _ Hd. apply Pn_decl. intros m D. unfold into_item_body.
    tag Tg_VariableDeclaration T. cbv zeta. unfold run. step D. step D. now kind.
  - (* const *) intros o ds cs T K _ Hd F. apply Pn_decl. intros m D. unfold into_item_body.
    tag Tg_VariableDeclaration T. cbv zeta. unfold run. step D. step D. kind. cbn [negb].
    now lstep (into_const_ok _ _ _ _ D Hd F).
  - intros o s _ H m D. exact (H m D true).
  - intros o d _ H m D. exact (H m D).
  - (* at *) intros o k x n L _ H. exists x. split; [exact L|]. intros m D. apply H.
    apply has_lookup in L. exact (enough_inside n x o m (lookup_depth _ _ _ L) D).
  - intros o k L. exact L.
  - intros o k n _ H. exact H.
  - intros o k js ns L _ H. exists js. split; [exact L|]. intros m D. apply H.
    apply has_lookup in L. apply lookup_depth in L. rewrite adepth_eq in L. lia.
  - intros o k js ns L _ H. exists js. split; [exact L|]. intros m D. apply H.
    apply has_lookup in L. apply lookup_depth in L. rewrite adepth_eq in L. lia.
  - intros m D. constructor.
  - intros o n js ns _ H _ IH m D. cbn [adepth] in D. constructor; [|apply IH; lia].
    exists o. split; [reflexivity|]. apply H. fold (odepth o) in D. destruct n; unfold enough; lia.
  - intros js ns _ IH m D. cbn [adepth] in D. constructor; [reflexivity|apply IH; lia].
Qed.

Theorem into_script_iff o s : into_script o = Ok s <-> est false o (N_body s).
Proof.
  split; [apply into_script_sound|]. intros H. apply complete in H.
  apply (H (odepth o)). unfold enough. lia.
Qed.
