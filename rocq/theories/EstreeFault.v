(** A document with a fault is refused. *)
From Coq Require Import String Ascii List NArith ZArith Bool Lia.
From Verif Require Import Base F64 Word Token Punc Ast Track Node SpecTree Cover CoverProofs NodeProofs
  LexTheorems PropTree Unjson Estree SpecEstree SpecBlame EstreeProofs EstreeConv EstreeComp EstreeBlame.
Import ListNotations.
Local Open Scope nat_scope.
Local Arguments lit _ : simpl never.

(** The object is converted in the role. *)
Definition ok (r : role) (o : object) : Prop :=
  match r with
  | R_body => exists b, est false o (N_body b)
  | R_item false => exists s, est false o (N_stmt s)
  | R_item true => exists i, est false o (N_item i)
  | R_expr => exists e, est false o (N_expr e)
  | R_elem => exists e, est false o (N_eli e)
  | R_id => exists i, est_id o i
  | R_lit => exists e, est_value o e
  | R_regex => exists p f, has o "pattern" (J_String p) /\ has o "flags" (J_String f)
  | R_key => exists k, est_key false o k
  | R_prop => exists p, est false o (N_prop p)
  | R_getter => exists bo b, has o "body" (J_Object bo) /\ est false bo (N_body b)
  | R_fun => exists f, est false o (N_fexpr f)
  | R_last => (exists i, est_id o i) \/ (typed o "RestElement" /\ exists i, est_id_at o "argument" i)
  | R_block => exists b, est false o (N_block b)
  | R_case => exists c, est false o (N_case c)
  | R_catch => exists c, est false o (N_catch c)
  | R_dtor => exists d, est false o (N_dtor d)
  | R_dtor_of => exists i, est_id_at o "id" i
  | R_for => exists h, est false o (N_fh h)
  | R_for_in => exists h, est false o (N_fi h)
  | R_for_of => exists h, est false o (N_fo h)
  | R_any => True
  end.
Definition good (kd : kind) (v : json) : Prop :=
  holds kd v /\
  match kd with
  | K_object r | K_object_opt r => forall x, v = J_Object x -> ok r x
  | K_list r => forall a, v = J_Array a -> forall y, In y a -> exists x, y = J_Object x /\ ok r x
  | K_holes r => forall a, v = J_Array a -> forall y, In y a -> y = J_Null \/ exists x, y = J_Object x /\ ok r x
  | K_params => forall a, v = J_Array a -> exists ps, est_params a ps
  | _ => True
  end.
Definition gives (o : object) (k : string) (kd : kind) : Prop := exists v, has o k v /\ good kd v.

Lemma g_string o k s : has o k (J_String s) -> gives o k K_string.
Proof. intros H. exists (J_String s). repeat split; [exact H|eexists; reflexivity]. Qed.
Lemma g_bool o k s : has o k (J_Bool s) -> gives o k K_bool.
Proof. intros H. exists (J_Bool s). repeat split; [exact H|eexists; reflexivity]. Qed.
Lemma g_object o k r x : has o k (J_Object x) -> ok r x -> gives o k (K_object r).
Proof.
  intros H K. exists (J_Object x). repeat split; [exact H|eexists; reflexivity|]. intros y E. injection E as <-. exact K.
Qed.
Lemma g_object_opt o k r x : has o k (J_Object x) -> ok r x -> gives o k (K_object_opt r).
Proof.
  intros H K. exists (J_Object x). repeat split; [exact H|right; eexists; reflexivity|]. intros y E. injection E as <-. exact K.
Qed.
Lemma g_null o k r : has o k J_Null -> gives o k (K_object_opt r).
Proof. intros H. exists J_Null. repeat split; [exact H|now left|]. discriminate. Qed.
Lemma g_at o k r n : est_at false o k n -> (forall x, est false x n -> ok r x) -> gives o k (K_object r).
Proof. intros H K. inversion H; subst. eapply g_object; eauto. Qed.
Lemma g_opt o k r {A} (f : A -> node) n : est_opt false o k (option_map f n) ->
  (forall x a, est false x (f a) -> ok r x) -> gives o k (K_object_opt r).
Proof.
  intros H K. destruct n as [a|]; cbn in H; inversion H; subst.
  - match goal with X : est_at _ _ _ _ |- _ => inversion X; subst end. eapply g_object_opt; eauto.
  - now apply g_null.
Qed.
Lemma g_id o k i : est_id_at o k i -> gives o k (K_object R_id).
Proof. intros H. inversion H; subst. eapply g_object; [eassumption|]. cbn. eauto. Qed.
Lemma g_id_opt o k i : est_id_opt o k i -> gives o k (K_object_opt R_id).
Proof.
  intros H. inversion H; subst; [now apply g_null|]. match goal with X : est_id_at _ _ _ |- _ => inversion X; subst end.
  eapply g_object_opt; [eassumption|]. cbn. eauto.
Qed.
Lemma g_list o k r {A} (f : A -> node) l : est_list false o k (map f l) ->
  (forall x a, est false x (f a) -> ok r x) -> gives o k (K_list r).
Proof.
  intros H K. inversion H as [? ? js ? Hj E]; subst. apply elems_iff in E. exists (J_Array js).
  repeat split; [exact Hj|eexists; reflexivity|]. intros a Ea y Hy. injection Ea as <-. clear - E Hy K.
  induction E as [|j b js l (x & -> & Hx) E IH]; [destruct Hy|]. destruct Hy as [<-|Hy]; [exists x; eauto|auto].
Qed.
Lemma g_holes o k es : est_holes false o k (map (option_map N_eli) es) -> gives o k (K_holes R_elem).
Proof.
  intros H. inversion H as [? ? js ? Hj E]; subst. exists (J_Array js).
  repeat split; [exact Hj|eexists; reflexivity|]. intros a Ea y Hy. injection Ea as <-. clear - E Hy.
  revert js E Hy. induction es as [|[e|] es IH]; intros js E Hy; cbn in E; inversion E; subst; [destruct Hy| |].
  - destruct Hy as [<-|Hy]; [right|eauto]. eexists. split; [reflexivity|]. cbn. eauto.
  - destruct Hy as [<-|Hy]; [now left|eauto].
Qed.

Lemma est_stmt_item x s : est false x (N_stmt s) -> ok (R_item true) x.
Proof. intros H. exists (I_Stmt s). now constructor. Qed.

Ltac same := match goal with
  | H1 : typed ?o ?a, H2 : typed ?o ?b |- _ =>
      lazymatch a with b => fail | _ => idtac end;
      pose proof (typed_fun _ _ _ H1 H2); (discriminate || subst; clear H2)
  | H1 : has ?o ?k ?a, H2 : has ?o ?k ?b |- _ =>
      lazymatch a with b => fail | _ => idtac end;
      let E := fresh in pose proof (has_fun _ _ _ _ H1 H2) as E; (discriminate E || (injection E as E; subst; clear H2))
  end.
Ltac give := first
  [ eapply g_string; eassumption
  | eapply g_bool; eassumption
  | eapply g_at; [eassumption|cbn; eauto]
  | eapply g_opt; [eassumption|cbn; eauto]
  | eapply g_id; eassumption
  | eapply g_id_opt; eassumption
  | eapply g_list; [eassumption|cbn; eauto]
  | eapply g_holes; eassumption
  | eapply g_object; [eassumption|eexists; econstructor; eassumption] ].
Ltac into_in H := cbn in H; repeat (destruct H as [H|H]; [injection H as <- <-|]); try contradiction.
Ltac est_inv H := inversion H; subst; clear H;
  try match goal with X : est_id _ _ |- _ => inversion X; subst end; repeat same.

Lemma ok_expr_fields o e t k kd : est false o (N_expr e) -> typed o t -> In (k, kd) (expression_fields t) ->
  gives o k kd.
Proof. intros H T I. est_inv H; into_in I; try give.
Qed.
Lemma block_typed o b : est false o (N_block b) -> typed o "BlockStatement".
Proof. intros H. inversion H; subst. assumption. Qed.
Lemma ok_stmt_fields o s b t k kd : est false o (N_stmt s) -> typed o t -> In (k, kd) (item_fields b t) ->
  gives o k kd.
Proof.
  intros H T I. inversion H; subst; clear H;
  try match goal with X : est _ _ (N_block _) |- _ => apply block_typed in X end; repeat same; into_in I; try give.
Qed.
Lemma ok_decl_fields o s b t k kd : est false o (N_decl s) -> typed o t -> In (k, kd) (item_fields b t) ->
  gives o k kd.
Proof. intros H T I. est_inv H; destruct b; into_in I; try give. Qed.

Lemma expr_typed o e : est false o (N_expr e) -> exists t, In t expression_types /\ typed o t.
Proof.
  intros H. inversion H; subst; try match goal with X : est_id _ _ |- _ => inversion X; subst end;
  (eexists; split; [|eassumption]; cbn; tauto).
Qed.
Lemma stmt_typed o s : est false o (N_stmt s) -> exists t, In t statement_types /\ typed o t.
Proof.
  intros H. inversion H; subst; try match goal with X : est _ _ (N_block _) |- _ => apply block_typed in X end;
  (eexists; split; [|eassumption]; cbn; tauto).
Qed.
Lemma decl_typed o d : est false o (N_decl d) -> exists t, In t ("FunctionDeclaration" :: statement_types)%string /\ typed o t.
Proof. intros H. inversion H; subst; (eexists; split; [|eassumption]; cbn; tauto). Qed.
Lemma sub_types t : In t expression_types \/ In t ("FunctionDeclaration" :: statement_types)%string -> In t node_types.
Proof.
  intros [H|H]; repeat (destruct H as [<-|H]; [cbn; tauto|]); destruct H.
Qed.
Lemma ok_type r o : has_type r = true -> ok r o -> exists t, In t node_types /\ typed o t.
Proof.
  intros T H. destruct r as [|[]| | | | | | | | | | | | | | | | | | |]; try discriminate T; cbn in H.
  - destruct H as [i H]. inversion H; subst.
    + match goal with X : est _ _ _ |- _ => apply stmt_typed in X as (t & It & Tt) end. exists t. split; [|exact Tt].
      apply sub_types. right. now right.
    + match goal with X : est _ _ _ |- _ => apply decl_typed in X as (t & It & Tt) end. exists t. split; [|exact Tt].
      apply sub_types. now right.
  - destruct H as [i H]. apply stmt_typed in H as (t & It & Tt). exists t. split; [|exact Tt]. apply sub_types. right. now right.
  - destruct H as [i H]. apply expr_typed in H as (t & It & Tt). exists t. split; [|exact Tt]. apply sub_types. now left.
  - destruct H as [i H]. inversion H; subst.
    + match goal with X : est _ _ _ |- _ => apply expr_typed in X as (t & It & Tt) end. exists t. split; [|exact Tt].
      apply sub_types. now left.
    + eexists. split; [|eassumption]. cbn; tauto.
  - destruct H as [i H]. inversion H; subst. eexists. split; [|eassumption]. cbn; tauto.
  - destruct H as [i H]. inversion H; subst; eexists; (split; [|eassumption]); first [assumption|cbn; tauto].
  - destruct H as [[i H]|[H _]]; [inversion H; subst; eexists; (split; [|eassumption]); cbn; tauto|].
    eexists. split; [|exact H]. cbn; tauto.
  - destruct H as [i H]. apply block_typed in H. eexists. split; [|exact H]. cbn; tauto.
  - destruct H as [i H]. inversion H; subst; try (eexists; split; [|eassumption]; cbn; tauto).
    match goal with X : est _ _ _ |- _ => apply expr_typed in X as (t & It & Tt) end. exists t. split; [|exact Tt].
    apply sub_types. now left.
  - destruct H as [i H]. inversion H; subst; try (eexists; split; [|eassumption]; cbn; tauto).
    match goal with X : est _ _ _ |- _ => apply expr_typed in X as (t & It & Tt) end. exists t. split; [|exact Tt].
    apply sub_types. now left.
  - destruct H as [i H]. inversion H; subst; try (eexists; split; [|eassumption]; cbn; tauto).
    match goal with X : est _ _ _ |- _ => apply expr_typed in X as (t & It & Tt) end. exists t. split; [|exact Tt].
    apply sub_types. now left.
Qed.
Lemma expr_not_var o e : est false o (N_expr e) -> ~ typed o "VariableDeclaration".
Proof.
  intros H T. apply expr_typed in H as (t & It & Tt). pose proof (typed_fun _ _ _ T Tt). subst t.
  repeat (destruct It as [It|It]; [discriminate It|]). destruct It.
Qed.
Lemma expr_not_spread o e : est false o (N_expr e) -> ~ typed o "SpreadElement".
Proof.
  intros H T. apply expr_typed in H as (t & It & Tt). pose proof (typed_fun _ _ _ T Tt). subst t.
  repeat (destruct It as [It|It]; [discriminate It|]). destruct It.
Qed.
Ltac kinds := repeat match goal with
  | H1 : text ?o ?k ?a, H2 : has ?o ?k (J_String (lit ?b)) |- _ =>
      lazymatch a with b => fail | _ => idtac end; pose proof (text_fun o k a b H1 H2); discriminate
  | H1 : flag ?o ?k ?a, H2 : has ?o ?k (J_Bool ?b) |- _ =>
      lazymatch a with b => fail | _ => idtac end;
      let E := fresh in pose proof (has_fun _ _ _ _ H1 H2) as E; discriminate E
  end.

Lemma asks_ok r o k kd : ok r o -> asks r o k kd -> gives o k kd.
Proof.
  intros H A. destruct A as
    [r o T | o | o t k kd T I | o T F | o T F | o T | o T | o | o V | o | o | o k kd I | o K | o K M
    | o K M S | o N | o K M S | o K | o K | o | o k kd I | o T | b o t k kd T I | o T | o k kd I | o k kd I
    | o k kd I | o | r d o k kd J T I].
  - apply ok_type in H as (t & _ & Ht); [|exact T]. eapply g_string. exact Ht.
  - destruct H as [b H]. inversion H; subst. give.
  - destruct H as [e H]. eapply ok_expr_fields; eauto.
  - destruct H as [e H]. unfold flag in F. est_inv H. give.
  - destruct H as [e H]. unfold flag in F. est_inv H. give.
  - destruct H as [e H]. inversion H; subst.
    + match goal with X : est _ _ _ |- _ => apply expr_not_spread in X end. contradiction.
    + give.
  - destruct H as [e H]. inversion H; subst. give.
  - destruct H as [e H]. inversion H; subst; try (eexists; split; [eassumption|]; split; exact Logic.I).
    match goal with X : _ \/ _ |- _ => destruct X as [?|[? ?]] end; (eexists; split; [eassumption|]; split; exact Logic.I).
  - destruct H as [e H]. destruct V as [[V N]|[v V]]; inversion H; subst; repeat same; try contradiction;
      eapply g_object; try eassumption; cbn; eauto.
  - destruct H as (p & f & Hp & Hf). give.
  - destruct H as (p & f & Hp & Hf). give.
  - destruct H as [p H]. inversion H; subst; into_in I;
      try match goal with X : est_key_at _ _ _ |- _ => inversion X; subst end;
      try match goal with X : est_id_at _ _ _ |- _ => inversion X; subst end;
      try match goal with X : est_at _ _ "value" _ |- _ => inversion X; subst end;
      first [ eapply g_string; eassumption | eapply g_object; [eassumption|exact Logic.I] ].
  - destruct H as [p H]. inversion H; subst; kinds; give.
  - destruct H as [p H]. inversion H; subst; kinds; give.
  - destruct H as [p H]. inversion H; subst; kinds; give.
  - destruct H as [p H]. inversion H; subst;
      try match goal with X : est_key_at _ _ _ |- _ => inversion X; subst end;
      try (eapply g_object; [eassumption|cbn; eauto]; fail). exfalso. apply N. repeat split; assumption.
  - destruct H as [p H]. inversion H; subst; kinds; give.
  - destruct H as [p H]. inversion H; subst; kinds. eapply g_object; [eassumption|cbn; eauto].
  - destruct H as [p H]. destruct K as [[K M]|K]; inversion H; subst; kinds; (eapply g_object; [eassumption|cbn; eauto]).
  - destruct H as (bo & b & Hb & H). eapply g_object; [eassumption|cbn; eauto].
  - destruct H as [f H]. inversion H; subst. into_in I.
    + eexists. split; [eassumption|]. split; [|exact Logic.I].
      match goal with X : _ \/ _ |- _ => destruct X as [->|[-> _]] end; [right; eauto|now left].
    + eexists. split; [eassumption|]. split; [eexists; reflexivity|]. intros a E. injection E as <-. eauto.
    + eapply g_object; [eassumption|cbn; eauto].
  - destruct H as [[i H]|[_ [i H]]]; [inversion H; subst; repeat same|give].
  - destruct b; destruct H as [i H].
    + inversion H; subst; [eapply ok_stmt_fields|eapply ok_decl_fields]; eauto.
    + eapply ok_stmt_fields; eauto.
  - destruct H as [b H]. inversion H; subst. give.
  - destruct H as [b H]. inversion H; subst. into_in I; give.
  - destruct H as [b H]. inversion H; subst. into_in I; give.
  - destruct H as [b H]. inversion H; subst. into_in I; give.
  - destruct H as [b H]. give.
  - cbn in J. destruct J as [J|[J|[J|[]]]]; injection J as <- <-; destruct H as [h H].
    + inversion H; subst; try (exfalso; eapply expr_not_var; eassumption); into_in I; give.
    + inversion H; subst; try (exfalso; eapply expr_not_var; eassumption); into_in I; try give;
        (eapply (g_list _ _ _ N_dtor [_]); [eassumption|cbn; eauto]).
    + inversion H; subst; try (exfalso; eapply expr_not_var; eassumption); into_in I; try give.
      eexists. split; [eassumption|]. split; [eexists; reflexivity|]. intros a E. injection E as <-.
      intros y [<-|[]]. eexists. split; [reflexivity|]. cbn. eauto.
Qed.

(** ** Parts *)
Lemma also_ok r o r' : ok r o -> also_plays r o r' -> ok r' o.
Proof.
  intros H P. destruct P as [r o t I N | r o I T | o T | o N | o T | o T | b o T].
  - cbn in I. destruct I as [I|[I|[I|[I|[]]]]]; injection I as <- <-; destruct H as [x H];
      inversion H; subst; try contradiction; cbn; eauto.
  - cbn in I. destruct I as [<-|[<-|[]]]; destruct H as [x H].
    + est_inv H. cbn. eauto.
    + inversion H; subst; repeat same; try contradiction; cbn; eexists; econstructor; eassumption.
  - destruct H as [e H]. est_inv H. cbn. eauto.
  - destruct H as [e H]. inversion H; subst; [contradiction| |]; cbn; eauto.
  - destruct H as [e H]. est_inv H. cbn. eauto.
  - destruct H as [e H]. inversion H; subst.
    + match goal with X : est _ _ (N_stmt _) |- _ => apply stmt_typed in X as (t & It & Tt) end.
      pose proof (typed_fun _ _ _ T Tt). subst t. exfalso.
      repeat (destruct It as [It|It]; [discriminate It|]). destruct It.
    + match goal with X : est _ _ (N_decl _) |- _ => inversion X; subst end; repeat same. cbn. eauto.
  - destruct b; destruct H as [e H].
    + inversion H; subst.
      * match goal with X : est _ _ (N_stmt _) |- _ => inversion X; subst end; repeat same. cbn. eauto.
      * match goal with X : est _ _ (N_decl _) |- _ => inversion X; subst end; repeat same.
    + inversion H; subst; repeat same. cbn. eauto.
Qed.
Lemma not_rest_id o i : est_id o i -> ~ typed o "RestElement".
Proof. intros H T. inversion H; subst. same. Qed.
Lemma params_mid js ps a o b : est_params js ps -> js = a ++ J_Object o :: b ->
  (exists i, est_id o i) \/ (b = [] /\ typed o "RestElement" /\ exists i, est_id_at o "argument" i).
Proof.
  intros H. destruct H as [js ps F|js ps x i F T A]; intros E.
  - left. subst js. apply Forall2_app_inv_l in F as (l1 & l2 & _ & F & _). inversion F as [|? ? ? ? Q]; subst. inversion Q; subst. eauto.
  - destruct b as [|y b _] using rev_ind.
    + apply app_inj_tail in E as [-> E]. injection E as ->. right. eauto.
    + rewrite app_comm_cons, app_assoc in E. apply app_inj_tail in E as [-> _]. left.
      apply Forall2_app_inv_l in F as (l1 & l2 & _ & F & _). inversion F as [|? ? ? ? Q]; subst. inversion Q; subst. eauto.
Qed.
Theorem part_ok D r o : ok R_body D -> part D r o -> ok r o.
Proof.
  intros K H. induction H as [|r o r' H IH P|r o k r' o' H IH A Hk|r o k r' a o' H IH A Hk I|r o k a o' b H IH A Hk N|r o k a o' H IH A Hk].
  - exact K.
  - exact (also_ok _ _ _ IH P).
  - destruct A as [A|A]; destruct (asks_ok _ _ _ _ IH A) as (v & Hv & _ & G); apply G; exact (has_fun _ _ _ _ Hv Hk).
  - destruct A as [A|A]; destruct (asks_ok _ _ _ _ IH A) as (v & Hv & _ & G).
    + destruct (G a (has_fun _ _ _ _ Hv Hk) _ I) as (x & E & X). injection E as <-. exact X.
    + destruct (G a (has_fun _ _ _ _ Hv Hk) _ I) as [E|(x & E & X)]; [discriminate E|]. injection E as <-. exact X.
  - destruct (asks_ok _ _ _ _ IH A) as (v & Hv & _ & G). destruct (G _ (has_fun _ _ _ _ Hv Hk)) as [ps Hps].
    destruct (params_mid _ _ _ _ _ Hps eq_refl) as [X|(-> & T & _)]; [exact X|]. destruct (N eq_refl T).
  - destruct (asks_ok _ _ _ _ IH A) as (v & Hv & _ & G). destruct (G _ (has_fun _ _ _ _ Hv Hk)) as [ps Hps].
    destruct (params_mid _ _ _ _ _ Hps eq_refl) as [X|(_ & T & X)]; cbn; auto.
Qed.
