(** What the conversion returns: trees ESTree can express, without locations. *)
From Coq Require Import String Ascii List NArith ZArith Bool Lia.
From Verif Require Import Base F64 Word Token Punc Ast Track Node SpecTree Cover CoverProofs NodeProofs
  LexTheorems PropTree Unjson Estree SpecEstree EstreeProofs EstreeConv EstreeComp.
Import ListNotations.
Local Open Scope nat_scope.
Local Arguments lit _ : simpl never.

(** ** ESTree's own encodings are encodings *)
Lemma key_mono o k : est_key true o k -> est_key false o k.
Proof. intros []; econstructor; eauto; intros X; discriminate X. Qed.
Lemma key_at_mono o k : est_key_at true o k -> est_key_at false o k.
Proof. intros []; econstructor; eauto using key_mono. Qed.

Theorem est_mono o n : est true o n -> est false o n.
Proof.
  apply (est_mind true (est false) (est_at false) (est_opt false) (est_list false) (est_holes false)
    (est_elems false)); clear o n; intros;
  repeat match goal with H : est_key_at true _ _ |- _ => apply key_at_mono in H end;
  try solve [econstructor; first [eassumption | reflexivity | (intros X; discriminate X)]].
Qed.

(** ** Trees ESTree can express *)
Lemma expressible_iff n : expressible n <-> expressible_at n /\ Forall expressible (children n).
Proof.
  split.
  - intros H. split; [apply H; constructor|]. apply Forall_forall. intros c Hc m Hm. apply H.
    clear H. induction Hm as [|m c' Hm IH Hc']; [eapply wi_step; [constructor|exact Hc]|].
    eapply wi_step; [exact IH|exact Hc'].
  - intros [H1 H2] m Hm.
    assert (X : m = n \/ exists c, In c (children n) /\ within c m).
    { induction Hm as [|m c Hm [->|(d & Hd & IH)] Hc]; [now left|right..].
      - exists c. split; [exact Hc|constructor].
      - exists d. split; [exact Hd|]. eapply wi_step; [exact IH|exact Hc]. }
    destruct X as [->|(c & Hc & X)]; [exact H1|]. rewrite Forall_forall in H2. exact (H2 c Hc m X).
Qed.
Lemma expressible_intro n : expressible_at n -> Forall expressible (children n) -> expressible n.
Proof. intros. now apply expressible_iff. Qed.

Lemma Forall_list {A} (f : A -> node) l : Forall expressible (of_list f l) <-> Forall (fun a => expressible (f a)) l.
Proof. unfold of_list. rewrite Forall_map. reflexivity. Qed.
Lemma Forall_opt {A} (f : A -> node) l : Forall expressible (of_opt f l) <-> (forall a, l = Some a -> expressible (f a)).
Proof.
  destruct l as [a|]; cbn; split; intros H.
  - intros b X. injection X as <-. now inversion H.
  - constructor; [now apply H|constructor].
  - intros b X; discriminate.
  - constructor.
Qed.
Lemma Forall_holes {A} (f : A -> node) l :
  Forall expressible (of_holes f l) <-> (forall a, In (Some a) l -> expressible (f a)).
Proof.
  unfold of_holes. rewrite Forall_flat_map, Forall_forall. split.
  - intros H a Ha. apply H in Ha. exact (proj1 (Forall_opt f (Some a)) Ha a eq_refl).
  - intros H x Hx. apply Forall_opt. intros a ->. auto.
Qed.

Ltac at_ := unfold expressible_at; cbn; repeat split; try congruence; try (intros; congruence); auto.
Ltac leaf := apply expressible_intro; [at_|constructor].

Lemma expressible_target t : expressible (N_expr (target_expr t)) -> expressible (N_target t).
Proof.
  intros H. apply expressible_iff in H as [H1 H2]. apply expressible_intro.
  - destruct t; destruct H1 as (L & _); cbn in L; at_.
  - destruct t; exact H2.
Qed.
Definition pattern_claim (n : node) : Prop :=
  match n with
  | N_tpatt p => expressible (N_expr (patt_expr p)) -> rests_unlocated p -> expressible n
  | N_trest r => expressible (N_expr (patt_expr (rp_patt r))) -> rp_loc r = None -> rests_unlocated (rp_patt r) ->
      expressible n
  | N_tpp (PP_Regular l k q) => l = None -> expressible (N_pk k) -> expressible (N_expr (patt_expr q)) ->
      rests_unlocated q -> expressible n
  | N_tpp (PP_Shorthand i) => expressible (N_id i) -> expressible n
  | _ => True
  end.
Lemma expressible_patterns n : pattern_claim n.
Proof.
  induction n as [n IH] using node_ind'. destruct n; try exact Logic.I; cbn [pattern_claim].
  - intros H U. destruct p as [t|[l es r|l ps]].
    + apply expressible_target in H. apply expressible_iff in H as H'. destruct H' as [(L & _) _].
      apply expressible_intro; [|constructor; [exact H|constructor]]. cbn in L. at_.
    + apply expressible_iff in H as [(L & _) H]. cbn in L. apply expressible_intro; [at_|].
      change (Forall expressible (of_holes N_eli
        (map (option_map (fun p => L_Expr (patt_expr p))) es ++
         match r with Some r => [Some (L_Spread (rp_loc r) (patt_expr (rp_patt r)))] | None => [] end))) in H.
      rewrite Forall_holes in H. inversion U as [|l' es' r' U1 U2|]; subst. cbn [children patt_children].
      apply Forall_app. split.
      * apply Forall_holes. intros p Hp.
        assert (X : pattern_claim (N_tpatt p)).
        { apply IH. cbn. apply in_or_app. left. unfold of_holes. apply in_flat_map. exists (Some p). cbn. auto. }
        apply X; [|now apply U1].
        assert (Y : expressible (N_eli (L_Expr (patt_expr p)))).
        { apply H. apply in_or_app. left. apply in_map_iff. now exists (Some p). }
        apply expressible_iff in Y as [_ Y]. cbn in Y. now inversion Y.
      * apply Forall_opt. intros x ->. destruct (U2 x eq_refl) as [Lx Ux].
        assert (X : pattern_claim (N_trest x)).
        { apply IH. cbn. apply in_or_app. right. now left. }
        apply X; auto.
        assert (Y : expressible (N_eli (L_Spread (rp_loc x) (patt_expr (rp_patt x))))).
        { apply H. apply in_or_app. right. now left. }
        apply expressible_iff in Y as [_ Y]. cbn in Y. now inversion Y.
    + apply expressible_iff in H as [(L & _) H]. cbn in L. apply expressible_intro; [at_|].
      cbn in H. cbn [children patt_children]. apply Forall_forall. intros c Hc.
      unfold of_list in Hc. apply in_map_iff in Hc as (q & <- & Hq).
      assert (X : pattern_claim (N_tpp q)) by (apply IH; cbn; apply in_map; exact Hq).
      rewrite Forall_forall in H. inversion U as [| |l' ps' U1]; subst.
      destruct q as [l' k q|i]; cbn [pattern_claim] in X.
      * assert (Y : expressible (N_prop (Pr_Regular l' k (PV_Init (patt_expr q))))).
        { apply H. unfold of_list. apply in_map_iff. eexists. split; [reflexivity|].
          apply in_map_iff. exists (PP_Regular l' k q). now split. }
        apply expressible_iff in Y as [(L' & _) Y]. cbn in L', Y. inversion Y as [|? ? Y1 Y2]; subst.
        inversion Y2 as [|? ? Y3 _]; subst. apply expressible_iff in Y3 as [_ Y3]. cbn in Y3. inversion Y3; subst.
        apply X; auto. eapply U1; exact Hq.
      * assert (Y : expressible (N_prop (Pr_Shorthand i))).
        { apply H. unfold of_list. apply in_map_iff. eexists. split; [reflexivity|].
          apply in_map_iff. exists (PP_Shorthand i). now split. }
        apply expressible_iff in Y as [_ Y]. cbn in Y. inversion Y; subst. auto.
  - intros H L U. apply expressible_intro; [at_|]. constructor; [|constructor].
    assert (X : pattern_claim (N_tpatt (rp_patt r))) by (apply IH; now left). now apply X.
  - destruct p as [l k q|i].
    + intros -> Hk H U. apply expressible_intro; [at_|]. constructor; [exact Hk|].
      constructor; [|constructor].
      assert (X : pattern_claim (N_tpatt q)) by (apply IH; cbn; auto). now apply X.
    + intros H. apply expressible_iff in H as H'. destruct H' as [(L & _) _]. cbn in L.
      apply expressible_intro; [at_|]. constructor; [exact H|constructor].
Qed.
Lemma expressible_patt p : expressible (N_expr (patt_expr p)) -> rests_unlocated p -> expressible (N_tpatt p).
Proof. exact (expressible_patterns (N_tpatt p)). Qed.

(** ** Leaves *)
Lemma machine_field o k v : machine o -> has o k v -> forall w, inside v w -> holds_machine_integer w.
Proof.
  intros M (a & b & -> & _) w Hw. apply M. eapply In_object; [|exact Hw]. apply in_or_app. right. now left.
Qed.
Lemma machine_inside o k x : machine o -> has o k (J_Object x) -> machine x.
Proof. intros M H v Hv. exact (machine_field _ _ _ M H _ Hv). Qed.

Lemma ex_id o i : est_id o i -> expressible (N_id i).
Proof. intros []. leaf. now rewrite name_string_from. Qed.
Lemma ex_id_at o k i : est_id_at o k i -> expressible (N_id i).
Proof. intros []. eauto using ex_id. Qed.
Lemma ex_id_opt o k i : est_id_opt o k i -> Forall expressible (of_opt N_id i).
Proof. intros []; cbn; constructor; eauto using ex_id_at. Qed.
Lemma ex_value o e : machine o -> est_value o e -> expressible (N_expr e).
Proof.
  intros M []; leaf.
  - right. exists z. split; [|reflexivity].
    assert (X := machine_field _ _ _ M H _ (In_self _)). cbn in X. unfold machine_integer. lia.
  - right. exists (Z.of_N n). split; [|reflexivity].
    assert (X := machine_field _ _ _ M H _ (In_self _)). cbn in X. unfold machine_integer. lia.
  - now left.
Qed.
Lemma ex_key std o k : machine o -> est_key std o k -> expressible (N_pk k).
Proof.
  intros M [].
  - leaf.
  - apply (ex_value _ _ M) in H3. apply expressible_iff in H3 as [(_ & _ & X) _]. leaf.
  - apply (ex_value _ _ M) in H3. apply expressible_iff in H3 as [(_ & _ & X) _]. leaf.
Qed.
Lemma ex_key_at std o k : machine o -> est_key_at std o k -> expressible (N_pk k).
Proof. intros M []. eapply ex_key; [|eassumption]. now apply (machine_inside o "key"). Qed.
Lemma ex_simple i : expressible (N_id i) -> expressible (N_ipatt (Simple i)).
Proof.
  intros H. apply expressible_iff in H as H'. destruct H' as [(L & _) _]. cbn in L.
  apply expressible_intro; [at_|]. constructor; [exact H|constructor].
Qed.
Lemma ex_params js ps : est_params js ps -> expressible (N_params ps).
Proof.
  assert (X : forall js ps, Forall2 est_param js ps -> Forall (fun p => expressible (N_ipatt p)) ps).
  { intros a b F. induction F as [|? ? ? ? [] ]; constructor; auto. apply ex_simple. eauto using ex_id. }
  intros []; apply expressible_intro; try (at_; fail); cbn; apply Forall_app; split;
    try (apply Forall_list; eauto; fail); constructor; [|constructor].
  apply expressible_intro; [at_|]. constructor; [|constructor]. apply ex_simple. eauto using ex_id_at.
Qed.

(** ** Every node *)
Definition okn (n : node) : Prop :=
  match n with
  | N_fexpr f => fn_loc f = None /\ expressible (N_params (fn_params f)) /\ expressible (N_body (fn_body f))
  | _ => expressible n
  end.
Definition Qn (o : object) (n : node) : Prop := machine o -> okn n.
Definition Qat (o : object) (k : string) (n : node) : Prop := machine o -> okn n.
Definition Qopt (o : object) (k : string) (x : option node) : Prop := machine o -> forall n, x = Some n -> okn n.
Definition Qholes (o : object) (k : string) (ns : list (option node)) : Prop :=
  machine o -> forall n, In (Some n) ns -> okn n.
Definition Qlist (o : object) (k : string) (ns : list node) : Prop := machine o -> forall n, In n ns -> okn n.
Definition Qelems (js : list json) (ns : list (option node)) : Prop :=
  (forall j v, In j js -> inside j v -> holds_machine_integer v) -> forall n, In (Some n) ns -> okn n.

Lemma ok_list {A} (N : A -> node) l : (forall a, okn (N a) = expressible (N a)) ->
  (forall n, In n (map N l) -> okn n) -> Forall expressible (of_list N l).
Proof.
  intros E H. apply Forall_list, Forall_forall. intros a Ha. rewrite <- E. apply H. now apply in_map.
Qed.
Lemma ok_opt {A} (N : A -> node) l : (forall a, okn (N a) = expressible (N a)) ->
  (forall n, option_map N l = Some n -> okn n) -> Forall expressible (of_opt N l).
Proof. intros E H. apply Forall_opt. intros a ->. rewrite <- E. now apply H. Qed.
Lemma ok_holes {A} (N : A -> node) l : (forall a, okn (N a) = expressible (N a)) ->
  (forall n, In (Some n) (map (option_map N) l) -> okn n) -> Forall expressible (of_holes N l).
Proof.
  intros E H. apply Forall_holes. intros a Ha. rewrite <- E. apply H.
  apply in_map_iff. now exists (Some a).
Qed.

Ltac kids := repeat match goal with
  | |- Forall expressible (_ ++ _) => apply Forall_app; split
  | |- Forall expressible (_ :: _) => constructor
  | |- Forall expressible [] => constructor
  | |- Forall expressible (of_list _ _) => apply ok_list; [reflexivity|]
  | |- Forall expressible (of_opt N_id _) => eapply ex_id_opt; eassumption
  | |- Forall expressible (of_opt _ _) => apply ok_opt; [reflexivity|]
  | |- Forall expressible (of_holes _ _) => apply ok_holes; [reflexivity|]
  end.
Ltac fin := first [ assumption | leaf; fail
  | eapply ex_id; eassumption | eapply ex_id_at; eassumption
  | eapply ex_key_at; eassumption | apply ex_simple; eapply ex_id_at; eassumption
  | apply expressible_target; assumption | apply expressible_patt; assumption ].
Ltac use H m := let X := fresh "X" in pose proof (H m) as X; clear H.
Ltac qstart := intros; intro; subst;
  repeat match goal with m : machine ?o, H : Qn ?o _ |- _ => use H m | m : machine ?o, H : Qat ?o _ _ |- _ => use H m
  | m : machine ?o, H : Qopt ?o _ _ |- _ => use H m | m : machine ?o, H : Qlist ?o _ _ |- _ => use H m
  | m : machine ?o, H : Qholes ?o _ _ |- _ => use H m end.
Ltac q := qstart; cbn [okn] in *; apply expressible_intro; [at_|cbn; kids; fin].

Lemma ex_loc n : expressible n -> node_loc n = None.
Proof. intros H. now apply expressible_iff in H as [[H _] _]. Qed.
(** A node that adds nothing to its only child. *)
Ltac wrap H := let L := fresh "L" in assert (L := ex_loc _ H); cbn in L;
  apply expressible_intro; [at_|cbn; kids; assumption].
Lemma ex_consts ds cs : Forall2 const_of ds cs -> Forall expressible (of_list N_dtor ds) ->
  Forall expressible (of_list N_cdtor cs).
Proof.
  induction 1 as [|d c ds cs [i e] F IH]; cbn; intros X; [constructor|]. inversion X as [|? ? X1 X2]; subst.
  constructor; [|now apply IH]. apply expressible_iff in X1 as [_ X1]. cbn in X1.
  inversion X1 as [|? ? Y1 Y2]; subst. inversion Y2; subst.
  apply expressible_intro; [at_|]. cbn. kids; auto. now apply ex_simple.
Qed.
Lemma ex_pk k v : expressible (N_pk k) -> expressible (N_pval v) ->
  expressible (N_prop (Pr_Regular None k v)).
Proof. intros H1 H2. apply expressible_intro; [at_|]. cbn. kids; assumption. Qed.

Theorem image std o n : est std o n -> Qn o n.
Proof.
  apply (est_mind std Qn Qat Qopt Qlist Qholes Qelems); clear o n; try solve [q].
  - intros o i Hi M. apply ex_id in Hi. wrap Hi.
  - intros o e T H M. exact (ex_value _ _ M H).
  - intros o i f T Hi E He Hf M. destruct (Hf M) as (L & X1 & X2). cbn.
    assert (X : expressible (N_fexpr f)).
    { apply expressible_intro; [at_|]. cbn. unfold func_children. rewrite E. kids; auto. }
    wrap X.
  - intros o e He H M. specialize (H M). cbn in *. wrap H.
  - intros o k e _ _ _ _ _ Hk He H M. specialize (H M). cbn in *. apply ex_pk; [now apply (ex_key_at std o)|].
    wrap H.
  - intros o i v _ _ _ _ _ Hi _ _ M. apply ex_id_at in Hi. cbn. wrap Hi.
  - intros o k v f ps b g _ _ _ _ _ Hk Lv _ -> He Hf M. destruct (Hf (machine_inside _ _ _ M Lv)) as (L & X1 & X2).
    cbn in *. apply (ex_key_at std o k M) in Hk.
    assert (X : expressible (N_fmeth (Fun None k ps b g))).
    { apply expressible_intro; [at_|]. cbn. kids; auto. }
    wrap X.
  - intros o k v bo b _ _ _ _ Hk Lv _ Lb _ He Hb M.
    specialize (Hb (machine_inside _ _ _ (machine_inside _ _ _ M Lv) Lb)). cbn in *.
    apply ex_pk; [now apply (ex_key_at std o)|]. apply expressible_intro; [at_|]. cbn. kids; auto.
  - intros o k v f p rest b g _ _ _ _ Hk Lv _ -> He Hf M. destruct (Hf (machine_inside _ _ _ M Lv)) as (L & X1 & X2).
    cbn in *. apply ex_pk; [now apply (ex_key_at std o)|].
    apply expressible_intro; [at_|]. cbn. kids; auto.
    apply expressible_iff in X1 as [_ X1]. cbn in X1. now inversion X1.
  - intros o i ps b g v js bo _ _ _ _ Hp Lb _ _ Hb M. cbn. split; [reflexivity|]. split; [eapply ex_params; eassumption|].
    exact (Hb (machine_inside _ _ _ M Lb)).
  - intros o l ds is _ Hl [front items ds' -> F N] M. specialize (Hl M). cbn.
    assert (X : Forall expressible (of_list N_item (front ++ items))) by now apply ok_list.
    unfold of_list in X. rewrite map_app in X. apply Forall_app in X as [X1 X2].
    apply expressible_intro; [at_|].
    cbn. apply Forall_app. split; [|exact X2]. clear - F X1.
      induction F as [|d i ds front (l & ->) F IH]; cbn in *; [constructor|].
      inversion X1 as [|? ? Y1 Y2]; subst. constructor; [|now apply IH].
      apply expressible_iff in Y1 as [_ Y1]. inversion Y1 as [|? ? Y3 _]; subst.
      apply expressible_iff in Y3 as [(L & S & _) Y3]. cbn in L, S, Y3.
      inversion Y3 as [|? ? Y4 _]; subst. apply expressible_iff in Y4 as [(_ & _ & T) _]. cbn in T.
      apply expressible_intro; [|constructor]. unfold expressible_at. cbn. repeat split; auto.
  - intros o b _ H M. specialize (H M). cbn in *. wrap H.
  - intros o ds cs _ _ _ H F M. specialize (H M). cbn in *. apply expressible_intro; [at_|]. cbn.
    apply (ex_consts _ _ F). now apply ok_list.
  - intros o d i e _ _ _ H -> M. specialize (H M). cbn in *.
    assert (X : expressible (N_dtor (Dt_Simple None i (Some e)))) by exact (H _ (or_introl eq_refl)).
    apply expressible_iff in X as [_ X]. cbn in X. inversion X as [|? ? Y1 Y2]; subst. inversion Y2; subst.
    apply expressible_intro; [at_|]. cbn. kids; auto.
  - intros o k d i h _ _ _ H -> Hk M. specialize (H M). cbn in *.
    assert (X : expressible (N_dtor (Dt_Simple None i None))) by exact (H _ (or_introl eq_refl)).
    apply expressible_iff in X as [_ X]. cbn in X. inversion X as [|? ? Y1 Y2]; subst. apply ex_simple in Y1.
    destruct Hk as [E|[E|[E|[]]]]; injection E as <- <-; apply expressible_intro; try (at_; fail); cbn; kids; auto.
  - intros o e p _ H -> U _ M. specialize (H M). cbn in *. apply expressible_patt in H; [|exact U]. wrap H.
  - intros o k dob i h _ _ _ _ Hi Hk M. apply ex_id_at, ex_simple in Hi.
    destruct Hk as [E|[E|[E|[]]]]; injection E as <- <-; apply expressible_intro; try (at_; fail); cbn; kids; auto.
  - intros o e p _ H -> U _ M. specialize (H M). cbn in *. apply expressible_patt in H; [|exact U]. wrap H.
  - intros o f ps b g i _ Hi -> _ Hf M. destruct (Hf M) as (L & X1 & X2). cbn in *. apply ex_id_at in Hi.
    assert (X : expressible (N_fdecl (Fun None i ps b g))).
    { apply expressible_intro; [at_|]. cbn. kids; auto. }
    wrap X.
  - intros o ds cs _ _ _ H F M. specialize (H M). cbn in *. apply expressible_intro; [at_|]. cbn.
    apply (ex_consts _ _ F). now apply ok_list.
  - intros o s _ H M. specialize (H M). cbn in *. wrap H.
  - intros o d _ H M. specialize (H M). cbn in *. wrap H.
  - intros o k x n L _ H M. apply H. exact (machine_inside _ _ _ M L).
  - intros o k _ M n E. discriminate E.
  - intros o k n _ H M m E. injection E as <-. now apply H.
  - intros o k js ns L _ H M n Hn. apply H; [|now apply in_map].
    intros j v Hj Hv. apply (machine_field _ _ _ M L). now apply (In_array _ j).
  - intros o k js ns L _ H M n Hn. apply H; [|exact Hn].
    intros j v Hj Hv. apply (machine_field _ _ _ M L). now apply (In_array _ j).
  - intros _ n [].
  - intros o n js ns _ H _ IH M m [E|Hm].
    + injection E as <-. apply H. intros v Hv. apply (M (J_Object o)); [now left|exact Hv].
    + apply IH; [|exact Hm]. intros j v Hj. apply M. now right.
  - intros js ns _ IH M m [E|Hm]; [discriminate|]. apply IH; [|exact Hm]. intros j v Hj. apply M. now right.
Qed.
