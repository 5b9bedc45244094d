(** The entry points: fuel suffices, and their trees are derivations. *)
From Coq Require Import String Ascii List NArith Arith Bool Lia.
From Verif Require Import Base Chars F64 Word Token Reader Lexer Punc Ast Track Cover Stack PState Parser Api Wp
  SpecReader ReaderProofs SpecLexer SpecClient LexWp LexLit LexerProofs LexTheorems SpecStack StackProofs
  SpecTree CoverProofs SpecGrammar SpecParser ParserWp ParserK ParserOps ParserExpr ParserStmt.
Import ListNotations.
Local Open Scope nat_scope.

Section Top.
Context (V : env) (src : str).
Context (HV : ucd_ok V).
Notation L := (length src).
Notation At := (At V src).
Notation wpP := (wpP V src).
Notation step := (step V src).
Notation cur := (cur V src).
Notation post1 := (post1 V src).
Notation post0 := (post0 V src).

(** ** Fuel *)

Lemma rec_step a b R : rec_ok V src a b R -> rec_ok V src (S b) a
  (Recs (assignment_expression V R) (stmt_list_item V R) (S (r_fuel R))).
Proof.
  intros HR. destruct (rk_le _ _ _ _ _ HR) as [H1 H2]. pose proof (rk_fuel _ _ _ _ _ HR). constructor.
  - lia.
  - cbn. lia.
  - intros g h s HA Hg Hb. cbn. eapply assignment_ok; [exact HV|exact HR|exact HA|exact Hg|lia].
  - intros g d h s HA Hg Hb. cbn. eapply stmt_list_item_ok; [exact HV|exact HR|exact HA|exact Hg|exact Hb].
Qed.
Lemma recs_ok k : exists a b, rec_ok V src a b (parse_rec V (2 + k)) /\ a + b = k.
Proof.
  induction k as [|k (a & b & HR & Hk)].
  - exists 0, 0. split; [|reflexivity]. constructor.
    + lia.
    + cbn. lia.
    + intros g h s HA _ Hb. pose proof (At_W _ _ _ _ HA). lia.
    + intros g d h s HA _ Hb. pose proof (At_W _ _ _ _ HA). lia.
  - exists (S b), a. split; [|lia].
    change (parse_rec V (2 + S k)) with
      (Recs (assignment_expression V (parse_rec V (2 + k))) (stmt_list_item V (parse_rec V (2 + k))) (2 + k)).
    assert (E : 2 + k = S (r_fuel (parse_rec V (2 + k)))) by reflexivity.
    rewrite E at 3. apply rec_step, HR.
Qed.
Lemma top_recs : exists a b, rec_ok V src a b (parse_rec V (fuel_for src)) /\ L < b.
Proof.
  unfold fuel_for. replace (2 * L + 10) with (2 + (2 * L + 8)) by lia.
  destruct (recs_ok (2 * L + 8)) as (a & b & HR & E). exists a, b. split; [exact HR|].
  destruct (rk_le _ _ _ _ _ HR). lia.
Qed.

(** ** Entry points *)

Definition start (gl : goal) (st : tri) : pst :=
  set_context (set_strict st context_new) (set_goal gl (parser_new src)).
Lemma start_At gl st : At [] (start gl st).
Proof.
  split; [|cbn; lia]. exists [], 0. split; [apply tl_nil|]. split; [|reflexivity].
  cbn. apply rd_at_new.
Qed.
Lemma start_place gl st : at_place (top (mode_of (start gl st))) (start gl st).
Proof. repeat (split; [reflexivity|]). intros n v H. discriminate H. Qed.

Lemma assert_goal {A} (k : unit -> P A) (Q : A -> pst -> Prop) X K :
  wp (k tt) (parser_new src) Q X K -> wp (bind assert_goal_unknown k) (parser_new src) Q X K.
Proof. intros H. exact H. Qed.

(** What a finished entry point leaves behind. *)
Definition session (R : rel) : Prop :=
  exists ts rest k, reads V src (ts ++ rest) k /\ k <= L /\ R (ts ++ rest) rest.
Lemma step_session gl st h s R : step [] (start gl st) h s R -> session R.
Proof.
  intros (((ops & k & Ht & (Hk & _) & _) & _) & _ & _ & ts & -> & H). cbn in Ht.
  exists ts, (ahead s), k. split; [exists ops; exact Ht|]. split; [exact Hk|]. apply (H _ (pre_refl _)).
Qed.

Lemma script_run strict :
  wpP (script_ V (parse_rec V (fuel_for src)) strict) (parser_new src)
      (post0 [] (start G_Script (tri_of_bool strict))
             (fun x i o => G (top (if strict then Strict else Sloppy)) Script i o x)).
Proof.
  destruct top_recs as (a & b & HR & Hb). unfold script_. apply assert_goal.
  apply (wpP_modify V src (set_goal G_Script)).
  apply (wpP_modify V src (fun s0 => set_context (set_strict (tri_of_bool strict) (p_context s0)) s0)).
  change (set_context _ _) with (start G_Script (tri_of_bool strict)).
  eapply script_body_ok; [exact HV|exact HR|apply start_At| |cbn; exact Hb].
  replace (if strict then Strict else Sloppy) with (mode_of (start G_Script (tri_of_bool strict)));
    [apply start_place|destruct strict; reflexivity].
Qed.

(** ** Modules and programs *)

Definition Kt (m : mode) (k : panic) : Prop :=
  lexer_panics V src k \/ (k = P_unimplemented /\ meets_port V src m).

Lemma wpT_of m {A} (p : P A) s Q : wpP p s Q -> wp p s Q anyP (Kt m).
Proof. intros H. eapply wp_mono; [exact H|auto|auto|]. intros k Hk. left. exact Hk. Qed.

Lemma wp_loop_n {A B} K (body : A -> P (A + B)) (I : nat -> A -> pst -> Prop) (Q : B -> pst -> Prop) :
  (forall n a s, I n a s ->
     wp (body a) s (fun x s' => match x with
                                 | inl a' => exists n', n' < n /\ I n' a' s'
                                 | inr b => Q b s'
                                 end) anyP K) ->
  forall fuel n a s, I n a s -> n < fuel -> wp (loopM fuel body a) s Q anyP K.
Proof.
  intros Hb. induction fuel as [|fuel IH]; intros n a s HI Hn; [lia|].
  cbn [loopM]. apply wp_bind. eapply wp_conseq; [exact (Hb n a s HI)|].
  intros [a'|b] s'; cbn beta iota.
  - intros (n' & Hlt & HI'). apply (IH n'); [exact HI'|lia].
  - intros HQ. apply wp_ret, HQ.
Qed.

Lemma item_seq_snoc g is it i m o : item_seq g is i m -> G g (Item true) m o it -> item_seq g (is ++ [it]) i o.
Proof.
  revert i. induction is as [|x is IH]; intros i H1 H2; cbn in *.
  - subst. exists o. auto.
  - destruct H1 as (j & Hx & H1). exists j. auto.
Qed.

(** The items of a module or program. *)
Section Items.
Context (m : mode) (ds : list dir) (s0 : pst).
Context (Hs0 : exists gl st, s0 = start gl st) (Hg0 : at_place (top m) s0).
Context (a b : nat) (R : recs) (HR : rec_ok V src a b R) (Hb : L < b).

Lemma port_panics h s is : cur [] s0 h s (fun i o => top_level m ds is i o /\ next is_port o) ->
  Kt m P_unimplemented.
Proof.
  intros [S _]. right. split; [reflexivity|]. destruct Hs0 as (gl & st & E). rewrite E in S.
  apply step_session in S as (ts & rest & k & Hr & _ & H1 & H2). exists ts, rest, k, ds, is. auto.
Qed.

Lemma more_module_items_ok is0 h s : cur [] s0 h s (top_level m ds is0) ->
  wp (more_module_items V R (map MI_Item is0)) s
     (fun l s' => exists h' is, l = map MI_Item is
        /\ cur [] s0 h' s' (fun i o => top_level m ds is i o /\ next at_eof o))
     anyP (Kt m).
Proof.
  intros C. unfold more_module_items.
  eapply wp_loop_n with (n := L - W h) (I := fun n l s => exists h' is, l = map MI_Item is
     /\ cur [] s0 h' s (top_level m ds is) /\ n = L - W h').
  2:{ exists h, is0. auto. }
  2:{ pose proof (rk_fuel _ _ _ _ _ HR). lia. }
  intros n l s1 (h1 & is & -> & C1 & ->). apply wp_bind.
  eapply wp_conseq; [apply wpT_of, p_peek_ok; [exact HV|exact (cur_At _ _ _ _ _ _ _ C1)]|].
  intros t s2 (S2 & Hs & (r & Ha) & Hl).
  assert (C2 : cur [] s0 h1 s2 (seq (top_level m ds is) (look (starts t)))).
  { eapply cur_seq; [exact C1|]. split; [exact S2|apply same_sub, Hs]. }
  assert (Hnext : forall (P : token -> Prop), P t ->
            cur [] s0 h1 s2 (fun i o => top_level m ds is i o /\ next P o)).
  { intros P HP. eapply cur_weaken; [exact C2|]. intros i o (j & Hj & -> & r' & ->).
    split; [exact Hj|]. exists t, r'. auto. }
  destruct (is_t t (TPunc T_EOF)) eqn:E1.
  { apply is_t_true in E1; [|exact I]. apply wp_ret. exists h1, is. split; [reflexivity|]. apply Hnext, E1. }
  destruct (is_t t (TReserved R_Import) || is_t t (TReserved R_Export)) eqn:E2.
  { apply wp_panic. eapply (port_panics h1 s2 is). apply Hnext.
    apply orb_true_iff in E2 as [E2|E2]; apply is_t_true in E2; try exact I; [left|right]; exact E2. }
  apply wp_bind. eapply wp_conseq; [apply wpT_of|].
  - apply (rk_item _ _ _ _ _ HR (top m) true h1 s2); [exact (cur_At _ _ _ _ _ _ _ C2)| |lia].
    eapply cur_place; [exact Hg0|exact C2].
  - intros it s3 (h3 & S3 & Hw & Hsub). apply wp_ret. cbn beta iota.
    assert (W h3 <= L) by apply S3. exists (L - W h3). split; [lia|].
    exists h3, (is ++ [it]). split; [rewrite map_app; reflexivity|]. split; [|reflexivity].
    eapply cur_weaken; [eapply cur_seq; [exact C2|split; [exact S3|exact Hsub]]|].
    intros i o (j & (j1 & (j2 & Hd & Hn & Hi) & -> & _) & Hit). exists j2. split; [exact Hd|]. split; [exact Hn|].
    eapply item_seq_snoc; [exact Hi|]. apply itemR_item, Hit.
Qed.

Lemma program_items_ok h s : cur [] s0 h s (top_level m ds []) ->
  wp (program_items_ V R) s
     (fun x s' => exists h' is, x = PI_Script is
        /\ cur [] s0 h' s' (fun i o => top_level m ds is i o /\ next at_eof o))
     anyP (Kt m).
Proof.
  intros C. unfold program_items_.
  eapply wp_loop_n with (n := L - W h) (I := fun n l s => exists h',
     cur [] s0 h' s (top_level m ds l) /\ n = L - W h').
  2:{ exists h. auto. }
  2:{ pose proof (rk_fuel _ _ _ _ _ HR). lia. }
  intros n is s1 (h1 & C1 & ->). apply wp_bind.
  eapply wp_conseq; [apply wpT_of, p_peek_ok; [exact HV|exact (cur_At _ _ _ _ _ _ _ C1)]|].
  intros t s2 (S2 & Hs & (r & Ha) & Hl).
  assert (C2 : cur [] s0 h1 s2 (seq (top_level m ds is) (look (starts t)))).
  { eapply cur_seq; [exact C1|]. split; [exact S2|apply same_sub, Hs]. }
  assert (Hnext : forall (P : token -> Prop), P t ->
            cur [] s0 h1 s2 (fun i o => top_level m ds is i o /\ next P o)).
  { intros P HP. eapply cur_weaken; [exact C2|]. intros i o (j & Hj & -> & r' & ->).
    split; [exact Hj|]. exists t, r'. auto. }
  destruct (is_t t (TPunc T_EOF)) eqn:E1.
  { apply is_t_true in E1; [|exact I]. apply wp_ret. exists h1, is. split; [reflexivity|]. apply Hnext, E1. }
  destruct (is_t t (TReserved R_Import) || is_t t (TReserved R_Export)) eqn:E2.
  { assert (Hport : is_port t).
    { apply orb_true_iff in E2 as [E3|E3]; apply is_t_true in E3; try exact I; [left|right]; exact E3. }
    assert (C3 := Hnext _ Hport). clear Hnext C1 C2.
    unfold force_deferred_module_validation, take_deferred. apply wp_bind, wp_bind, wp_bind, wp_gets, wp_bind, wp_modify.
    apply wp_ret. destruct (perform_all true (p_deferred s2)); [apply wp_err; exact I|]. apply wp_ret.
    apply wp_bind. unfold more_module_items.
    pose proof (rk_fuel _ _ _ _ _ HR) as Hf. destruct (r_fuel R) as [|fuel]; [lia|]. cbn [loopM].
    apply wp_bind, wp_bind.
    set (s3 := set_deferred [] s2).
    assert (HA3 : At h1 s3) by (eapply At_lexer; [exact (cur_At _ _ _ _ _ _ _ C3)|reflexivity]).
    eapply wp_conseq; [apply wpT_of, p_peek_ok; [exact HV|exact HA3]|].
    intros t4 s4 (S4 & Hs4 & (r4 & Ha4) & Hl4).
    assert (t4 = t).
    { destruct S4 as (_ & _ & _ & ts & E & H). assert (ts = []).
      { apply (f_equal (@length _)) in E. rewrite app_length in E. destruct ts; [reflexivity|cbn in E; lia]. }
      subst ts. destruct (H _ (pre_refl _)) as [(c & Ec) (_ & r' & Er)]. cbn in Ec, Er.
      change (ahead s3) with (ahead s2) in Ec. rewrite Ha in Ec. rewrite Er in Ec. cbn in Ec. congruence. }
    subst t4. rewrite E1, E2. apply wp_panic. eapply (port_panics h1 s2 is). exact C3. }
  apply wp_bind. eapply wp_conseq; [apply wpT_of|].
  - apply (rk_item _ _ _ _ _ HR (top m) true h1 s2); [exact (cur_At _ _ _ _ _ _ _ C2)| |lia].
    eapply cur_place; [exact Hg0|exact C2].
  - intros it s3 (h3 & S3 & Hw & Hsub). apply wp_ret. cbn beta iota.
    assert (W h3 <= L) by apply S3. exists (L - W h3). split; [lia|].
    exists h3. split; [|reflexivity].
    eapply cur_weaken; [eapply cur_seq; [exact C2|split; [exact S3|exact Hsub]]|].
    intros i o (j & (j1 & (j2 & Hd & Hn & Hi) & -> & _) & Hit). exists j2. split; [exact Hd|]. split; [exact Hn|].
    eapply item_seq_snoc; [exact Hi|]. apply itemR_item, Hit.
Qed.
End Items.

Lemma wp_span {A} (set : A -> loc -> A) (p : P A) s (Q : A -> pst -> Prop) X K :
  wp p s (fun v s' => forall l, Q (set v l) s') X K -> wp (p_span set p) s Q X K.
Proof.
  intros H. unfold p_span, p_posn. apply wp_bind, wp_gets, wp_bind. eapply wp_conseq; [exact H|].
  intros v s1 H1. apply wp_bind, wp_gets, wp_ret, H1.
Qed.

Lemma module_run :
  wp (module_ V (parse_rec V (fuel_for src))) (parser_new src)
     (fun x s' => exists l ds is, x = Body l ds (map MI_Item is)
        /\ session (fun i o => top_level Module_ ds is i o /\ next at_eof o))
     anyP (Kt Module_).
Proof.
  destruct top_recs as (a & b & HR & Hb). unfold module_. apply assert_goal. unfold set_module.
  apply wp_bind, wp_bind, wp_modify, wp_modify.
  change (set_context _ _) with (start G_Module Yes). apply wp_span, wp_bind.
  assert (Hg : at_place (top Module_) (start G_Module Yes)) by apply (start_place G_Module Yes).
  eapply wp_conseq; [apply wpT_of; eapply body_directives_ok; [exact HV|exact HR|apply start_At|exact Hg|cbn; lia]|].
  intros ds s1 (h1 & S1 & Hsub). apply wp_bind. unfold module_items.
  eapply wp_conseq; [eapply (more_module_items_ok Module_ ds (start G_Module Yes)) with (is0 := []) (h := h1);
    [eauto|exact Hg|exact HR|exact Hb|]|].
  - split; [|exact Hsub]. eapply step_weaken; [exact S1|]. intros i o [H1 H2]. exists o. split; [exact H1|].
    split; [exact H2|reflexivity].
  - intros l s2 (h2 & is & -> & [S2 _]). apply wp_ret. intros lc. exists lc, ds, is. split; [reflexivity|].
    eapply step_session, S2.
Qed.

Lemma program_run :
  wp (program_ V (parse_rec V (fuel_for src))) (parser_new src)
     (fun x s' => exists cs l ds is, x = Pg_Ambiguous cs (Body l ds is)
        /\ session (fun i o => top_level Sloppy ds is i o /\ next at_eof o))
     anyP (Kt Sloppy).
Proof.
  destruct top_recs as (a & b & HR & Hb). unfold program_. apply assert_goal.
  change (parser_new src) with (start G_Unknown Unknown). apply wp_span, wp_bind.
  assert (Hg : at_place (top Sloppy) (start G_Unknown Unknown)) by apply (start_place G_Unknown Unknown).
  eapply wp_conseq; [apply wpT_of; eapply body_directives_ok; [exact HV|exact HR|apply start_At|exact Hg|cbn; lia]|].
  intros ds s1 (h1 & S1 & Hsub). apply wp_bind.
  eapply wp_conseq; [eapply (program_items_ok Sloppy ds (start G_Unknown Unknown)) with (h := h1);
    [eauto|exact Hg|exact HR|exact Hb|]|].
  - split; [|exact Hsub]. eapply step_weaken; [exact S1|]. intros i o [H1 H2]. exists o. split; [exact H1|].
    split; [exact H2|reflexivity].
  - intros l s2 (h2 & is & -> & [S2 _]). unfold take_deferred. apply wp_bind, wp_bind, wp_gets, wp_bind, wp_modify.
    apply wp_ret, wp_ret. intros lc. eexists _, _, ds, is. split; [reflexivity|]. eapply step_session, S2.
Qed.
End Top.
