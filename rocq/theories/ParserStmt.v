(** The parser's methods for statements and declarations derive trees of the grammar. *)
From Coq Require Import String Ascii List NArith Arith Bool Lia.
From Verif Require Import Base Chars F64 Word Token Reader Lexer Punc Ast Track Cover Stack PState Parser Wp
  SpecReader ReaderProofs SpecLexer SpecClient LexWp LexLit LexerProofs LexTheorems SpecStack StackProofs
  SpecTree CoverProofs SpecGrammar ParserWp ParserK ParserOps ParserExpr.
Import ListNotations.
Local Open Scope nat_scope.

(** ** About trees and derivations *)

(** [None] for a labelled statement, otherwise whether it is a loop. *)
Definition stmt_kind (st : stmt) : option bool :=
  match st with S_Label _ _ _ => None | _ => Some (is_loop st) end.
Lemma kind_set_loc st l : stmt_kind (stmt_set_loc st l) = stmt_kind st.
Proof. destruct st as [| | | | | | | | | | | | | | | | | |]; try reflexivity. Qed.
Definition stR (g : place) (k : bool) (st : stmt) : rel := fun i o =>
  G g Statement i o st /\ stmt_kind st = Some k.
Lemma kind_head st k t r : stmt_kind st = Some k -> (loop_head t <-> k = true) -> head_fact (t :: r) st.
Proof.
  intros H Ht. destruct st; try discriminate; cbn in H |- *; injection H as <-; exists t, r; auto.
Qed.

Lemma pattern_inv g i o p : G g Pattern i o p -> exists x, p = Simple x /\ G g (Name_ true) i o x.
Proof.
  assert (K : forall A g (n : nt A) i o a, G g n i o a ->
    match n in nt A' return A' -> Prop with
    | Pattern => fun p => exists x, p = Simple x /\ G g (Name_ true) i o x
    | _ => fun _ => True
    end a).
  { intros A g0 n i0 o0 a K. destruct K; try exact I. eauto. }
  exact (K _ g Pattern i o p).
Qed.
Lemma name_inv g b i o x : G g (Name_ b) i o x ->
  exists t n, i = t :: o /\ tk_value t = TIdent n /\ x = Id (Some (tk_loc t)) n /\ name_ok (pl_mode g) b n.
Proof.
  assert (K : forall A g (n : nt A) i o a, G g n i o a ->
    match n in nt A' return A' -> Prop with
    | Name_ b => fun x => exists t n, i = t :: o /\ tk_value t = TIdent n /\ x = Id (Some (tk_loc t)) n
                                      /\ name_ok (pl_mode g) b n
    | _ => fun _ => True
    end a).
  { intros A g0 n i0 o0 a K. destruct K; try exact I. eauto 6. }
  exact (K _ g (Name_ b) i o x).
Qed.
Lemma name_mode g g' b i o x : pl_mode g = pl_mode g' -> G g (Name_ b) i o x -> G g' (Name_ b) i o x.
Proof.
  intros Hm H. apply name_inv in H as (t & n & -> & Ht & -> & Hn). apply g_name; [exact Ht|congruence].
Qed.

(** *** Labels *)

Lemma atom_eqb_iff a b : atom_eqb a b = true <-> a = b.
Proof. split; [|intros ->; destruct b; reflexivity]. destruct a, b; intros H; try reflexivity; discriminate H. Qed.
Lemma name_eqb_iff a b : name_eqb a b = true <-> a = b.
Proof.
  destruct a as [x|x], b as [y|y]; cbn; try (split; discriminate).
  - rewrite atom_eqb_iff. split; congruence.
  - rewrite str_eqb_iff. split; congruence.
Qed.

(** A sequence of labels, each with its colon. *)
Fixpoint labelsR (m : mode) (ls : list id) (i o : tokens) : Prop :=
  match ls with
  | [] => i = o
  | x :: ls' => exists t t2 i1 n, i = t :: t2 :: i1 /\ tk_value t = TIdent n /\ tk_value t2 = TPunc T_Colon
                  /\ x = Id (Some (tk_loc t)) n /\ name_ok m false n /\ labelsR m ls' i1 o
  end.
Lemma labelsR_app m l1 l2 i o : (exists j, labelsR m l1 i j /\ labelsR m l2 j o) -> labelsR m (l1 ++ l2) i o.
Proof.
  revert i. induction l1 as [|x l1 IH]; intros i (j & H1 & H2); cbn in *.
  - subst. exact H2.
  - destruct H1 as (t & t2 & i1 & n & -> & Ht & Ht2 & -> & Hn & H1). exists t, t2, i1, n.
    repeat (split; [first [reflexivity|assumption]|]). apply IH. eauto.
Qed.
Fixpoint nest (k : bool) (ls : list id) (g : place) : place :=
  match ls with [] => g | x :: ls' => nest k ls' (in_label (id_name x) k g) end.
Lemma let_weak i2 :
  (forall i', eat (TIdent (NAtom A_Let)) i2 i' -> next (fun t => ~ begins_binding t) i') ->
  forall i', eat (TIdent (NAtom A_Let)) i2 i' ->
    next (fun t => ~ begins_binding t /\ (false = true -> ~ slash t)) i'.
Proof.
  intros H i' He. destruct (H i' He) as (t & o & -> & Hb). exists t, o. split; [reflexivity|].
  split; [exact Hb|discriminate].
Qed.
Lemma wrap_cons x ls b : exists l, wrap_labels (x :: ls) b = S_Label l x (wrap_labels ls b).
Proof. unfold wrap_labels. cbn [rev]. rewrite fold_left_app. cbn. eexists. reflexivity. Qed.
Lemma wrap_loop ls b : is_loop (wrap_labels ls b) = is_loop b.
Proof.
  induction ls as [|x ls IH]; [reflexivity|]. destruct (wrap_cons x ls b) as (l & ->). exact IH.
Qed.
Lemma nest_mode k ls g : pl_mode (nest k ls g) = pl_mode g.
Proof. revert g. induction ls as [|x ls IH]; intros g; [reflexivity|]. cbn. rewrite IH. reflexivity. Qed.
Lemma nest_more k l1 l2 g : nest k (l1 ++ l2) g = nest k l2 (nest k l1 g).
Proof. revert g. induction l1 as [|x l1 IH]; intros g; [reflexivity|]. cbn. apply IH. Qed.
Lemma wrap_ok k ls body : forall g i m o, labelsR (pl_mode g) ls i m -> G (nest k ls g) Statement m o body ->
  is_loop body = k -> G g Statement i o (wrap_labels ls body).
Proof.
  induction ls as [|x ls IH]; intros g i m o Hl Hb Hk.
  - cbn in Hl, Hb. subst i. exact Hb.
  - cbn [labelsR] in Hl. destruct Hl as (t & t2 & i1 & n & -> & Ht & Ht2 & -> & Hn & Hl).
    destruct (wrap_cons (Id (Some (tk_loc t)) n) ls body) as (l & ->).
    eapply g_label; [apply g_name; eassumption|apply op_cons, Ht2|discriminate|].
    rewrite wrap_loop, Hk. eapply IH; [exact Hl|exact Hb|exact Hk].
Qed.

Definition label_place (g : place) (m : labels) : Prop :=
  forall n v, labels_get m n = Some v -> label_in (pl_labels g) n (label_loops v).
Lemma get_remove m n n' : labels_get (labels_remove m n) n' =
  if name_eqb n' n then None else labels_get m n'.
Proof.
  unfold labels_remove. induction m as [|[k v] m IH]; cbn; [destruct (name_eqb n' n); reflexivity|].
  destruct (name_eqb k n) eqn:E; cbn [negb filter fst].
  - rewrite IH. destruct (name_eqb n' n) eqn:E'; [reflexivity|].
    destruct (name_eqb k n') eqn:E2; [|reflexivity].
    apply name_eqb_iff in E, E2. exfalso. assert (name_eqb n' n = true) by (apply name_eqb_iff; congruence). congruence.
  - cbn [labels_get]. destruct (name_eqb k n') eqn:E2.
    + apply name_eqb_iff in E2. rewrite <- E2, E. reflexivity.
    + exact IH.
Qed.
Lemma get_insert m n v n' : labels_get (labels_insert m n v) n' =
  if name_eqb n n' then Some v else labels_get m n'.
Proof.
  unfold labels_insert. cbn [labels_get]. destruct (name_eqb n n') eqn:E; [reflexivity|]. rewrite get_remove.
  destruct (name_eqb n' n) eqn:E'; [|reflexivity].
  apply name_eqb_iff in E'. exfalso. assert (name_eqb n n' = true) by (apply name_eqb_iff; congruence). congruence.
Qed.
Lemma insert_place ls v : forall g m, label_place g m ->
  label_place (nest (label_loops v) ls g) (insert_labels ls v m).
Proof.
  induction ls as [|x ls IH]; intros g m H; [exact H|]. cbn [nest].
  change (insert_labels (x :: ls) v m) with (insert_labels ls v (labels_insert m (id_name x) v)).
  apply IH. intros n w. rewrite get_insert. destruct (name_eqb (id_name x) n) eqn:E.
  - intros Hw. injection Hw as <-. apply name_eqb_iff in E. subst n.
    exists [], (pl_labels g). split; [reflexivity|intros []].
  - intros Hw. destruct (H n w Hw) as (inner & outer & El & Hn). cbn [in_label pl_labels]. rewrite El.
    exists ((id_name x, label_loops v) :: inner), outer. split; [reflexivity|].
    cbn. intros [Hx|Hx]; [|contradiction]. subst n.
    rewrite (proj2 (name_eqb_iff _ _) eq_refl) in E. discriminate.
Qed.
Lemma get_remove_all ls : forall m n v, labels_get (remove_labels ls m) n = Some v ->
  labels_get m n = Some v /\ forall x, In x ls -> id_name x <> n.
Proof.
  induction ls as [|x ls IH]; intros m n v H; [split; [exact H|intros x []]|].
  change (remove_labels (x :: ls) m) with (remove_labels ls (labels_remove m (id_name x))) in H.
  apply IH in H as [H Hn]. rewrite get_remove in H. destruct (name_eqb n (id_name x)) eqn:E; [discriminate|].
  split; [exact H|]. intros y [<-|Hy]; [|apply Hn, Hy]. intros Hx. symmetry in Hx.
  apply name_eqb_iff in Hx. congruence.
Qed.
Lemma get_insert_all ls t : forall m n, (forall x, In x ls -> id_name x <> n) ->
  labels_get (insert_labels ls t m) n = labels_get m n.
Proof.
  induction ls as [|x ls IH]; intros m n H; [reflexivity|].
  change (insert_labels (x :: ls) t m) with (insert_labels ls t (labels_insert m (id_name x) t)).
  rewrite IH by (intros y Hy; apply H; right; exact Hy). rewrite get_insert.
  destruct (name_eqb (id_name x) n) eqn:E; [|reflexivity].
  apply name_eqb_iff in E. exfalso. apply (H x); [left; reflexivity|exact E].
Qed.

Section Stmt.
Context (V : env) (src : str).
Context (HV : ucd_ok V).
Notation L := (length src).
Notation At := (At V src).
Notation wpP := (wpP V src).
Notation readQ := (readQ V src).
Notation step := (step V src).
Notation cur := (cur V src).
Notation post1 := (post1 V src).
Notation post0 := (post0 V src).
Context (a b : nat) (R : recs) (HR : rec_ok V src a b R).

Notation assign_ok := (assign_ok V src a b R HR).
Notation expression_ok := (expression_ok V src HV a b R HR).
Notation paren_expression_ok := (paren_expression_ok V src HV a b R HR).
Notation p_id_ok := (p_id_ok V src HV a b R HR).
Notation pattern_ok := (pattern_ok V src HV a b R HR).
Notation statement_list_ok := (statement_list_ok V src HV a b R HR).
Notation function_ok := (fun T => @function_ok V src HV a b R HR T).
Notation more_comma_ok := (fun A => @more_comma_ok V src HV a b R HR A).

(** Routine side conditions (as in ParserExpr.v). *)
Ltac at_ := first [eassumption | eapply cur_At; eassumption].
Ltac pl_ :=
  first [ eassumption
        | match goal with
          | C : ParserK.cur _ _ _ ?x _ ?s _ |- at_place _ ?s =>
              assert_fails (constr_eq x s); solve [eapply cur_place; [|exact C]; pl_]
          end ].
Ltac weigh :=
  repeat match goal with
         | H : weighs ?h ?t |- _ =>
             first [ let E := fresh "E" in
                     assert (E : W (h ++ [t]) = S (W h)) by (apply H; congruence); clear H
                   | clear H ]
         end.
Ltac bounds :=
  repeat match goal with
         | C : ParserK.cur _ _ _ _ _ _ _ |- _ => apply cur_W in C; destruct C
         end.
Ltac w_ := solve [ weigh; bounds; pose proof (rk_le _ _ _ _ _ HR); pose proof (rk_fuel _ _ _ _ _ HR); lia ].
Ltac side := first [exact HV | exact I | at_ | pl_ | w_ | assumption].
Ltac kp lem := eapply lem; [exact HV|eassumption|].
Ltac kpd lem := eapply lem; [exact HV|exact I|eassumption|].
Ltac isP H := apply is_t_true in H; [|exact I].
Ltac isN H := apply is_t_false in H; [|exact I].

Lemma step_some h s h' s' Rl : step h s h' s' Rl -> exists i o, Rl i o.
Proof.
  intros (A1 & _ & _ & ts & _ & H). destruct (H _ (pre_refl _)) as [_ Hr]. eauto.
Qed.

Lemma k_in0 {A B} (Q : B -> pst -> Prop) h0 s0 g h s Rc bb (m : P A) (Rm : A -> rel) (k : A -> P B) :
  at_place g s -> cur h0 s0 h s Rc ->
  (forall s', At h s' -> at_place (with_in bb g) s' -> wpP m s' (post0 h s' Rm)) ->
  (forall x s1 h1, W h <= W h1 -> cur h0 s0 h1 s1 (seq Rc (Rm x)) -> wpP (k x) s1 Q) ->
  wpP (bind (p_allow_in bb m) k) s Q.
Proof.
  intros Hg C H K. eapply k_call0; [exact C| |exact K].
  eapply p_allow_in_ok; [apply H; [|apply at_place_in, Hg]|].
  - eapply At_lexer; [exact (cur_At _ _ _ _ _ _ _ C)|reflexivity].
  - intros x s1 (h1 & S1 & Hsub). exists h1. split; [|eapply sub_allow_in, Hsub].
    eapply step_lexer; [exact S1|reflexivity|reflexivity].
Qed.

Lemma statement_ok g h s : At h s -> at_place g s -> L < W h + b ->
  wpP (statement R) s (post1 h s (fun st i o => G g Statement i o st /\ head_fact i st)).
Proof.
  intros HA Hg Hb. unfold statement. eapply wpP_bind; [apply (rk_item _ _ _ _ _ HR g); eassumption|].
  intros [d|st] s1 (h1 & S1 & Hw & Hsub).
  - exfalso. destruct (step_some _ _ _ _ _ S1) as (i & o & H & _). discriminate H.
  - apply wpP_ret. exists h1. auto.
Qed.
Lemma statement_ok' g h s : At h s -> at_place g s -> L < W h + b ->
  wpP (statement R) s (post1 h s (fun st i o => G g Statement i o st)).
Proof.
  intros HA Hg Hb. eapply k_tail; [apply cur_refl, HA|apply (statement_ok g); assumption|].
  intros st i o (m & -> & H & _). exact H.
Qed.

(** ** Labelled statements *)

Definition no_label (o : tokens) : Prop :=
  forall t t2 r n, o = t :: t2 :: r -> tk_value t = TIdent n -> tk_value t2 <> TPunc T_Colon.

Lemma more_labels_ok g first h s : At h s -> at_place g s -> L <= W h + b ->
  wpP (more_labels V R first) s
      (post0 h s (fun ls i o => (exists more, ls = first :: more /\ labelsR (pl_mode g) more i o) /\ no_label o)).
Proof.
  intros HA Hg Hb. unfold more_labels.
  eapply (k_loop V src (r_fuel R) _
            (fun ls i o => exists more, ls = first :: more /\ labelsR (pl_mode g) more i o)); [side|side| |].
  - intros i o ->. exists []. split; reflexivity.
  - intros acc h1 s1 C1. kp k_peek. intros t s2 r Ha Hl Hs S2 C2.
    destruct (as_ident t) as [n|] eqn:E.
    + apply as_ident_some in E. eapply k_reread_token; [exact C2|exact Ha|]. intros s3 Hw3 H3 Ha3 C3.
      unfold p_matches_op. apply wpP_assoc. kp k_read_op. intros t4 s4 Hw4 H4 C4.
      destruct (is_t t4 (TPunc T_Colon)) eqn:E4.
      * isP E4. apply wpP_now. unfold new_id_from_token, as_ident. rewrite E.
        eapply (k_new_id V src _ _ _ g); [pl_|exact C4|]. intros s5 Hn Ha5 Hs5 C5.
        eapply k_loop_next; [exact C5|w_|].
        intros i o (m & (m1 & (m2 & (more & -> & Hm) & -> & _) & ->) & ->). exists (more ++ [Id (Some (tk_loc t)) n]).
        split; [reflexivity|]. apply labelsR_app. exists (t :: t4 :: o). split; [exact Hm|].
        cbn. exists t, t4, o, n. auto 7.
      * isN E4. apply wpP_assoc. eapply wpP_bind; [apply p_unread_now, H4|]. intros [] s5 (S5 & Hs5 & Ha5).
        apply wpP_now. destruct H4 as (S4 & Hs4 & Hl4).
        eapply (k_unread2 V src _ _ _ h1 s2 _ t s3 s5 t4); [exact C2|exact H3|exact S5| | |].
        -- eapply same_trans; eassumption.
        -- rewrite Ha5. cbn [length]. destruct Hl4 as [_ Hl4]. lia.
        -- intros s6 Ha6 C6. eapply k_loop_done; [exact C6|].
           intros i o (m & (m1 & Hm & -> & _) & -> & o' & ->). split; [exact Hm|].
           intros x y r' n' Ho Hx. injection Ho as <- <- <-. exact E4.
    + eapply k_loop_done; [exact C2|]. intros i o (m & Hm & -> & r' & ->). split; [exact Hm|].
      intros x y r'' n Ho Hx. injection Ho as <- _. exfalso. eapply as_ident_none; eassumption.
Qed.

Lemma at_place_labels g s ls v : at_place g s ->
  at_place (nest (label_loops v) ls g)
           (set_context (set_labels (insert_labels ls v (cx_labels (p_context s))) (p_context s)) s).
Proof.
  intros (A1 & A2 & A3 & A4 & A5 & A6).
  assert (K : forall ls g, pl_mode (nest (label_loops v) ls g) = pl_mode g
    /\ pl_fun (nest (label_loops v) ls g) = pl_fun g /\ pl_loop (nest (label_loops v) ls g) = pl_loop g
    /\ pl_switch (nest (label_loops v) ls g) = pl_switch g /\ pl_in (nest (label_loops v) ls g) = pl_in g).
  { clear. induction ls as [|x ls IH]; intros g; [repeat split|]. cbn [nest]. apply (IH (in_label (id_name x) (label_loops v) g)). }
  destruct (K ls g) as (B1 & B2 & B3 & B4 & B5).
  unfold at_place. rewrite B1, B2, B3, B4, B5. cbn. repeat (split; [assumption|]).
  apply insert_place. exact A6.
Qed.

Lemma label_loops_type t : label_loops (token_label_type t) = true <-> loop_head t.
Proof. unfold loop_head. destruct (token_label_type t); cbn; split; congruence. Qed.

Lemma labelled_statement_ok g x h s t r : At h s -> at_place g s -> L <= W h + b ->
  ahead s = t :: r -> is_t t (TPunc T_Colon) = true ->
  wpP (labelled_statement V R x) s
      (post1 h s (fun st i o => exists i1 ls m body, op_ T_Colon i i1 /\ labelsR (pl_mode g) ls i1 m
         /\ st = wrap_labels (x :: ls) body
         /\ G (nest (is_loop body) (x :: ls) g) Statement m o body)).
Proof.
  intros HA Hg Hb Ha Ht. unfold labelled_statement. pose proof (cur_refl _ _ _ _ HA) as C.
  eapply k_reread; [exact I|exact C|exact Ha|exact Ht|]. intros s1 Ht1 Hw1 H1 Ha1 C1.
  eapply k_call0; [exact C1|apply (more_labels_ok g); side|]. intros ls s2 h2 Hw2 C2.
  kp k_peek. intros t3 s3 r3 Ha3 Hl3 Hs3 S3 C3. unfold with_labels.
  set (v := token_label_type t3).
  apply (wpP_modify V src (fun s0 => set_context (set_labels (insert_labels ls v (cx_labels (p_context s0))) (p_context s0)) s0)).
  assert (Hp3 : at_place g s3) by pl_.
  pose proof (at_place_labels g s3 ls v Hp3) as Hp4.
  set (s4 := set_context _ s3) in *.
  assert (HA4 : At h2 s4) by (eapply At_lexer; [exact (cur_At _ _ _ _ _ _ _ C3)|reflexivity]).
  eapply wpP_bind; [eapply (statement_ok _ h2 s4 HA4 Hp4); w_|].
  intros body s5 (h5 & S5 & Hw5 & Hsub5).
  apply (wpP_modify V src (fun s0 => set_context (set_labels (remove_labels ls (cx_labels (p_context s0))) (p_context s0)) s0)).
  apply wpP_ret. set (s6 := set_context _ s5).
  assert (Hsub6 : sub s6 s3).
  { destruct Hsub5 as (B1 & B2 & B3 & B4 & B5 & B6 & B7). subst s6 s4. cbn in *.
    unfold sub. cbn. repeat (split; [assumption|]). intros n w H. apply get_remove_all in H as [H Hn].
    apply B7 in H. rewrite get_insert_all in H by exact Hn. exact H. }
  assert (C6 : cur h2 s3 h5 s6 (fun i o => G (nest (label_loops v) ls g) Statement i o body /\ head_fact i body)).
  { split; [|exact Hsub6]. eapply step_lexer; [exact S5|reflexivity|reflexivity]. }
  assert (C7 := cur_seq _ _ _ _ _ _ _ _ _ _ C3 C6).
  eapply post1_cur; [eapply cur_weaken; [exact C7|]|w_].
  intros i o (m & (m1 & (m2 & (m3 & -> & ->) & (more & -> & Hls) & Hno) & -> & r' & ->) & Hb' & Hhead).
  exists m2, more, (t3 :: r'), body. split; [apply op_cons, Ht1|]. split; [exact Hls|]. split; [reflexivity|].
  assert (Hk : is_loop body = label_loops v).
  { destruct body; cbn [head_fact] in Hhead;
      try (destruct Hhead as (u & ru & E & Hu); injection E as <- <-;
           pose proof (label_loops_type t3) as Hl; subst v;
           destruct (label_loops (token_label_type t3)); destruct (is_loop _); intuition congruence).
    exfalso. destruct Hhead as (u1 & u2 & ru & n & E & Hu1 & Hu2).
    eapply Hno; [|exact Hu1|exact Hu2]. exact E. }
  rewrite Hk. exact Hb'.
Qed.

(** ** Simple statements *)

Lemma ends_ne lax i o sm : ends lax i o sm -> True. Proof. auto. Qed.

Lemma expression_statement_ok g h s : At h s -> at_place g s -> L < W h + a ->
  wpP (expression_statement V R) s
      (post1 h s (fun st i o => exists l e sm i1, st = S_Expr l e sm
         /\ G (with_in true g) Expression i i1 e /\ ends false i1 o sm)).
Proof.
  intros HA Hg Hb. unfold expression_statement. pose proof (cur_refl _ _ _ _ HA) as C.
  apply wpP_posn. intros start.
  eapply (k_in V src _ _ _ g); [exact Hg|exact C|intros s' HA' Hg'; apply expression_ok; side|].
  intros e s1 h1 Hw1 C1. eapply k_semi; [exact HV|exact C1|w_|].
  intros sm l i o (m & (m1 & -> & He) & Hsm). cbn. exists (Some l), e, sm, m. auto.
Qed.

Lemma block_ok g h s : At h s -> at_place g s -> L <= W h + b ->
  wpP (block_ V R) s (post1 h s (fun x i o => G g BlockOf i o x)).
Proof.
  intros HA Hg Hb. unfold block_.
  eapply k_span with (Rm := fun x i o => forall l, G g BlockOf i o (block_set_loc x l)).
  2:{ intros x l i o H. apply H. }
  pose proof (cur_refl _ _ _ _ HA) as C. kpd k_expect. intros t1 s1 Ht1 Hw1 H1 C1.
  eapply k_call0; [exact C1|apply (statement_list_ok g); side|]. intros is_ s2 h2 Hw2 C2.
  kpd k_expect. intros t3 s3 Ht3 Hw3 H3 C3. eapply k_ret; [exact C3|w_|].
  intros i o (m & (m1 & (m2 & -> & ->) & His) & ->) l. cbn. eapply g_block_of; eauto with g.
Qed.

Lemma comma_separated_ok {A} g (n : nt A) (f : P A) h s : At h s -> at_place g s -> L < W h + b ->
  (forall h s, At h s -> at_place g s -> L < W h + b -> wpP f s (post1 h s (fun x i o => G g n i o x))) ->
  wpP (comma_separated V R f) s (post1 h s (fun l i o => G g (Commas n) i o l /\ not_next (TPunc T_Comma) o)).
Proof.
  intros HA Hg Hb Hf. unfold comma_separated. pose proof (cur_refl _ _ _ _ HA) as C.
  eapply k_call; [exact C|apply Hf; assumption|]. intros x s1 h1 Hw1 C1.
  eapply k_tail0; [exact C1|w_|apply (more_comma_ok _ g n); try side; exact Hf|].
  intros l i o (m & (m1 & -> & Hx) & tl & -> & Htl & Hn). split; [|exact Hn]. eapply after_commas; eassumption.
Qed.

Lemma declarator_ok g h s : At h s -> at_place g s -> L < W h + b ->
  wpP (declarator V R) s (post1 h s (fun x i o => G g Declarator i o x)).
Proof.
  intros HA Hg Hb. unfold declarator.
  eapply k_span with (Rm := fun x i o => forall l, G g Declarator i o (dtor_set_loc x l)).
  2:{ intros x l i o H. apply H. }
  pose proof (cur_refl _ _ _ _ HA) as C. kp k_peek. intros t s1 r Ha Hl Hs S1 C1.
  destruct (as_ident t) as [n|] eqn:E.
  - eapply k_call; [exact C1|apply (p_id_ok g); side|]. intros x s2 h2 Hw2 C2.
    eapply k_matches; [exact HV|exact I|exact C2| |].
    + intros t3 s3 Ht3 Hw3 C3. apply wpP_assoc.
      eapply k_call; [exact C3|apply (assign_ok g); side|]. intros e s4 h4 Hw4 C4. apply wpP_now.
      eapply k_ret; [exact C4|w_|].
      intros i o (m & (m1 & (m2 & (m3 & -> & -> & _) & Hx) & ->) & He) l. cbn.
      eapply g_dtor_init; eauto with g.
    + intros t3 s3 r3 Ht3 Ha3 C3. apply wpP_now. eapply k_ret; [exact C3|w_|].
      intros i o (m & (m1 & (m2 & -> & -> & _) & Hx) & -> & r' & ->) l. cbn. apply g_dtor_bare; auto with g.
  - eapply wpP_bind with (Q1 := fun _ _ => False); [eapply binding_pattern_ok; side|]. intros ? ? [].
Qed.

Lemma const_declarator_ok g h s : At h s -> at_place g s -> L < W h + b ->
  wpP (const_declarator V R) s (post1 h s (fun x i o => G g ConstDeclarator i o x)).
Proof.
  intros HA Hg Hb. unfold const_declarator. pose proof (cur_refl _ _ _ _ HA) as C.
  eapply k_call; [exact C|apply (pattern_ok g); side|]. intros p s1 h1 Hw1 C1.
  kpd k_expect. intros t2 s2 Ht2 Hw2 H2 C2. eapply k_call; [exact C2|apply (assign_ok g); side|].
  intros e s3 h3 Hw3 C3. eapply k_ret; [exact C3|w_|].
  intros i o (m & (m1 & (m2 & -> & Hp) & ->) & He). eapply g_cdtor; eauto with g.
Qed.

Section Kw.
Context (g : place) (h : list token) (s : pst) (t : token) (r : list token).
Context (HA : At h s) (Hg : at_place g s) (Hb : L <= W h + b) (Ha : ahead s = t :: r).

(** Start: the keyword just looked at is read. *)
Ltac start Ht := eapply k_reread; [exact I|exact (cur_refl _ _ _ _ HA)|exact Ha|exact Ht|].

Lemma var_statement_ok : is_t t (TReserved R_Var) = true ->
  wpP (var_statement V R) s (post1 h s (stR g false)).
Proof.
  intros Ht. unfold var_statement. apply wpP_posn. intros p. start Ht. intros s1 Ht1 Hw1 H1 Ha1 C1.
  eapply k_call; [exact C1|apply (comma_separated_ok g Declarator); try side|].
  { intros. apply declarator_ok; assumption. }
  intros ds s2 h2 Hw2 C2. eapply k_semi; [exact HV|exact C2|w_|].
  intros sm l i o (m & (m1 & (m2 & -> & ->) & Hds & _) & Hsm). split; [|reflexivity]. cbn.
  eapply g_var; eauto with g.
Qed.

Lemma const_declaration_ok : is_t t (TReserved R_Const) = true ->
  wpP (const_declaration V R) s (post1 h s (fun x i o => G g Declaration i o x)).
Proof.
  intros Ht. unfold const_declaration. apply wpP_posn. intros p. start Ht. intros s1 Ht1 Hw1 H1 Ha1 C1.
  eapply k_call; [exact C1|apply (comma_separated_ok g ConstDeclarator); try side|].
  { intros. apply const_declarator_ok; assumption. }
  intros ds s2 h2 Hw2 C2. eapply k_semi; [exact HV|exact C2|w_|].
  intros sm l i o (m & (m1 & (m2 & -> & ->) & Hds & _) & Hsm). cbn. eapply g_const; eauto with g.
Qed.

Lemma function_declaration_ok : is_t t (TReserved R_Function) = true ->
  wpP (function_declaration V R) s (post1 h s (fun x i o => G g Declaration i o x)).
Proof.
  intros Ht. isP Ht. unfold function_declaration.
  eapply k_span with (Rm := fun x i o => forall l, G g Declaration i o (decl_set_loc x l)).
  2:{ intros x l i o H. apply H. }
  pose proof (cur_refl _ _ _ _ HA) as C.
  eapply k_call; [exact C|eapply (function_ok _ (p_id V true) _ g); [side|side|side|exact Ha|exact Ht|]|].
  { intros h' s' HA' Hg'. eapply wpP_conseq; [apply (p_id_ok g); eassumption|].
    intros x s1 (h1 & S1 & Hw1 & Hsub). exists h1. split; [exact S1|exact Hsub]. }
  intros f s1 h1 Hw1 C1. eapply k_ret; [exact C1|w_|].
  intros i o (m & -> & l & x & ps & bd & gen & i1 & i2 & i3 & -> & Hk & Hs & Hx & Hf) l'. cbn. apply g_fun_decl.
  destruct gen; [eapply g_generator_decl|subst i2; eapply g_function_decl]; eassumption.
Qed.

Lemma empty_statement_ok : wpP (empty_statement V) s (post1 h s (stR g false)).
Proof.
  unfold empty_statement.
  eapply k_span with (Rm := fun x i o => forall l, stR g false (stmt_set_loc x l) i o).
  2:{ intros x l i o H. apply H. }
  pose proof (cur_refl _ _ _ _ HA) as C. kpd k_expect. intros t1 s1 Ht1 Hw1 H1 C1. eapply k_ret; [exact C1|w_|].
  intros i o (m & -> & ->) l. split; [|reflexivity]. cbn. apply g_empty. auto with g.
Qed.

Lemma if_statement_ok : wpP (if_statement V R) s (post1 h s (stR g false)).
Proof.
  unfold if_statement.
  eapply k_span with (Rm := fun x i o => forall l, stR g false (stmt_set_loc x l) i o).
  2:{ intros x l i o H. apply H. }
  pose proof (cur_refl _ _ _ _ HA) as C. kpd k_expect. intros t1 s1 Ht1 Hw1 H1 C1.
  eapply k_call; [exact C1|apply (paren_expression_ok g); side|]. intros e s2 h2 Hw2 C2.
  eapply k_call; [exact C2|apply (statement_ok' g); side|]. intros c s3 h3 Hw3 C3.
  kp k_peek. intros t4 s4 r4 Ha4 Hl4 Hs4 S4 C4. destruct (is_t t4 (TReserved R_Else)) eqn:E.
  - apply wpP_assoc. eapply k_reread; [exact I|exact C4|exact Ha4|exact E|]. intros s5 Ht5 Hw5 H5 Ha5 C5.
    apply wpP_assoc. eapply k_call; [exact C5|apply (statement_ok' g); side|]. intros e' s6 h6 Hw6 C6.
    apply wpP_now. eapply k_ret; [exact C6|w_|].
    intros i o (m & (m1 & (m2 & (m3 & (m4 & (m5 & -> & ->) & i1 & i2 & Hlp & He & Hrp) & Hc) & -> & _) & ->) & He') l.
    split; [|reflexivity]. cbn. eapply g_if_else; eauto with g.
  - isN E. apply wpP_now. eapply k_ret; [exact C4|w_|].
    intros i o (m & (m1 & (m2 & (m3 & -> & ->) & i1 & i2 & Hlp & He & Hrp) & Hc) & -> & r' & ->) l.
    split; [|reflexivity]. cbn. eapply g_if; eauto with g.
Qed.

Lemma debugger_statement_ok : is_t t (TReserved R_Debugger) = true ->
  wpP (debugger_statement V) s (post1 h s (stR g false)).
Proof.
  intros Ht. unfold debugger_statement. apply wpP_posn. intros p. start Ht. intros s1 Ht1 Hw1 H1 Ha1 C1.
  eapply k_semi; [exact HV|exact C1|w_|]. intros sm l i o (m & (m1 & -> & ->) & Hsm).
  split; [|reflexivity]. cbn. eapply g_debugger; eauto with g.
Qed.

Lemma throw_statement_ok : is_t t (TReserved R_Throw) = true ->
  wpP (throw_statement V R) s (post1 h s (stR g false)).
Proof.
  intros Ht. unfold throw_statement. apply wpP_posn. intros p. start Ht. intros s1 Ht1 Hw1 H1 Ha1 C1.
  eapply k_has_arg; [exact HV|exact C1| |]; intros t2 s2 r2 Harg Ha2 C2; cbn [negb]; [|apply wpP_err].
  eapply (k_in V src _ _ _ g); [pl_|exact C2|intros s' HA' Hg'; apply expression_ok; side|].
  intros e s3 h3 Hw3 C3. eapply k_semi; [exact HV|exact C3|w_|].
  intros sm l i o (m & (m1 & (m2 & (m3 & -> & ->) & -> & r' & ->) & He) & Hsm).
  split; [|reflexivity]. cbn. eapply g_throw; [|apply next_cons, Harg| |]; eauto with g.
Qed.

Lemma break_statement_ok : is_t t (TReserved R_Break) = true ->
  wpP (break_statement V) s (post1 h s (stR g false)).
Proof.
  intros Ht. unfold break_statement. apply wpP_posn. intros p. start Ht. intros s1 Ht1 Hw1 H1 Ha1 C1.
  eapply k_has_arg; [exact HV|exact C1| |]; intros t2 s2 r2 Harg Ha2 C2.
  - apply wpP_assoc. eapply k_call; [exact C2|apply (p_id_ok g); side|]. intros x s3 h3 Hw3 C3.
    apply wpP_assoc, wpP_get_context. assert (Hp : at_place g s3) by pl_. destruct Hp as (_ & _ & _ & _ & _ & Hlab).
    destruct (labels_get (cx_labels (p_context s3)) (id_name x)) as [v|] eqn:El; [|apply wpP_err].
    apply wpP_now. eapply k_semi; [exact HV|exact C3|w_|].
    intros sm l i o (m & (m1 & (m2 & (m3 & -> & ->) & -> & r' & ->) & Hx) & Hsm).
    split; [|reflexivity]. cbn. eapply g_break_to; [|apply next_cons, Harg|exact Hx|apply Hlab, El|exact Hsm]; eauto with g.
  - apply wpP_assoc, wpP_get_context.
    assert (Hp : at_place g s2) by pl_. destruct Hp as (_ & _ & Hlo & Hsw & _).
    destruct (negb (cx_iteration (p_context s2)) && negb (cx_switch (p_context s2))) eqn:E; [apply wpP_err|].
    apply wpP_now. eapply k_semi; [exact HV|exact C2|w_|].
    intros sm l i o (m & (m1 & (m2 & -> & ->) & -> & r' & ->) & Hsm).
    split; [|reflexivity]. cbn. eapply g_break; [|apply next_cons, Harg| |exact Hsm]; eauto with g.
    rewrite Hlo, Hsw. apply andb_false_iff in E as [E|E]; apply negb_false_iff in E; auto.
Qed.

Lemma continue_statement_ok : is_t t (TReserved R_Continue) = true ->
  wpP (continue_statement V) s (post1 h s (stR g false)).
Proof.
  intros Ht. unfold continue_statement. apply wpP_posn. intros p. start Ht. intros s1 Ht1 Hw1 H1 Ha1 C1.
  eapply k_has_arg; [exact HV|exact C1| |]; intros t2 s2 r2 Harg Ha2 C2.
  - apply wpP_assoc. eapply k_call; [exact C2|apply (p_id_ok g); side|]. intros x s3 h3 Hw3 C3.
    apply wpP_assoc, wpP_get_context. assert (Hp : at_place g s3) by pl_. destruct Hp as (_ & _ & _ & _ & _ & Hlab).
    destruct (labels_get (cx_labels (p_context s3)) (id_name x)) as [v|] eqn:El; [|apply wpP_err].
    specialize (Hlab _ _ El).
    destruct v; [|apply wpP_err] || destruct v; [apply wpP_err|]. 
    apply wpP_now. eapply k_semi; [exact HV|exact C3|w_|].
    intros sm l i o (m & (m1 & (m2 & (m3 & -> & ->) & -> & r' & ->) & Hx) & Hsm).
    split; [|reflexivity]. cbn. eapply g_continue_to; [|apply next_cons, Harg|exact Hx|exact Hlab|exact Hsm]; eauto with g.
  - apply wpP_assoc, wpP_get_context.
    assert (Hp : at_place g s2) by pl_. destruct Hp as (_ & _ & Hlo & Hsw & _).
    destruct (negb (cx_iteration (p_context s2))) eqn:E; [apply wpP_err|].
    apply wpP_now. eapply k_semi; [exact HV|exact C2|w_|].
    intros sm l i o (m & (m1 & (m2 & -> & ->) & -> & r' & ->) & Hsm).
    split; [|reflexivity]. cbn. eapply g_continue; [|apply next_cons, Harg| |exact Hsm]; eauto with g.
    rewrite Hlo. apply negb_false_iff in E. exact E.
Qed.

Lemma return_statement_ok : is_t t (TReserved R_Return) = true ->
  wpP (return_statement V R) s (post1 h s (stR g false)).
Proof.
  intros Ht. unfold return_statement. apply wpP_posn. intros p. start Ht. intros s1 Ht1 Hw1 H1 Ha1 C1.
  assert (Hend : forall h2 s2 R2 arg, cur h s h2 s2 R2 -> W h < W h2 ->
    (forall sm l i o m, R2 i m -> ends false m o sm -> pl_fun g = true -> G g Statement i o (S_Return (Some l) arg sm)) ->
    wpP (result <- end_with_auto_semi V stmt_set_loc p NL_Required (fun semi => S_Return None arg semi) ;;
         c <- get_context ;;
         if negb (cx_function c) then
           match stmt_loc result with
           | Some l => err (TopLevelReturn l)
           | None => panic_at P_unwrap
           end
         else ret result) s2 (post1 h s (stR g false))).
  { intros h2 s2 R2 arg C2 Hw2 H2.
    eapply wpP_bind; [apply end_with_auto_semi_ok; [exact HV|side]|].
    intros st s3 (h3 & sm & l & -> & S3 & Hsub3). assert (C3 := cur_seq _ _ _ _ _ _ _ _ _ _ C2 (conj S3 Hsub3)).
    assert (W h2 <= W h3) by apply S3.
    apply wpP_get_context. assert (Hp : at_place g s3) by pl_. destruct Hp as (_ & Hf & _).
    destruct (negb (cx_function (p_context s3))) eqn:E; [apply wpP_err|]. apply negb_false_iff in E.
    eapply k_ret; [exact C3|w_|]. intros i o (m & Hm & Hsm). split; [|reflexivity]. cbn.
    eapply H2; [exact Hm|exact Hsm|congruence]. }
  eapply k_has_arg; [exact HV|exact C1| |]; intros t2 s2 r2 Harg Ha2 C2.
  - apply wpP_assoc. eapply (k_in V src _ _ _ g); [pl_|exact C2|intros s' HA' Hg'; apply expression_ok; side|].
    intros e s3 h3 Hw3 C3. apply wpP_now. eapply Hend; [exact C3|w_|].
    intros sm l i o m (m0 & (m1 & (m2 & -> & ->) & -> & r' & ->) & He) Hsm Hf.
    eapply g_return_value; [|apply next_cons, Harg| | |]; eauto with g.
  - apply wpP_now. eapply Hend; [exact C2|w_|].
    intros sm l i o m (m0 & (m1 & -> & ->) & -> & r' & ->) Hsm Hf.
    eapply g_return; [|apply next_cons, Harg| |]; eauto with g.
Qed.

Lemma with_statement_ok : is_t t (TReserved R_With) = true ->
  wpP (with_statement V R) s (post1 h s (stR g false)).
Proof.
  intros Ht. unfold with_statement.
  eapply k_span with (Rm := fun x i o => forall l, stR g false (stmt_set_loc x l) i o).
  2:{ intros x l i o H. apply H. }
  start Ht. intros s1 Ht1 Hw1 H1 Ha1 C1.
  eapply wpP_bind; [apply (strict_check_ok V src _ (h ++ [t]) s1 (mode_of s1 = Sloppy)); [side| |auto]|].
  { apply wp_ret. split; [reflexivity|]. auto. }
  intros [] s2 (Hs2 & Hl2 & Hm). assert (C2 := cur_same _ _ _ _ _ _ _ _ C1 Hs2 Hl2).
  assert (Hmode : pl_mode g = Sloppy).
  { assert (Hp : at_place g s1) by pl_. destruct Hp as [-> _]. exact Hm. }
  eapply k_call; [exact C2|apply (paren_expression_ok g); side|]. intros e s3 h3 Hw3 C3.
  eapply k_call; [exact C3|apply (statement_ok' g); side|]. intros c s4 h4 Hw4 C4.
  eapply k_ret; [exact C4|w_|].
  intros i o (m & (m1 & (m2 & -> & ->) & i1 & i2 & Hlp & He & Hrp) & Hc) l.
  split; [|reflexivity]. cbn. eapply g_with; eauto with g.
Qed.

(** ** Try *)

Lemma try_statement_ok : is_t t (TReserved R_Try) = true ->
  wpP (try_statement V R) s (post1 h s (stR g false)).
Proof.
  intros Ht. unfold try_statement.
  eapply k_span with (Rm := fun x i o => forall l, stR g false (stmt_set_loc x l) i o).
  2:{ intros x l i o H. apply H. }
  start Ht. intros s1 Ht1 Hw1 H1 Ha1 C1.
  eapply k_call; [exact C1|apply (block_ok g); side|]. intros bl s2 h2 Hw2 C2.
  kp k_peek. intros t3 s3 r3 Ha3 Hl3 Hs3 S3 C3.
  destruct (is_t t3 (TReserved R_Catch) || is_t t3 (TReserved R_Finally)) eqn:E.
  2:{ kp k_read. intros. apply wpP_err. }
  assert (Hfin : forall h4 s4 R4 c, cur h s h4 s4 R4 -> W h < W h4 -> L <= W h4 + b ->
    (forall i o, R4 i o -> exists i1 m, kw R_Try i i1 /\ G g BlockOf i1 m bl /\
        match c with Some c => G g Catch_ m o c | None => m = o /\ next (fun t => tk_value t = TReserved R_Finally) o end) ->
    wpP (f <- finally_opt V R ;; ret (S_Try None bl c f)) s4
        (post1 h s (fun x i o => forall l, stR g false (stmt_set_loc x l) i o))).
  { intros h4 s4 R4 c C4 Hw4 Hb4 H4. unfold finally_opt. apply wpP_assoc.
    eapply k_peek; [exact HV|exact C4|]. intros t5 s5 r5 Ha5 Hl5 Hs5 S5 C5.
    destruct (is_t t5 (TReserved R_Finally)) eqn:E5.
    - apply wpP_assoc. eapply k_reread; [exact I|exact C5|exact Ha5|exact E5|]. intros s6 Ht6 Hw6 H6 Ha6 C6.
      apply wpP_assoc. eapply k_call; [exact C6|apply (block_ok g); side|]. intros f s7 h7 Hw7 C7.
      apply wpP_now. eapply k_ret; [exact C7|w_|].
      intros i o (m & (m1 & (m2 & Hm & -> & _) & ->) & Hf) l. split; [|reflexivity]. cbn.
      destruct (H4 _ _ Hm) as (i1 & m0 & Hk & Hbl & Hc). destruct c as [c|].
      + eapply g_try_both; eauto with g.
      + destruct Hc as [-> _]. eapply g_try_finally; eauto with g.
    - isN E5. apply wpP_now. eapply k_ret; [exact C5|w_|].
      intros i o (m & Hm & -> & r' & ->) l. split; [|reflexivity]. cbn.
      destruct (H4 _ _ Hm) as (i1 & m0 & Hk & Hbl & Hc). destruct c as [c|].
      + eapply g_try_catch; eauto with g.
      + destruct Hc as [_ (u & o' & Eu & Hu)]. injection Eu as <- <-. contradiction. }
  unfold catch_opt. apply wpP_assoc. eapply k_peek; [exact HV|exact C3|]. intros t4 s4 r4 Ha4 Hl4 Hs4 S4 C4.
  destruct (is_t t4 (TReserved R_Catch)) eqn:E4.
  - apply wpP_assoc.
    eapply k_call; [exact C4|eapply k_span with (Rm := fun x i o => forall l, G g Catch_ i o (catch_set_loc x l))
                              (Ra := fun x i o => G g Catch_ i o x)|].
    + assert (HA4 := cur_At _ _ _ _ _ _ _ C4). assert (Hw4 : L <= W h2 + b) by w_.
      assert (Hg4 : at_place g s4) by pl_. clear C1 C2 C3 C4 S3 S4.
      pose proof (cur_refl _ _ _ _ HA4) as C.
      eapply k_reread; [exact I|exact C|exact Ha4|exact E4|]. intros s5 Ht5 Hw5 H5 Ha5 C5.
      kpd k_expect. intros t6 s6 Ht6 Hw6 H6 C6. eapply k_call; [exact C6|apply (pattern_ok g); side|].
      intros p s7 h7 Hw7 C7. kpd k_expect. intros t8 s8 Ht8 Hw8 H8 C8.
      eapply k_call; [exact C8|apply (block_ok g); side|]. intros cb s9 h9 Hw9 C9.
      eapply k_ret; [exact C9|w_|].
      intros i o (m & (m1 & (m2 & (m3 & (m4 & -> & ->) & ->) & Hp) & ->) & Hcb) l. cbn.
      eapply g_catch; eauto with g.
    + intros x l i o H. apply H.
    + intros c s5 h5 Hw5 C5. apply wpP_now. eapply Hfin; [exact C5|w_|w_|].
      intros i o (m & (m1 & (m2 & (m3 & (m4 & -> & ->) & Hbl) & -> & _) & -> & _) & Hc).
      exists m3, m. split; [apply kw_cons, Ht1|]. auto.
  - apply wpP_now. isN E4. eapply Hfin; [exact C4|w_|w_|].
    intros i o (m & (m1 & (m2 & (m3 & -> & ->) & Hbl) & -> & r' & Eq') & -> & r'' & Eq).
    subst o. injection Eq as -> ->. exists m2, (t4 :: r''). split; [apply kw_cons, Ht1|]. split; [exact Hbl|].
    split; [reflexivity|]. apply next_cons. apply orb_true_iff in E as [E|E]; isP E; [contradiction|exact E].
Qed.
End Kw.
(** ** Loops *)

Lemma at_place_loop g s : at_place g s ->
  at_place (in_loop g) (set_context (set_iteration true (p_context s)) s).
Proof. intros (A1 & A2 & A3 & A4 & A5 & A6). unfold at_place. cbn. auto 8. Qed.
Lemma at_place_switch g s : at_place g s ->
  at_place (in_switch g) (set_context (set_switch true (p_context s)) s).
Proof. intros (A1 & A2 & A3 & A4 & A5 & A6). unfold at_place. cbn. auto 8. Qed.

Lemma iteration_body_ok g h s : At h s -> at_place g s -> L < W h + b ->
  wpP (iteration_body R) s (post1 h s (fun st i o => G (in_loop g) Statement i o st)).
Proof.
  intros HA Hg Hb. unfold iteration_body. apply wpP_get_context.
  apply (wpP_modify V src (fun s0 => set_context (set_iteration true (p_context s0)) s0)).
  set (s1 := set_context (set_iteration true (p_context s)) s).
  assert (HA1 : At h s1) by (eapply At_lexer; [exact HA|reflexivity]).
  eapply wpP_bind; [apply (statement_ok' (in_loop g)); [exact HA1|apply at_place_loop, Hg|exact Hb]|].
  intros st s2 (h2 & S2 & Hw2 & Hsub2).
  apply (wpP_modify V src (fun s0 => set_context (set_iteration (cx_iteration (p_context s)) (p_context s0)) s0)).
  apply wpP_ret. exists h2. split; [|split; [exact Hw2|]].
  - eapply step_lexer; [exact S2|reflexivity|reflexivity].
  - destruct Hsub2 as (B1 & B2 & B3 & B4 & B5 & B6 & B7). subst s1. cbn in *.
    unfold sub. cbn. auto 10.
Qed.

Lemma do_statement_ok g h s t r : At h s -> at_place g s -> L <= W h + b ->
  ahead s = t :: r -> is_t t (TReserved R_Do) = true ->
  wpP (do_statement V R) s (post1 h s (stR g true)).
Proof.
  intros HA Hg Hb Ha Ht. unfold do_statement. apply wpP_posn. intros p.
  eapply k_reread; [exact I|exact (cur_refl _ _ _ _ HA)|exact Ha|exact Ht|]. intros s1 Ht1 Hw1 H1 Ha1 C1.
  eapply k_call; [exact C1|apply (iteration_body_ok g); side|]. intros st s2 h2 Hw2 C2.
  kpd k_expect. intros t3 s3 Ht3 Hw3 H3 C3.
  eapply k_call; [exact C3|apply (paren_expression_ok g); side|]. intros e s4 h4 Hw4 C4.
  eapply k_semi; [exact HV|exact C4|w_|].
  intros sm l i o (m & (m1 & (m2 & (m3 & (m4 & -> & ->) & Hst) & ->) & i1 & i2 & Hlp & He & Hrp) & Hsm).
  split; [|reflexivity]. cbn. eapply g_do; eauto with g.
Qed.

Lemma while_statement_ok g h s t r : At h s -> at_place g s -> L <= W h + b ->
  ahead s = t :: r -> is_t t (TReserved R_While) = true ->
  wpP (while_statement V R) s (post1 h s (stR g true)).
Proof.
  intros HA Hg Hb Ha Ht. unfold while_statement.
  eapply k_span with (Rm := fun x i o => forall l, stR g true (stmt_set_loc x l) i o).
  2:{ intros x l i o H. apply H. }
  eapply k_reread; [exact I|exact (cur_refl _ _ _ _ HA)|exact Ha|exact Ht|]. intros s1 Ht1 Hw1 H1 Ha1 C1.
  eapply k_call; [exact C1|apply (paren_expression_ok g); side|]. intros e s2 h2 Hw2 C2.
  eapply k_call; [exact C2|apply (iteration_body_ok g); side|]. intros st s3 h3 Hw3 C3.
  eapply k_ret; [exact C3|w_|].
  intros i o (m & (m1 & (m2 & -> & ->) & i1 & i2 & Hlp & He & Hrp) & Hst) l.
  split; [|reflexivity]. cbn. eapply g_while; eauto with g.
Qed.

Definition testR (g : place) (e : option expr) : rel := fun i o =>
  match e with
  | None => op_ T_Semi i o
  | Some e => exists i1, G (with_in true g) Expression i i1 e /\ op_ T_Semi i1 o
  end.
Lemma expression_opt_semi_ok g h s : At h s -> at_place g s -> L <= W h + b -> L < W h + a ->
  wpP (expression_opt_semi V R) s (post1 h s (testR g)).
Proof.
  intros HA Hg Hb Hb'. unfold expression_opt_semi. pose proof (cur_refl _ _ _ _ HA) as C.
  eapply k_matches; [exact HV|exact I|exact C| |].
  - intros t1 s1 Ht1 Hw1 C1. eapply k_ret; [exact C1|w_|]. intros i o (m & -> & ->). cbn. auto with g.
  - intros t1 s1 r1 Ht1 Ha1 C1.
    eapply (k_in V src _ _ _ g); [pl_|exact C1|intros s' HA' Hg'; apply expression_ok; side|].
    intros e s2 h2 Hw2 C2. kpd k_expect. intros t3 s3 Ht3 Hw3 H3 C3. eapply k_ret; [exact C3|w_|].
    intros i o (m & (m1 & (m2 & -> & -> & _) & He) & ->). cbn. eauto with g.
Qed.

Lemma more_for_ok g head h s : At h s -> at_place g s -> L < W h + b ->
  wpP (more_for V R head) s
      (post1 h s (fun st i o => exists t u bd, st = S_For None head t u bd /\ G g ForRest i o (t, u, bd))).
Proof.
  intros HA Hg Hb. unfold more_for. pose proof (cur_refl _ _ _ _ HA) as C.
  eapply k_call; [exact C|apply (expression_opt_semi_ok g); side|]. intros t s1 h1 Hw1 C1.
  eapply k_matches; [exact HV|exact I|exact C1| |].
  - intros t2 s2 Ht2 Hw2 C2. apply wpP_now.
    eapply k_call; [exact C2|apply (iteration_body_ok g); side|]. intros st s3 h3 Hw3 C3.
    eapply k_ret; [exact C3|w_|]. intros i o (m & (m1 & (m2 & -> & Ht) & ->) & Hst).
    exists t, None, st. split; [reflexivity|]. destruct t as [t|]; cbn in Ht.
    + destruct Ht as (i1 & Ht & Hs). eapply g_for_rest_10; eauto with g.
    + eapply g_for_rest_00; eauto with g.
  - intros t2 s2 r2 Ht2 Ha2 C2. apply wpP_assoc.
    eapply (k_in V src _ _ _ g); [pl_|exact C2|intros s' HA' Hg'; apply expression_ok; side|].
    intros u s3 h3 Hw3 C3. apply wpP_assoc. kpd k_expect. intros t4 s4 Ht4 Hw4 H4 C4. apply wpP_now.
    eapply k_call; [exact C4|apply (iteration_body_ok g); side|]. intros st s5 h5 Hw5 C5.
    eapply k_ret; [exact C5|w_|].
    intros i o (m & (m1 & (m2 & (m3 & (m4 & -> & Ht) & -> & _) & Hu) & ->) & Hst).
    exists t, (Some u), st. split; [reflexivity|]. destruct t as [t|]; cbn in Ht.
    + destruct Ht as (i1 & Ht & Hs). eapply g_for_rest_11; eauto with g.
    + eapply g_for_rest_01; eauto with g.
Qed.

Definition inR (g : place) (e : expr) (bd : stmt) : rel := fun i o =>
  exists i1 i2, G (with_in true g) Assignment i i1 e /\ op_ T_RParen i1 i2 /\ G (in_loop g) Statement i2 o bd.
Lemma more_for_in_ok g head h s : At h s -> at_place g s -> L < W h + b ->
  wpP (more_for_in V R head) s
      (post1 h s (fun st i o => exists e bd, st = S_ForIn None head e bd /\ inR g e bd i o)).
Proof.
  intros HA Hg Hb. unfold more_for_in. pose proof (cur_refl _ _ _ _ HA) as C.
  eapply (k_in V src _ _ _ g); [pl_|exact C|intros s' HA' Hg'; apply assign_ok; side|].
  intros e s1 h1 Hw1 C1. kpd k_expect. intros t2 s2 Ht2 Hw2 H2 C2.
  eapply k_call; [exact C2|apply (iteration_body_ok g); side|]. intros st s3 h3 Hw3 C3.
  eapply k_ret; [exact C3|w_|]. intros i o (m & (m1 & (m2 & -> & He) & ->) & Hst).
  exists e, st. split; [reflexivity|]. exists (t2 :: m), m. auto with g.
Qed.
Lemma more_for_of_ok g head h s : At h s -> at_place g s -> L < W h + b ->
  wpP (more_for_of V R head) s
      (post1 h s (fun st i o => exists e bd, st = S_ForOf None head e bd /\ inR g e bd i o)).
Proof.
  intros HA Hg Hb. unfold more_for_of. pose proof (cur_refl _ _ _ _ HA) as C.
  eapply (k_in V src _ _ _ g); [pl_|exact C|intros s' HA' Hg'; apply assign_ok; side|].
  intros e s1 h1 Hw1 C1. kpd k_expect. intros t2 s2 Ht2 Hw2 H2 C2.
  eapply k_call; [exact C2|apply (iteration_body_ok g); side|]. intros st s3 h3 Hw3 C3.
  eapply k_ret; [exact C3|w_|]. intros i o (m & (m1 & (m2 & -> & He) & ->) & Hst).
  exists e, st. split; [reflexivity|]. exists (t2 :: m), m. auto with g.
Qed.

Lemma more_for_head_ok g start d op h s : At h s -> at_place g s -> L < W h + b ->
  wpP (more_for_head V R start d op) s
      (post1 h s (fun st i o => exists l ds tl t u bd i1 i2, st = S_For None (Some (op l ds)) t u bd
         /\ ds = d :: tl /\ after_comma (with_in false g) Declarator i i1 tl
         /\ op_ T_Semi i1 i2 /\ G g ForRest i2 o (t, u, bd))).
Proof.
  intros HA Hg Hb. unfold more_for_head. pose proof (cur_refl _ _ _ _ HA) as C.
  eapply (k_in0 _ _ _ g); [exact Hg|exact C| |].
  { intros s' HA' Hg'. apply (more_comma_ok _ (with_in false g) Declarator); try side.
    intros. apply declarator_ok; assumption. }
  intros ds s1 h1 Hw1 C1. kpd k_expect. intros t2 s2 Ht2 Hw2 H2 C2.
  eapply k_tail; [exact C2|apply (more_for_ok g); side|].
  intros st i o (m & (m1 & (m2 & -> & tl & -> & Htl & _) & ->) & t & u & bd & -> & Hf).
  eexists _, _, tl, t, u, bd, (t2 :: m), m. split; [reflexivity|]. auto with g.
Qed.

(** The parenthesized part of a [for] statement, and its body. *)
Definition forR (g : place) (st : stmt) : rel := fun i o =>
  (forall l i0 i1, kw R_For i0 i1 -> op_ T_LParen i1 i -> G g Statement i0 o (stmt_set_loc st l))
  /\ stmt_kind st = Some true.

Lemma for_expr_ok g h s : At h s -> at_place g s -> L <= W h + b -> L < W h + a ->
  wpP (for_expr V R) s
      (post1 h s (fun st i o =>
         (forall i', eat (TIdent (NAtom A_Let)) i i' -> next (fun t => ~ begins_binding t) i') ->
         forR g st i o)).
Proof.
  intros HA Hg Hb Hb'. unfold for_expr. pose proof (cur_refl _ _ _ _ HA) as C.
  eapply (k_in V src _ _ _ g); [pl_|exact C|intros s' HA' Hg'; apply expression_ok; side|].
  intros lhs s1 h1 Hw1 C1. kp k_peek. intros t s2 r Ha Hl Hs S2 C2.
  destruct (is_t t (TPunc T_Semi)) eqn:E1.
  { eapply k_reread; [exact I|exact C2|exact Ha|exact E1|]. intros s3 Ht3 Hw3 H3 Ha3 C3.
    eapply k_tail; [exact C3|apply (more_for_ok g); side|].
    intros st i o (m & (m1 & (m2 & (m3 & -> & He) & -> & _) & ->) & x & u & bd & -> & Hf) Hlet.
    split; [|reflexivity]. intros l i0 i1 Hk Hp. cbn. eapply g_for_expr; eauto using let_weak with g. }
  destruct (is_t t (TReserved R_In)) eqn:E2.
  { eapply k_reread; [exact I|exact C2|exact Ha|exact E2|]. intros s3 Ht3 Hw3 H3 Ha3 C3.
    eapply wpP_bind with (Q1 := fun x s' => s' = s3 /\ lhs = patt_expr x /\ rests_unlocated x);
      [apply to_patt_ok; auto|]. intros p s' (-> & -> & Hp).
    eapply k_tail; [exact C3|apply (more_for_in_ok g); side|].
    intros st i o (m & (m1 & (m2 & (m3 & -> & He) & -> & _) & ->) & e & bd & -> & j1 & j2 & Hf) Hlet.
    split; [|reflexivity]. intros l i0 i1 Hk Hq. cbn. destruct Hf as (Hf1 & Hf2 & Hf3). eapply g_for_in; eauto using let_weak with g. }
  destruct (is_t t (TIdent (NAtom A_Of))) eqn:E3.
  { eapply k_reread; [exact I|exact C2|exact Ha|exact E3|]. intros s3 Ht3 Hw3 H3 Ha3 C3.
    eapply wpP_bind with (Q1 := fun x s' => s' = s3 /\ lhs = patt_expr x /\ rests_unlocated x);
      [apply to_patt_ok; auto|]. intros p s' (-> & -> & Hp).
    eapply k_tail; [exact C3|apply (more_for_of_ok g); side|].
    intros st i o (m & (m1 & (m2 & (m3 & -> & He) & -> & _) & ->) & e & bd & -> & j1 & j2 & Hf) Hlet.
    split; [|reflexivity]. intros l i0 i1 Hk Hq. cbn. destruct Hf as (Hf1 & Hf2 & Hf3). eapply g_for_of; eauto using let_weak with g. }
  eapply k_unexpected; eassumption.
Qed.

Lemma k_pattern {B} g h0 s0 h s Rc (k : patt id -> P B) (Q : B -> pst -> Prop) :
  cur h0 s0 h s Rc -> at_place g s ->
  (forall x h1 s1, W h < W h1 -> cur h0 s0 h1 s1 (seq Rc (fun i o => G g (Name_ true) i o x)) ->
     wpP (k (Simple x)) s1 Q) ->
  wpP (bind (pattern_ V) k) s Q.
Proof.
  intros C Hg K. eapply k_call; [exact C|apply (pattern_ok g); side|]. intros p s1 h1 Hw1 C1.
  destruct (step_some _ _ _ _ _ (proj1 C1)) as (i & o & m & _ & Hp).
  apply pattern_inv in Hp as (x & -> & _). eapply K; [exact Hw1|]. eapply cur_weaken; [exact C1|].
  intros i' o' (m' & Hm & Hp). exists m'. split; [exact Hm|]. apply pattern_inv in Hp as (y & E & Hy).
  injection E as ->. exact Hy.
Qed.
Lemma name_in g bb x i o : G g (Name_ true) i o x -> G (with_in bb g) (Name_ true) i o x.
Proof. apply name_mode. reflexivity. Qed.
#[local] Hint Resolve name_in g_pattern : g.

Lemma for_var_ok g h s t r : At h s -> at_place g s -> L <= W h + b ->
  ahead s = t :: r -> is_t t (TReserved R_Var) = true ->
  wpP (for_var V R) s (post1 h s (forR g)).
Proof.
  intros HA Hg Hb Ha Ht. unfold for_var.
  eapply k_reread; [exact I|exact (cur_refl _ _ _ _ HA)|exact Ha|exact Ht|]. intros s1 Ht1 Hw1 H1 Ha1 C1.
  cbv zeta. eapply (k_pattern g); [exact C1|pl_|]. intros x h2 s2 Hw2 C2.
  kp k_peek. intros t3 s3 r3 Ha3 Hl3 Hs3 S3 C3.
  destruct (is_t t3 (TPunc T_Assign)) eqn:E1.
  { eapply k_reread; [exact I|exact C3|exact Ha3|exact E1|]. intros s4 Ht4 Hw4 H4 Ha4 C4.
    eapply (k_in V src _ _ _ g); [pl_|exact C4|intros s' HA' Hg'; apply assign_ok; side|].
    intros e s5 h5 Hw5 C5. kp k_peek. intros t6 s6 r6 Ha6 Hl6 Hs6 S6 C6.
    destruct (is_t t6 (TPunc T_Comma) || is_t t6 (TPunc T_Semi)) eqn:E2.
    { eapply k_tail; [exact C6|apply (more_for_head_ok g); side|].
      intros st i o (m & (m1 & (m2 & (m3 & (m4 & (m5 & (m6 & -> & ->) & Hx) & -> & _) & ->) & He) & -> & _)
                       & l & ds & tl & u & v & bd & j1 & j2 & -> & -> & Htl & Hs & Hf).
      split; [|reflexivity]. intros l0 i0 i1 Hk Hp. cbn. eapply g_for_var; eauto with g.
      eapply after_commas; [|exact Htl]. unfold dtor_from_simple_init. eapply g_dtor_init; eauto with g. }
    destruct (is_t t6 (TReserved R_In)) eqn:E3.
    { eapply k_reread; [exact I|exact C6|exact Ha6|exact E3|]. intros s7 Ht7 Hw7 H7 Ha7 C7.
      eapply k_tail; [exact C7|apply (more_for_in_ok g); side|].
      intros st i o (m & (m1 & (m2 & (m3 & (m4 & (m5 & (m6 & (m7 & -> & ->) & Hx) & -> & _) & ->) & He) & -> & _) & ->)
                       & e2 & bd & -> & j1 & j2 & Hf1 & Hf2 & Hf3).
      split; [|reflexivity]. intros l0 i0 i1 Hk Hp. cbn. eapply g_for_in_init; eauto with g. }
    eapply k_unexpected; eassumption. }
  destruct (is_t t3 (TPunc T_Comma) || is_t t3 (TPunc T_Semi)) eqn:E2.
  { isN E1. cbn [dtor_from_init_opt]. eapply k_tail; [exact C3|apply (more_for_head_ok g); side|].
    intros st i o (m & (m1 & (m2 & (m3 & -> & ->) & Hx) & -> & r' & ->)
                     & l & ds & tl & u & v & bd & j1 & j2 & -> & -> & Htl & Hs & Hf).
    split; [|reflexivity]. intros l0 i0 i1 Hk Hp. cbn. eapply g_for_var; eauto with g.
    eapply after_commas; [|exact Htl]. apply g_dtor_bare; auto with g. }
  destruct (is_t t3 (TReserved R_In)) eqn:E3.
  { eapply k_reread; [exact I|exact C3|exact Ha3|exact E3|]. intros s7 Ht7 Hw7 H7 Ha7 C7.
    eapply k_tail; [exact C7|apply (more_for_in_ok g); side|].
    intros st i o (m & (m1 & (m2 & (m3 & (m4 & -> & ->) & Hx) & -> & _) & ->)
                     & e2 & bd & -> & j1 & j2 & Hf1 & Hf2 & Hf3).
    split; [|reflexivity]. intros l0 i0 i1 Hk Hp. cbn. eapply g_for_in_var; eauto with g. }
  destruct (is_t t3 (TIdent (NAtom A_Of))) eqn:E4.
  { eapply k_reread; [exact I|exact C3|exact Ha3|exact E4|]. intros s7 Ht7 Hw7 H7 Ha7 C7.
    eapply k_tail; [exact C7|apply (more_for_of_ok g); side|].
    intros st i o (m & (m1 & (m2 & (m3 & (m4 & -> & ->) & Hx) & -> & _) & ->)
                     & e2 & bd & -> & j1 & j2 & Hf1 & Hf2 & Hf3).
    split; [|reflexivity]. intros l0 i0 i1 Hk Hp. cbn. eapply g_for_of_var; eauto with g. }
  eapply k_unexpected; eassumption.
Qed.

Lemma let_fact_not t r : tk_value t <> TIdent (NAtom A_Let) ->
  forall i', eat (TIdent (NAtom A_Let)) (t :: r) i' -> next (fun t => ~ begins_binding t) i'.
Proof. intros H i' (u & E & Hu). exfalso. congruence. Qed.
Lemma let_fact_next t t2 r : first_binding t2 = false ->
  forall i', eat (TIdent (NAtom A_Let)) (t :: t2 :: r) i' -> next (fun t => ~ begins_binding t) i'.
Proof.
  intros H i' (u & E & Hu). assert (i' = t2 :: r) by congruence. subst i'. apply next_cons.
  intros Hb. apply first_binding_iff in Hb. congruence.
Qed.

Lemma for_let_ok g h s t r : At h s -> at_place g s -> L <= W h + b -> L < W h + a ->
  ahead s = t :: r -> is_t t (TIdent (NAtom A_Let)) = true ->
  wpP (for_let V R) s (post1 h s (forR g)).
Proof.
  intros HA Hg Hb Hb' Ha Ht. unfold for_let. pose proof (cur_refl _ _ _ _ HA) as C.
  eapply k_reread; [exact I|exact C|exact Ha|exact Ht|]. intros s1 Ht1 Hw1 H1 Ha1 C1.
  kp k_peek. intros t2 s2 r2 Ha2 Hl2 Hs2 S2 C2.
  destruct (first_binding t2) eqn:E0; cbn [negb].
  2:{ eapply k_unread2; [exact C|exact H1|exact S2|exact Hs2|exact Hl2|]. intros s3 Ha3 C3.
      eapply k_tail; [exact C3|apply (for_expr_ok g); side|].
      intros st i o (m & (m1 & -> & -> & o' & ->) & H). apply H. apply let_fact_next, E0. }
  cbv zeta. eapply (k_pattern g); [exact C2|pl_|]. intros x h3 s3 Hw3 C3.
  kp k_peek. intros t4 s4 r4 Ha4 Hl4 Hs4 S4 C4. apply first_binding_iff in E0.
  destruct (is_t t4 (TPunc T_Assign)) eqn:E1.
  { eapply k_reread; [exact I|exact C4|exact Ha4|exact E1|]. intros s5 Ht5 Hw5 H5 Ha5 C5.
    eapply (k_in V src _ _ _ g); [pl_|exact C5|intros s' HA' Hg'; apply assign_ok; side|].
    intros e s6 h6 Hw6 C6. cbn [dtor_from_init].
    eapply k_tail; [exact C6|apply (more_for_head_ok g); side|].
    intros st i o (m & (m1 & (m2 & (m3 & (m4 & (m5 & (m6 & -> & ->) & -> & r' & ->) & Hx) & -> & _) & ->) & He)
                       & l & ds & tl & u & v & bd & j1 & j2 & -> & -> & Htl & Hs & Hf).
    split; [|reflexivity]. intros l0 i0 i1 Hk Hp. cbn. eapply g_for_let; eauto with g.
    eapply after_commas; [|exact Htl]. unfold dtor_from_simple_init. eapply g_dtor_init; eauto with g. }
  destruct (is_t t4 (TPunc T_Comma) || is_t t4 (TPunc T_Semi)) eqn:E2.
  { isN E1. cbn [dtor_from_init_opt]. eapply k_tail; [exact C4|apply (more_for_head_ok g); side|].
    intros st i o (m & (m1 & (m2 & (m3 & (m4 & -> & ->) & -> & r' & ->) & Hx) & -> & r'' & ->)
                     & l & ds & tl & u & v & bd & j1 & j2 & -> & -> & Htl & Hs & Hf).
    split; [|reflexivity]. intros l0 i0 i1 Hk Hp. cbn. eapply g_for_let; eauto with g.
    eapply after_commas; [|exact Htl]. apply g_dtor_bare; auto with g. }
  destruct (is_t t4 (TReserved R_In)) eqn:E3.
  { eapply k_reread; [exact I|exact C4|exact Ha4|exact E3|]. intros s7 Ht7 Hw7 H7 Ha7 C7.
    eapply k_tail; [exact C7|apply (more_for_in_ok g); side|].
    intros st i o (m & (m1 & (m2 & (m3 & (m4 & (m5 & -> & ->) & -> & r' & ->) & Hx) & -> & _) & ->)
                     & e2 & bd & -> & j1 & j2 & Hf1 & Hf2 & Hf3).
    split; [|reflexivity]. intros l0 i0 i1 Hk Hp. cbn. eapply g_for_in_var; eauto 6 with g. }
  destruct (is_t t4 (TIdent (NAtom A_Of))) eqn:E4.
  { eapply k_reread; [exact I|exact C4|exact Ha4|exact E4|]. intros s7 Ht7 Hw7 H7 Ha7 C7.
    eapply k_tail; [exact C7|apply (more_for_of_ok g); side|].
    intros st i o (m & (m1 & (m2 & (m3 & (m4 & (m5 & -> & ->) & -> & r' & ->) & Hx) & -> & _) & ->)
                     & e2 & bd & -> & j1 & j2 & Hf1 & Hf2 & Hf3).
    split; [|reflexivity]. intros l0 i0 i1 Hk Hp. cbn. eapply g_for_of_var; eauto 6 with g. }
  eapply k_unexpected; eassumption.
Qed.

Lemma for_const_ok g h s t r : At h s -> at_place g s -> L <= W h + b -> L < W h + a ->
  ahead s = t :: r -> is_t t (TReserved R_Const) = true ->
  wpP (for_const V R) s (post1 h s (forR g)).
Proof.
  intros HA Hg Hb Hb' Ha Ht. unfold for_const. pose proof (cur_refl _ _ _ _ HA) as C.
  eapply k_reread; [exact I|exact C|exact Ha|exact Ht|]. intros s1 Ht1 Hw1 H1 Ha1 C1.
  kp k_peek. intros t2 s2 r2 Ha2 Hl2 Hs2 S2 C2.
  destruct (first_binding t2) eqn:E0; cbn [negb].
  2:{ eapply k_unread2; [exact C|exact H1|exact S2|exact Hs2|exact Hl2|]. intros s3 Ha3 C3.
      eapply k_tail; [exact C3|apply (for_expr_ok g); side|].
      intros st i o (m & (m1 & -> & -> & o' & ->) & H). apply H. apply let_fact_next, E0. }
  cbv zeta. eapply (k_pattern g); [exact C2|pl_|]. intros x h3 s3 Hw3 C3.
  kp k_peek. intros t4 s4 r4 Ha4 Hl4 Hs4 S4 C4. apply first_binding_iff in E0.
  destruct (is_t t4 (TPunc T_Assign)) eqn:E1.
  { eapply k_reread; [exact I|exact C4|exact Ha4|exact E1|]. intros s5 Ht5 Hw5 H5 Ha5 C5.
    eapply (k_in V src _ _ _ g) with
      (Rm := fun ds i o => exists e tl i1, ds = const_dtor_from_init (Simple x) e :: tl
         /\ G (with_in false g) Assignment i i1 e /\ after_comma (with_in false g) ConstDeclarator i1 o tl);
      [pl_|exact C5| |].
    { intros s' HA' Hg'. pose proof (cur_refl _ _ _ _ HA') as C'.
      eapply k_call; [exact C'|apply (assign_ok (with_in false g)); side|]. intros e s6 h6 Hw6 C6.
      eapply k_tail0; [exact C6|w_|apply (more_comma_ok _ (with_in false g) ConstDeclarator); try side|].
      { intros. apply const_declarator_ok; assumption. }
      intros ds i o (m & (m1 & -> & He) & tl & -> & Htl & _). exists e, tl, m. auto. }
    intros ds s6 h6 Hw6 C6. kpd k_expect. intros t7 s7 Ht7 Hw7 H7 C7.
    eapply k_tail; [exact C7|apply (more_for_ok g); side|].
    intros st i o (m & (m1 & (m2 & (m3 & (m4 & (m5 & (m6 & (m7 & -> & ->) & -> & r' & ->) & Hx) & -> & _) & ->) & e & tl & j1 & -> & He & Htl) & ->)
                       & u & v & bd & -> & Hf).
    split; [|reflexivity]. intros l0 i0 i1 Hk Hp. cbn. eapply g_for_const; eauto with g.
    eapply after_commas; [|exact Htl]. unfold const_dtor_from_init. eapply g_cdtor; eauto with g. }
  destruct (is_t t4 (TReserved R_In)) eqn:E3.
  { eapply k_reread; [exact I|exact C4|exact Ha4|exact E3|]. intros s7 Ht7 Hw7 H7 Ha7 C7.
    eapply k_tail; [exact C7|apply (more_for_in_ok g); side|].
    intros st i o (m & (m1 & (m2 & (m3 & (m4 & (m5 & -> & ->) & -> & r' & ->) & Hx) & -> & _) & ->)
                     & e2 & bd & -> & j1 & j2 & Hf1 & Hf2 & Hf3).
    split; [|reflexivity]. intros l0 i0 i1 Hk Hp. cbn. eapply g_for_in_var; eauto 6 with g. }
  destruct (is_t t4 (TIdent (NAtom A_Of))) eqn:E4.
  { eapply k_reread; [exact I|exact C4|exact Ha4|exact E4|]. intros s7 Ht7 Hw7 H7 Ha7 C7.
    eapply k_tail; [exact C7|apply (more_for_of_ok g); side|].
    intros st i o (m & (m1 & (m2 & (m3 & (m4 & (m5 & -> & ->) & -> & r' & ->) & Hx) & -> & _) & ->)
                     & e2 & bd & -> & j1 & j2 & Hf1 & Hf2 & Hf3).
    split; [|reflexivity]. intros l0 i0 i1 Hk Hp. cbn. eapply g_for_of_var; eauto 6 with g. }
  eapply k_unexpected; eassumption.
Qed.

Lemma for_statement_ok g h s t r : At h s -> at_place g s -> L <= W h + b ->
  ahead s = t :: r -> is_t t (TReserved R_For) = true ->
  wpP (for_statement V R) s (post1 h s (stR g true)).
Proof.
  intros HA Hg Hb Ha Ht. unfold for_statement.
  eapply k_span with (Rm := fun x i o => forall l, stR g true (stmt_set_loc x l) i o).
  2:{ intros x l i o H. apply H. }
  eapply k_reread; [exact I|exact (cur_refl _ _ _ _ HA)|exact Ha|exact Ht|]. intros s1 Ht1 Hw1 H1 Ha1 C1.
  kpd k_expect. intros t2 s2 Ht2 Hw2 H2 C2. kp k_peek. intros t3 s3 r3 Ha3 Hl3 Hs3 S3 C3.
  assert (Hfin : forall st i o, seq (seq (seq (seq eq (one t)) (one t2)) (look (starts t3))) (forR g st) i o ->
            forall l, stR g true (stmt_set_loc st l) i o).
  { intros st i o (m & (m1 & (m2 & (m3 & -> & ->) & ->) & -> & _) & Hf & Hk) l. split.
    - eapply Hf; eauto with g.
    - rewrite kind_set_loc. exact Hk. }
  destruct (is_t t3 (TReserved R_Var)) eqn:E1.
  { eapply k_tail; [exact C3|eapply (for_var_ok g); [side|side|w_|exact Ha3|exact E1]|exact Hfin]. }
  destruct (is_t t3 (TIdent (NAtom A_Let))) eqn:E2.
  { eapply k_tail; [exact C3|eapply (for_let_ok g); [side|side|w_|w_|exact Ha3|exact E2]|exact Hfin]. }
  destruct (is_t t3 (TReserved R_Const)) eqn:E3.
  { eapply k_tail; [exact C3|eapply (for_const_ok g); [side|side|w_|w_|exact Ha3|exact E3]|exact Hfin]. }
  destruct (is_t t3 (TPunc T_Semi)) eqn:E4.
  { eapply k_reread; [exact I|exact C3|exact Ha3|exact E4|]. intros s4 Ht4 Hw4 H4 Ha4 C4.
    eapply k_tail; [exact C4|apply (more_for_ok g); side|].
    intros st i o (m & (m1 & (m2 & (m3 & (m4 & -> & ->) & ->) & -> & _) & ->) & u & v & bd & -> & Hf) l.
    split; [|reflexivity]. cbn. eapply g_for; eauto with g. }
  isN E2. eapply k_tail; [exact C3|apply (for_expr_ok g); side|].
  intros st i o (m & (m1 & Hm & -> & r' & ->) & Hf). apply Hfin. exists (t3 :: r'). split.
  - exists (t3 :: r'). split; [exact Hm|]. split; [reflexivity|]. exists r'. reflexivity.
  - apply Hf. apply let_fact_not, E2.
Qed.

(** ** Switch *)

Lemma case_ok g h s t r : At h s -> at_place g s -> L <= W h + b ->
  ahead s = t :: r -> is_t t (TReserved R_Case) = true ->
  wpP (case_ V R) s (post1 h s (fun c i o => G g Case_ i o c /\ is_default c = false)).
Proof.
  intros HA Hg Hb Ha Ht. unfold case_.
  eapply k_span with (Rm := fun x i o => forall l, G g Case_ i o (case_set_loc x l) /\ is_default (case_set_loc x l) = false).
  2:{ intros x l i o H. apply H. }
  eapply k_reread; [exact I|exact (cur_refl _ _ _ _ HA)|exact Ha|exact Ht|]. intros s1 Ht1 Hw1 H1 Ha1 C1.
  eapply (k_in V src _ _ _ g); [pl_|exact C1|intros s' HA' Hg'; apply expression_ok; side|].
  intros e s2 h2 Hw2 C2. kpd k_expect. intros t3 s3 Ht3 Hw3 H3 C3.
  eapply k_call0; [exact C3|apply (statement_list_ok g); side|]. intros is_ s4 h4 Hw4 C4.
  eapply k_ret; [exact C4|w_|].
  intros i o (m & (m1 & (m2 & (m3 & -> & ->) & He) & ->) & His) l. split; [|reflexivity]. cbn.
  eapply g_case; eauto with g.
Qed.
Lemma default_ok g h s t r : At h s -> at_place g s -> L <= W h + b ->
  ahead s = t :: r -> is_t t (TReserved R_Default) = true ->
  wpP (default_ V R) s (post1 h s (fun c i o => G g Case_ i o c /\ is_default c = true)).
Proof.
  intros HA Hg Hb Ha Ht. unfold default_.
  eapply k_span with (Rm := fun x i o => forall l, G g Case_ i o (case_set_loc x l) /\ is_default (case_set_loc x l) = true).
  2:{ intros x l i o H. apply H. }
  eapply k_reread; [exact I|exact (cur_refl _ _ _ _ HA)|exact Ha|exact Ht|]. intros s1 Ht1 Hw1 H1 Ha1 C1.
  kpd k_expect. intros t3 s3 Ht3 Hw3 H3 C3.
  eapply k_call0; [exact C3|apply (statement_list_ok g); side|]. intros is_ s4 h4 Hw4 C4.
  eapply k_ret; [exact C4|w_|].
  intros i o (m & (m1 & (m2 & -> & ->) & ->) & His) l. split; [|reflexivity]. cbn.
  eapply g_default; eauto with g.
Qed.

Lemma switch_cases_ok g h s : At h s -> at_place g s -> L <= W h + b ->
  wpP (switch_cases V R) s (post1 h s (fun cs i o => exists i1 i2, op_ T_LBrace i i1
    /\ G g Cases i1 i2 cs /\ op_ T_RBrace i2 o /\ length (filter is_default cs) <= 1)).
Proof.
  intros HA Hg Hb. unfold switch_cases. pose proof (cur_refl _ _ _ _ HA) as C.
  kpd k_expect. intros t1 s1 Ht1 Hw1 H1 C1.
  eapply k_call0 with (Rm := fun cs i o => G g Cases i o cs /\ length (filter is_default cs) <= 1); [exact C1| |].
  - eapply (k_loop V src (r_fuel R) _
      (fun cf i o => (forall cs o', G g Cases o o' cs -> G g Cases i o' (fst cf ++ cs))
                     /\ length (filter is_default (fst cf)) = if snd cf : bool then 1 else 0)); [side|w_| |].
    + intros i o ->. split; [auto|reflexivity].
    + intros [cs fd] h2 s2 C2. cbn [fst snd]. kp k_peek. intros t3 s3 r3 Ha3 Hl3 Hs3 S3 C3.
      destruct (is_t t3 (TReserved R_Case)) eqn:E1.
      { eapply k_call; [exact C3|eapply (case_ok g); [side|side|w_|exact Ha3|exact E1]|]. intros c s4 h4 Hw4 C4.
        eapply k_loop_next; [exact C4|w_|].
        intros i o (m & (m1 & [Hm Hd] & -> & _) & Hc & Hdc). cbn [fst snd] in *. split.
        - intros cs' o' H. rewrite <- app_assoc. apply Hm. eapply g_cases_cons; eassumption.
        - rewrite filter_app, app_length, Hd. cbn. rewrite Hdc. cbn. lia. }
      destruct (is_t t3 (TReserved R_Default)) eqn:E2.
      { destruct fd.
        - eapply k_reread; [exact I|exact C3|exact Ha3|exact E2|]. intros. apply wpP_err.
        - eapply k_call; [exact C3|eapply (default_ok g); [side|side|w_|exact Ha3|exact E2]|]. intros c s4 h4 Hw4 C4.
          eapply k_loop_next; [exact C4|w_|].
          intros i o (m & (m1 & [Hm Hd] & -> & _) & Hc & Hdc). cbn [fst snd] in *. split.
          + intros cs' o' H. rewrite <- app_assoc. apply Hm. eapply g_cases_cons; eassumption.
          + rewrite filter_app, app_length, Hd. cbn. rewrite Hdc. reflexivity. }
      eapply k_loop_done; [exact C3|]. intros i o (m & [Hm Hd] & -> & _). cbn [fst snd] in *. split.
      * rewrite <- (app_nil_r cs). apply Hm, g_cases_nil.
      * rewrite Hd. destruct fd; lia.
  - intros cs s2 h2 Hw2 C2. kpd k_expect. intros t3 s3 Ht3 Hw3 H3 C3. eapply k_ret; [exact C3|w_|].
    intros i o (m & (m1 & (m2 & -> & ->) & Hcs & Hd) & ->). exists m1, (t3 :: o). auto with g.
Qed.

Lemma switch_statement_ok g h s t r : At h s -> at_place g s -> L <= W h + b ->
  ahead s = t :: r -> is_t t (TReserved R_Switch) = true ->
  wpP (switch_statement V R) s (post1 h s (stR g false)).
Proof.
  intros HA Hg Hb Ha Ht. unfold switch_statement.
  eapply k_span with (Rm := fun x i o => forall l, stR g false (stmt_set_loc x l) i o).
  2:{ intros x l i o H. apply H. }
  eapply k_reread; [exact I|exact (cur_refl _ _ _ _ HA)|exact Ha|exact Ht|]. intros s1 Ht1 Hw1 H1 Ha1 C1.
  eapply k_call; [exact C1|apply (paren_expression_ok g); side|]. intros e s2 h2 Hw2 C2.
  apply wpP_get_context.
  apply (wpP_modify V src (fun s0 => set_context (set_switch true (p_context s0)) s0)).
  assert (HA2 := cur_At _ _ _ _ _ _ _ C2). assert (Hg2 : at_place g s2) by pl_.
  set (s3 := set_context (set_switch true (p_context s2)) s2).
  assert (HA3 : At h2 s3) by (eapply At_lexer; [exact HA2|reflexivity]).
  eapply wpP_bind; [apply (switch_cases_ok (in_switch g)); [exact HA3|apply at_place_switch, Hg2|w_]|].
  intros cs s4 (h4 & S4 & Hw4 & Hsub4).
  apply (wpP_modify V src (fun s0 => set_context (set_switch (cx_switch (p_context s2)) (p_context s0)) s0)).
  set (s5 := set_context _ s4).
  assert (Hsub5 : sub s5 s2).
  { destruct Hsub4 as (B1 & B2 & B3 & B4 & B5 & B6 & B7). subst s5 s3. cbn in *. unfold sub. cbn. auto 10. }
  assert (S5 := step_lexer _ _ _ _ _ _ _ s2 s5 S4 eq_refl eq_refl).
  assert (C5 := cur_seq _ _ _ _ _ _ _ _ _ _ C2 (conj S5 Hsub5)).
  eapply k_ret; [exact C5|w_|].
  intros i o (m & (m1 & (m2 & -> & ->) & i1 & i2 & Hlp & He & Hrp) & j1 & j2 & Hlb & Hcs & Hrb & Hd) l.
  split; [|reflexivity]. cbn. eapply g_switch; eauto with g.
Qed.

(** ** Items *)

Lemma let_declaration_ok g start t h s : At h s -> at_place g s -> L < W h + b ->
  wpP (let_declaration V R start) s (post1 h s (fun d i o => forall i0 : tokens,
     tk_value t = TIdent (NAtom A_Let) -> next begins_binding i -> i0 = t :: i -> G g Declaration i0 o d)).
Proof.
  intros HA Hg Hb. unfold let_declaration. pose proof (cur_refl _ _ _ _ HA) as C.
  eapply k_call; [exact C|apply (comma_separated_ok g Declarator); try side|].
  { intros. apply declarator_ok; assumption. }
  intros ds s2 h2 Hw2 C2. eapply k_semi; [exact HV|exact C2|w_|].
  intros sm l i o (m & (m1 & -> & Hds & _) & Hsm) i0 Ht Hnx ->. cbn. eapply g_let; eauto with g.
Qed.

Lemma expr_stmt_item g t r o st : tk_value t <> TPunc T_LBrace -> tk_value t <> TReserved R_Function ->
  (forall i', eat (TIdent (NAtom A_Let)) (t :: r) i' -> next (fun t => ~ begins_binding t) i') ->
  ~ loop_head t ->
  (exists l e sm i1, st = S_Expr l e sm /\ G (with_in true g) Expression (t :: r) i1 e /\ ends false i1 o sm) ->
  G g Statement (t :: r) o st /\ head_fact (t :: r) st.
Proof.
  intros H1 H2 H3 H4 (l & e & sm & i1 & -> & He & Hsm). split.
  - eapply g_expr_stmt; [apply next_cons; auto|exact H3|exact He|exact Hsm].
  - eapply kind_head; [reflexivity|]. split; [contradiction|discriminate].
Qed.

Lemma ident_item_ok g d h s t r n : At h s -> at_place g s -> L < W h + a ->
  ahead s = t :: r -> tk_value t = TIdent n ->
  wpP (ident_item V R d) s (post1 h s (itemR g d)).
Proof.
  intros HA Hg Hb Ha Ht. unfold ident_item. pose proof (cur_refl _ _ _ _ HA) as C.
  eapply k_reread_token; [exact C|exact Ha|]. intros s1 Hw1 H1 Ha1 C1.
  kp k_peek_op. intros t2 s2 r2 Ha2 Hl2 Hs2 S2 C2.
  destruct (is_t t2 (TPunc T_Colon)) eqn:E1.
  { unfold new_id_from_token, as_ident. rewrite Ht.
    eapply (k_new_id V src _ _ _ g); [pl_|exact C2|]. intros s3 Hn Ha3 Hs3 C3.
    eapply k_call; [exact C3|eapply (labelled_statement_ok g); [side|side|w_| |exact E1]|].
    { rewrite Ha3. exact Ha2. }
    intros st s4 h4 Hw4 C4. eapply k_ret; [exact C4|w_|].
    intros i o (m & (m1 & (m2 & -> & ->) & -> & r' & ->) & i1 & ls & j & bd & Hc & Hls & -> & Hbd).
    destruct Hc as (tc & Ec & Htc). cbn [itemR].
    destruct (wrap_cons (Id (Some (tk_loc t)) n) ls bd) as (l & Ew). split.
    - eapply (wrap_ok (is_loop bd) (Id (Some (tk_loc t)) n :: ls)); [|exact Hbd|reflexivity].
      cbn [labelsR]. exists t, tc, i1, n. rewrite Ec. auto 8.
    - rewrite Ew. cbn [head_fact]. exists t, tc, i1, n. rewrite Ec. auto. }
  isN E1.
  destruct (first_binding t2 && is_t t (TIdent (NAtom A_Let))) eqn:E2.
  { apply andb_true_iff in E2 as [E2 E3]. isP E3. apply first_binding_iff in E2.
    destruct d; cbn [negb].
    - eapply k_call; [exact C2|apply (let_declaration_ok g _ t); side|]. intros dl s3 h3 Hw3 C3.
      eapply k_ret; [exact C3|w_|]. intros i o (m & (m1 & (m2 & -> & ->) & -> & r' & ->) & Hd). split; [reflexivity|].
      apply Hd; auto with g.
    - eapply k_unexpected; eassumption. }
  eapply k_unread2; [exact C|exact H1|exact S2|exact Hs2|exact Hl2|]. intros s3 Ha3 C3.
  eapply k_call; [exact C3|apply (expression_statement_ok g); side|]. intros st s4 h4 Hw4 C4.
  eapply k_ret; [exact C4|w_|]. intros i o (m & (m1 & -> & -> & o' & ->) & Hst). cbn [itemR].
  apply expr_stmt_item; [congruence|congruence| | |exact Hst].
  - apply andb_false_iff in E2 as [E2|E2]; [apply let_fact_next, E2|]. isN E2. apply let_fact_not, E2.
  - unfold loop_head, token_label_type. rewrite Ht. discriminate.
Qed.

Lemma stmt_list_item_ok g d h s : At h s -> at_place g s -> L < W h + a ->
  wpP (stmt_list_item V R d) s (post1 h s (itemR g d)).
Proof.
  intros HA Hg Hb. unfold stmt_list_item. pose proof (cur_refl _ _ _ _ HA) as C.
  kp k_peek. intros t s1 r Ha Hl Hs S1 C1.
  assert (Hst : forall (m : P stmt) k, wpP m s1 (post1 h s1 (stR g k)) -> (loop_head t <-> k = true) ->
            wpP (bind m (fun st => ret (I_Stmt st))) s1 (post1 h s (itemR g d))).
  { intros m k Hm Hk. eapply k_call; [exact C1|exact Hm|]. intros st s2 h2 Hw2 C2. eapply k_ret; [exact C2|w_|].
    intros i o (m1 & (m2 & -> & -> & r' & ->) & Hst & Hkd). split; [exact Hst|]. eapply kind_head; eassumption. }
  assert (Hloop : forall v, tk_value t = v -> (match v with TReserved R_While | TReserved R_Do | TReserved R_For => False | _ => True end) ->
            (loop_head t <-> false = true)).
  { intros v <- Hv. unfold loop_head, token_label_type. destruct (tk_value t) as [rr| | | | |]; try (split; discriminate).
    destruct rr; try (split; discriminate); contradiction. }
  assert (HA1 := cur_At _ _ _ _ _ _ _ C1). assert (Hg1 : at_place g s1) by pl_. assert (Hb1 : L <= W h + b) by w_.
  destruct (is_t t (TReserved R_Function)) eqn:E1.
  { destruct d; cbn [negb]; [|eapply k_unexpected; eassumption].
    eapply k_call; [exact C1|eapply (function_declaration_ok g); [exact HA1|exact Hg1|exact Hb1|exact Ha|exact E1]|].
    intros dl s2 h2 Hw2 C2. eapply k_ret; [exact C2|w_|]. intros i o (m & (m1 & -> & -> & _) & Hd). split; auto. }
  isN E1. destruct (is_t t (TPunc T_LBrace)) eqn:E2.
  { isP E2. eapply k_call; [exact C1|apply (block_ok g); side|]. intros bl s2 h2 Hw2 C2. eapply k_ret; [exact C2|w_|].
    intros i o (m & (m1 & -> & -> & r' & ->) & Hbl). split; [apply g_block, Hbl|].
    eapply kind_head; [reflexivity|]. eapply Hloop; [exact E2|exact I]. }
  isN E2. destruct (is_t t (TReserved R_Var)) eqn:E3.
  { eapply Hst; [eapply var_statement_ok; eassumption|]. isP E3. eapply Hloop; [exact E3|exact I]. }
  destruct (is_t t (TReserved R_Const)) eqn:E4.
  { destruct d; cbn [negb]; [|eapply k_unexpected; eassumption].
    eapply k_call; [exact C1|eapply (const_declaration_ok g); [exact HA1|exact Hg1|exact Hb1|exact Ha|exact E4]|].
    intros dl s2 h2 Hw2 C2. eapply k_ret; [exact C2|w_|]. intros i o (m & (m1 & -> & -> & _) & Hd). split; auto. }
  destruct (is_t t (TPunc T_Semi)) eqn:E5.
  { eapply Hst; [eapply empty_statement_ok; eassumption|]. isP E5. eapply Hloop; [exact E5|exact I]. }
  destruct (is_t t (TReserved R_If)) eqn:E6.
  { eapply Hst; [eapply if_statement_ok; eassumption|]. isP E6. eapply Hloop; [exact E6|exact I]. }
  destruct (is_t t (TReserved R_Continue)) eqn:E7.
  { eapply Hst; [eapply continue_statement_ok; eassumption|]. isP E7. eapply Hloop; [exact E7|exact I]. }
  destruct (is_t t (TReserved R_Break)) eqn:E8.
  { eapply Hst; [eapply break_statement_ok; eassumption|]. isP E8. eapply Hloop; [exact E8|exact I]. }
  destruct (is_t t (TReserved R_Return)) eqn:E9.
  { eapply Hst; [eapply return_statement_ok; eassumption|]. isP E9. eapply Hloop; [exact E9|exact I]. }
  destruct (is_t t (TReserved R_With)) eqn:E10.
  { eapply Hst; [eapply with_statement_ok; eassumption|]. isP E10. eapply Hloop; [exact E10|exact I]. }
  destruct (is_t t (TReserved R_Switch)) eqn:E11.
  { eapply Hst; [eapply switch_statement_ok; eassumption|]. isP E11. eapply Hloop; [exact E11|exact I]. }
  destruct (is_t t (TReserved R_Throw)) eqn:E12.
  { eapply Hst; [eapply throw_statement_ok; eassumption|]. isP E12. eapply Hloop; [exact E12|exact I]. }
  destruct (is_t t (TReserved R_Try)) eqn:E13.
  { eapply Hst; [eapply try_statement_ok; eassumption|]. isP E13. eapply Hloop; [exact E13|exact I]. }
  destruct (is_t t (TReserved R_While)) eqn:E14.
  { eapply Hst; [eapply while_statement_ok; eassumption|]. isP E14. unfold loop_head, token_label_type. rewrite E14. tauto. }
  destruct (is_t t (TReserved R_Do)) eqn:E15.
  { eapply Hst; [eapply do_statement_ok; eassumption|]. isP E15. unfold loop_head, token_label_type. rewrite E15. tauto. }
  destruct (is_t t (TReserved R_For)) eqn:E16.
  { eapply Hst; [eapply for_statement_ok; eassumption|]. isP E16. unfold loop_head, token_label_type. rewrite E16. tauto. }
  destruct (is_t t (TReserved R_Debugger)) eqn:E17.
  { eapply Hst; [eapply debugger_statement_ok; eassumption|]. isP E17. eapply Hloop; [exact E17|exact I]. }
  destruct (as_ident t) as [n|] eqn:E18.
  - apply as_ident_some in E18.
    eapply k_tail; [exact C1|eapply (ident_item_ok g); [exact HA1|exact Hg1|exact Hb|exact Ha|exact E18]|].
    intros it i o (m & (m1 & -> & -> & _) & Hit). exact Hit.
  - eapply k_call; [exact C1|apply (expression_statement_ok g); side|]. intros st s4 h4 Hw4 C4.
    eapply k_ret; [exact C4|w_|]. intros i o (m & (m1 & -> & -> & o' & ->) & He). cbn [itemR].
    apply expr_stmt_item; [exact E2|exact E1| | |exact He].
    + apply let_fact_not. apply as_ident_none, E18.
    + isN E14. isN E15. isN E16. unfold loop_head, token_label_type.
      destruct (tk_value t) as [rr| | | | |]; try discriminate. destruct rr; try discriminate; congruence.
Qed.

End Stmt.
