(** The parser's methods for expressions and functions derive trees of the grammar. *)
From Coq Require Import String Ascii List NArith Arith Bool Lia.
From Verif Require Import Base Chars F64 Word Token Reader Lexer Punc Ast Track Cover Stack PState Parser Wp
  SpecReader ReaderProofs SpecLexer SpecClient LexWp LexLit LexerProofs LexTheorems SpecStack StackProofs
  SpecTree CoverProofs SpecGrammar ParserWp ParserK ParserOps.
Import ListNotations.
Local Open Scope nat_scope.

Lemma eat_cons d t o : tk_value t = d -> eat d (t :: o) o.
Proof. intros H. exists t. auto. Qed.
Lemma op_cons p t o : tk_value t = TPunc p -> op_ p (t :: o) o.
Proof. apply eat_cons. Qed.
Lemma kw_cons r t o : tk_value t = TReserved r -> kw r (t :: o) o.
Proof. apply eat_cons. Qed.
Lemma next_cons (Pr : token -> Prop) t o : Pr t -> next Pr (t :: o).
Proof. intros H. exists t, o. auto. Qed.
Lemma not_next_cons d t o : tk_value t <> d -> not_next d (t :: o).
Proof. exact (next_cons (fun t => tk_value t <> d) t o). Qed.
Create HintDb g.
#[export] Hint Resolve eat_cons op_cons kw_cons next_cons not_next_cons : g.

(** What may follow the first element of a list separated by commas. *)
Definition after_comma {A} (g : place) (n : nt A) (i o : tokens) (l : list A) : Prop :=
  (l = [] /\ i = o) \/ exists i1, op_ T_Comma i i1 /\ G g (Commas n) i1 o l.
Lemma after_commas {A} g (n : nt A) i i1 o a l : G g n i i1 a -> after_comma g n i1 o l ->
  G g (Commas n) i o (a :: l).
Proof.
  intros Ha [[-> ->]|(i2 & Hc & Hl)]; [apply g_one, Ha|]. eapply g_more; eassumption.
Qed.

Definition parens (g : place) (e : expr) : rel := fun i o =>
  exists i1 i2, op_ T_LParen i i1 /\ G (with_in true g) Expression i1 i2 e /\ op_ T_RParen i2 o.

(** The first token of a labelled statement and of a loop. *)
Definition loop_head (t : token) : Prop := token_label_type t = LT_Iteration.
Definition head_fact (i : tokens) (st : stmt) : Prop :=
  match st with
  | S_Label _ _ _ => exists t1 t2 r n, i = t1 :: t2 :: r /\ tk_value t1 = TIdent n /\ tk_value t2 = TPunc T_Colon
  | _ => exists t r, i = t :: r /\ (loop_head t <-> is_loop st = true)
  end.
Definition itemR (g : place) (d : bool) (it : item) : rel := fun i o =>
  match it with
  | I_Stmt st => G g Statement i o st /\ head_fact i st
  | I_Decl dl => d = true /\ G g Declaration i o dl
  end.
Lemma itemR_item g it i o : itemR g true it i o -> G g (Item true) i o it.
Proof. destruct it as [d|s]; intros [H1 H2]; [apply g_item_decl, H2|apply g_item_stmt, H1]. Qed.

(** [expression_continuation] tells the tokens that continue an expression. *)
Lemma continues_iff t : expression_continuation t = true <-> continues t.
Proof.
  unfold expression_continuation, continues.
  destruct (tk_value t) as [r|p|n|s|r|n].
  - split.
    + destruct r; try discriminate; intros _; left; cbn; auto.
    + intros [[H|[H|[]]]|[[_ [H|[H|[]]]]|(p & H & _)]]; try discriminate; injection H as <-; reflexivity.
  - split.
    + intros H. destruct p; try discriminate H;
        try (right; right; eexists; split; [reflexivity|]; cbn; intuition discriminate);
        right; left; (split; [destruct (tk_newline t); [discriminate H|reflexivity]|cbn; auto]).
    + intros [[H|[H|[]]]|[[Hn [H|[H|[]]]]|(q & H & Hq)]]; try discriminate.
      * injection H as <-. rewrite Hn. reflexivity.
      * injection H as <-. rewrite Hn. reflexivity.
      * injection H as <-. destruct p; try reflexivity; exfalso; apply Hq; cbn; tauto.
  - split; [discriminate|]. intros [[H|[H|[]]]|[[_ [H|[H|[]]]]|(p & H & _)]]; discriminate.
  - split; [discriminate|]. intros [[H|[H|[]]]|[[_ [H|[H|[]]]]|(p & H & _)]]; discriminate.
  - split; [discriminate|]. intros [[H|[H|[]]]|[[_ [H|[H|[]]]]|(p & H & _)]]; discriminate.
  - split; [discriminate|]. intros [[H|[H|[]]]|[[_ [H|[H|[]]]]|(p & H & _)]]; discriminate.
Qed.
Lemma first_binding_iff t : first_binding t = true <-> begins_binding t.
Proof.
  unfold first_binding, begins_binding. destruct (tk_value t) as [r|p|n|s|r|n].
  - split; [discriminate|]. intros [H|[H|(n & H)]]; discriminate.
  - split; [destruct p; try discriminate; auto|].
    intros [H|[H|(n & H)]]; try discriminate; injection H as ->; reflexivity.
  - split; [discriminate|]. intros [H|[H|(m & H)]]; discriminate.
  - split; [discriminate|]. intros [H|[H|(n & H)]]; discriminate.
  - split; [discriminate|]. intros [H|[H|(n & H)]]; discriminate.
  - split; [intros _; right; right; eexists; reflexivity|reflexivity].
Qed.
Lemma follow_iff t : follow_statement_list t = true <-> ends_list t.
Proof.
  unfold follow_statement_list, ends_list. destruct (tk_value t) as [r|p|n|s|r|n]; cbn.
  - split; [destruct r; try discriminate; auto|]. intros [H|[H|[H|[H|[]]]]]; try discriminate; injection H as <-; reflexivity.
  - split; [destruct p; try discriminate; auto|]. intros [H|[H|[H|[H|[]]]]]; try discriminate; injection H as <-; reflexivity.
  - split; [discriminate|]. intros [H|[H|[H|[H|[]]]]]; discriminate.
  - split; [discriminate|]. intros [H|[H|[H|[H|[]]]]]; discriminate.
  - split; [discriminate|]. intros [H|[H|[H|[H|[]]]]]; discriminate.
  - split; [discriminate|]. intros [H|[H|[H|[H|[]]]]]; discriminate.
Qed.
Lemma as_ident_some t n : as_ident t = Some n -> tk_value t = TIdent n.
Proof. unfold as_ident. destruct (tk_value t); try discriminate. congruence. Qed.
Lemma as_ident_none t n : as_ident t = None -> tk_value t <> TIdent n.
Proof. unfold as_ident. destruct (tk_value t); congruence. Qed.

Section Expr.
Context (V : env) (src : str).
Context (HV : ucd_ok V).
Notation L := (length src).
Notation At := (At V src).
Notation wpP := (wpP V src).
Notation readQ := (readQ V src).
Notation cur := (cur V src).
Notation post1 := (post1 V src).
Notation post0 := (post0 V src).

(** What the recursive methods are supposed to do, as long as the tokens left are
    fewer than [a], respectively [b]. *)
Record rec_ok (a b : nat) (R : recs) : Prop := {
  rk_le : b <= a /\ a <= S b;
  rk_fuel : b < r_fuel R;
  rk_assign : forall g h s, At h s -> at_place g s -> L < W h + a ->
    wpP (r_assign R) s (post1 h s (fun e i o => G g Assignment i o e));
  rk_item : forall g d h s, At h s -> at_place g s -> L < W h + b ->
    wpP (r_item R d) s (post1 h s (itemR g d)) }.

Context (a b : nat) (R : recs) (HR : rec_ok a b R).

(** Routine side conditions. *)
Ltac at_ := first [eassumption | eapply cur_At; eassumption].
Ltac pl_ :=
  first [ eassumption
        | match goal with
          | C : ParserK.cur _ _ _ ?x _ ?s _ |- at_place _ ?s =>
              assert_fails (constr_eq x s); solve [eapply cur_place; [|exact C]; pl_]
          end ].
Ltac weigh :=
  repeat match goal with
         | H : weighs ?h ?t |- _ =>
             first [ let E := fresh "E" in
                     assert (E : W (h ++ [t]) = S (W h)) by (apply H; congruence); clear H
                   | clear H ]
         end.
Ltac bounds :=
  repeat match goal with
         | C : ParserK.cur _ _ _ _ _ _ _ |- _ => apply cur_W in C; destruct C
         end.
Ltac w_ := solve [ weigh; bounds; pose proof (rk_le _ _ _ HR); pose proof (rk_fuel _ _ _ HR); lia ].
Ltac side := first [exact HV | exact I | at_ | pl_ | w_ | assumption].
Ltac kp lem := eapply lem; [exact HV|eassumption|].
Ltac kpd lem := eapply lem; [exact HV|exact I|eassumption|].

Lemma assign_ok g h s : At h s -> at_place g s -> L < W h + a ->
  wpP (r_assign R) s (post1 h s (fun e i o => G g Assignment i o e)).
Proof. apply (rk_assign _ _ _ HR). Qed.

Lemma more_comma_ok {A} g (n : nt A) (f : P A) first h s : At h s -> at_place g s -> L <= W h + b ->
  (forall h s, At h s -> at_place g s -> L < W h + b ->
     wpP f s (post1 h s (fun x i o => G g n i o x))) ->
  wpP (more_comma V R first f) s
      (post0 h s (fun l i o => exists tl, l = first :: tl /\ after_comma g n i o tl
                                          /\ not_next (TPunc T_Comma) o)).
Proof.
  intros HA Hg Hb Hf. unfold more_comma.
  eapply (k_loop V src (r_fuel R) _
            (fun l i o => exists pr, l = first :: pr
               /\ forall tl o', after_comma g n o o' tl -> after_comma g n i o' (pr ++ tl))); [side|side| |].
  - intros i o ->. exists []. auto.
  - intros acc h1 s1 C. eapply k_matches; [exact HV|exact I|exact C| |].
    + intros t s2 Ht Hw C2. eapply k_call; [exact C2|apply Hf; side|].
      intros x s3 h3 Hw3 C3. eapply k_loop_next; [exact C3|w_|].
      intros i o (m & (m1 & (pr & -> & Hp) & ->) & Hx). eexists. split; [reflexivity|]. intros tl o' Htl.
      rewrite <- app_assoc. cbn [app]. apply Hp. right. eexists. split; [apply op_cons, Ht|].
      eapply after_commas; eassumption.
    + intros t s2 r Ht Ha C2. eapply k_loop_done; [exact C2|].
      intros i o (m & (pr & -> & Hp) & -> & r' & ->). eexists. split; [reflexivity|].
      split; [|apply not_next_cons, Ht]. rewrite <- (app_nil_r pr). apply Hp. left. auto.
Qed.

Lemma more_expressions_ok g first h s : At h s -> at_place g s -> L <= W h + b ->
  wpP (more_expressions V R first) s
      (post0 h s (fun e i o => forall i0, G g Assignment i0 i first -> G g Expression i0 o e)).
Proof.
  intros HA Hg Hb. unfold more_expressions. pose proof (cur_refl _ _ _ _ HA) as C.
  kp k_peek. intros t s1 r Ha Hl Hs S1 C1.
  destruct (is_t t (TPunc T_Comma)) eqn:E; cbn [negb].
  - apply is_t_true in E; [|exact I].
    eapply k_call0; [exact C1|apply (more_comma_ok g Assignment); try side|].
    { intros. apply assign_ok; try side. }
    intros elts s2 h2 Hw C2. unfold p_vec_span.
    assert (Hend : forall l, wpP (ret (E_Seq l elts)) s2
      (post0 h s (fun e i o => forall i0, G g Assignment i0 i first -> G g Expression i0 o e))).
    { intros l. eapply k_ret0; [exact C2|].
      intros i o (m & (m1 & -> & -> & r' & ->) & tl & -> & [[-> <-]|(i1 & Hc & Htl)] & Hn) i0 Hi.
      - destruct Hn as (t' & o' & Et & Hn). injection Et as -> ->. contradiction.
      - eapply g_seq; eassumption. }
    destruct (map expr_loc elts) as [|l ls]; cbn [p_vec_span].
    + apply wpP_assoc. apply wpP_posn. intros p. apply Hend.
    + apply Hend.
  - apply is_t_false in E; [|exact I]. eapply k_ret0; [exact C1|].
    intros i o (m & -> & -> & r' & ->) i0 Hi. apply g_expr; [exact Hi|auto with g].
Qed.

Lemma expression_ok g h s : At h s -> at_place g s -> L < W h + a ->
  wpP (expression V R) s (post1 h s (fun e i o => G g Expression i o e)).
Proof.
  intros HA Hg Ha. unfold expression. pose proof (cur_refl _ _ _ _ HA) as C.
  eapply k_call; [exact C|apply assign_ok; side|]. intros e s1 h1 Hw C1.
  eapply k_tail0; [exact C1|w_|apply more_expressions_ok; side|].
  intros e' i o (m & (m1 & -> & He) & Hm). apply Hm, He.
Qed.

Lemma paren_expression_ok g h s : At h s -> at_place g s -> L <= W h + b ->
  wpP (paren_expression V R) s (post1 h s (fun e i o => parens g e i o)).
Proof.
  intros HA Hg Hb. unfold paren_expression. pose proof (cur_refl _ _ _ _ HA) as C.
  kpd k_expect. intros t s1 Ht Hw H1 C1.
  eapply (k_in V src _ _ _ g); [pl_|exact C1|intros s' HA' Hg'; apply expression_ok; side|].
  intros e s2 h2 Hw2 C2. kpd k_expect. intros t3 s3 Ht3 Hw3 H3 C3.
  eapply k_ret; [exact C3|w_|].
  intros i o (m & (m1 & (m2 & -> & ->) & He) & ->). exists m1, (t3 :: o). auto with g.
Qed.

(** ** Names and patterns *)

Lemma p_id_ok g bd h s : At h s -> at_place g s ->
  wpP (p_id V bd) s (post1 h s (fun x i o => G g (Name_ bd) i o x)).
Proof.
  intros HA Hg. unfold p_id. pose proof (cur_refl _ _ _ _ HA) as C.
  kp k_read. intros t s1 Hw1 H1 C1. destruct (as_ident t) as [n|] eqn:E; [|apply wpP_err].
  apply as_ident_some in E.
  apply wpP_eta. eapply (k_new_id V src _ _ _ g); [pl_|exact C1|]. intros s2 Hn Ha Hs C2.
  eapply k_ret; [exact C2|w_|]. intros i o (m & -> & ->). apply g_name; assumption.
Qed.

Lemma p_id_opt_ok g bd h s : At h s -> at_place g s ->
  wpP (p_id_opt V bd) s
      (post0 h s (fun x i o => match x with Some x => G g (Name_ bd) i o x | None => i = o end)).
Proof.
  intros HA Hg. unfold p_id_opt. pose proof (cur_refl _ _ _ _ HA) as C.
  kp k_read. intros t s1 Hw1 H1 C1. destruct (as_ident t) as [n|] eqn:E.
  - apply as_ident_some in E. eapply (k_new_id V src _ _ _ g); [pl_|exact C1|]. intros s2 Hn Ha Hs C2.
    eapply k_ret0; [exact C2|]. intros i o (m & -> & ->). apply g_name; assumption.
  - eapply k_unread; [exact C|exact H1|]. intros s2 Ha C2. eapply k_ret0; [exact C2|].
    intros i o (m & -> & -> & _). reflexivity.
Qed.

Lemma binding_pattern_ok h s (Q : cpatt id -> pst -> Prop) : At h s -> wpP (binding_pattern V) s Q.
Proof.
  intros HA. unfold binding_pattern. pose proof (cur_refl _ _ _ _ HA) as C.
  kp k_peek. intros t s1 r Ha Hl Hs S1 C1. destruct (negb (first_binding t)).
  - eapply k_unexpected; eassumption.
  - apply wpP_err.
Qed.

Lemma pattern_ok g h s : At h s -> at_place g s ->
  wpP (pattern_ V) s (post1 h s (fun x i o => G g Pattern i o x)).
Proof.
  intros HA Hg. unfold pattern_. pose proof (cur_refl _ _ _ _ HA) as C.
  kp k_peek. intros t s1 r Ha Hl Hs S1 C1. destruct (as_ident t) as [n|] eqn:E.
  - eapply k_call; [exact C1|apply (p_id_ok g); side|]. intros x s2 h2 Hw C2.
    eapply k_ret; [exact C2|w_|]. intros i o (m & (m1 & -> & -> & _) & Hx). apply g_pattern, Hx.
  - eapply wpP_bind; [apply (binding_pattern_ok h s1 (fun _ _ => False)); side|]. intros p s2 [].
Qed.

(** ** Functions *)

Lemma formal_parameters_ok g h s : At h s -> at_place g s -> L <= W h + b ->
  wpP (formal_parameters V R) s (post1 h s (fun x i o => G g Parameters i o x)).
Proof.
  intros HA Hg Hb. unfold formal_parameters.
  apply k_span with (Rm := fun x i o => forall l, G g Parameters i o (params_set_loc x l)).
  2:{ intros x l i o H. apply H. }
  pose proof (cur_refl _ _ _ _ HA) as C.
  kpd k_expect. intros t s1 Ht Hw H1 C1.
  eapply k_call0; [exact C1| |].
  - eapply (k_loop V src (r_fuel R) _
              (fun l i o => forall ps r o', G g ParamList o o' (ps, r) -> G g ParamList i o' (l ++ ps, r))
              (fun lr i o => G g ParamList i o lr)); [side|side| |].
    + intros i o -> ps r o' H. exact H.
    + intros acc h2 s2 C2. kp k_peek. intros t3 s3 r Ha Hl Hs S3 C3.
      destruct (is_t t3 (TPunc T_RParen)) eqn:E1.
      { eapply k_loop_done; [exact C3|]. intros i o (m & Hp & -> & _).
        rewrite <- (app_nil_r acc). apply Hp. apply g_pl_nil. }
      destruct (is_t t3 (TPunc T_Ellipsis)) eqn:E2.
      { eapply k_call; [exact C3| |].
        - eapply k_span with (Rm := fun x i o => exists i1, op_ T_Ellipsis i i1 /\ G g Pattern i1 o (rp_patt x))
            (Ra := fun x i o => exists i1, op_ T_Ellipsis i i1 /\ G g Pattern i1 o (rp_patt x)).
          2:{ intros x l i o H. exact H. }
          pose proof (cur_refl _ _ _ _ (cur_At _ _ _ _ _ _ _ C3)) as D.
          eapply k_reread; [exact I|exact D|exact Ha|exact E2|]. intros s4 Ht4 Hw4 H4 Ha4 D4.
          eapply k_call; [exact D4|apply (pattern_ok g); side|]. intros p s5 h5 Hw5 D5.
          eapply k_ret; [exact D5|w_|]. intros i o (m & (m1 & -> & ->) & Hp). eexists. split; [apply op_cons, Ht4|exact Hp].
        - intros rp s4 h4 Hw4 C4. eapply k_loop_done; [exact C4|].
          intros i o (m & (m1 & Hp & -> & _) & i1 & He & Hpat).
          rewrite <- (app_nil_r acc). apply Hp. destruct rp as [l p]. eapply g_pl_rest; eassumption. }
      eapply k_call; [exact C3|apply (pattern_ok g); side|]. intros p s4 h4 Hw4 C4.
      eapply k_matches; [exact HV|exact I|exact C4| |].
      * intros t5 s5 Ht5 Hw5 C5. eapply k_loop_next; [exact C5|w_|].
        intros i o (m & (m1 & (m2 & Hp & -> & _) & Hpat) & ->) ps rr o' H.
        rewrite <- app_assoc. apply Hp. eapply g_pl_cons; [exact Hpat|apply op_cons, Ht5|exact H].
      * intros t5 s5 r5 Ht5 Ha5 C5. eapply k_loop_done; [exact C5|].
        intros i o (m & (m1 & (m2 & Hp & -> & _) & Hpat) & -> & _). apply Hp. apply g_pl_last, Hpat.
  - intros [ps rr] s2 h2 Hw2 C2. kpd k_expect. intros t3 s3 Ht3 Hw3 H3 C3.
    eapply k_ret; [exact C3|w_|]. intros i o (m & (m1 & (m2 & -> & ->) & Hp) & ->) l.
    cbn. eapply g_params; eauto with g.
Qed.

(** A directive's text begins with its quote, so it is neither of the two pragmas the
    code looks for. *)
Lemma apply_pragma_ok d s q r (Q : unit -> pst -> Prop) : (q = 34%N \/ q = 39%N) ->
  str_source (dir_string d) = Some (q :: r) -> Q tt s -> wpP (apply_pragma d) s Q.
Proof.
  intros Hq Hs HQ. unfold apply_pragma, dir_pragma. rewrite Hs.
  destruct Hq as [-> | ->]; exact HQ.
Qed.

Lemma match_directive_ok g h s : At h s -> at_place g s ->
  wpP (match_directive_opt V) s
      (fun o s' => match o with
        | Some d => post1 h s (fun d i o => G g Directive i o d) d s'
                    /\ exists q r, (q = 34%N \/ q = 39%N) /\ str_source (dir_string d) = Some (q :: r)
        | None => post0 h s (fun _ i o => i = o /\ forall t t' r s, o = t :: t' :: r -> tk_value t = TString s ->
                               continues t') tt s'
        end).
Proof.
  intros HA Hg. unfold match_directive_opt. apply wpP_posn. intros start.
  pose proof (cur_refl _ _ _ _ HA) as C.
  kp k_read. intros t s1 Hw1 H1 C1.
  assert (Hno : (forall s, tk_value t <> TString s) ->
    wpP (p_unread t ;;; ret None) s1
      (fun o s' => match o with
        | Some d => post1 h s (fun d i o => G g Directive i o d) d s'
                    /\ exists q r, (q = 34%N \/ q = 39%N) /\ str_source (dir_string d) = Some (q :: r)
        | None => post0 h s (fun _ i o => i = o /\ forall t t' r s, o = t :: t' :: r -> tk_value t = TString s ->
                               continues t') tt s'
        end)).
  { intros Hs. eapply k_unread; [exact C|exact H1|]. intros s2 Ha C2. apply wpP_ret.
    eapply post0_cur, cur_weaken; [exact C2|]. intros i o (m & -> & -> & r & ->). split; [reflexivity|].
    intros t0 t' r0 s3 Et Hts. injection Et as -> ->. exfalso. eapply Hs, Hts. }
  destruct (tk_value t) as [r|p|n|lt|r|n] eqn:Et; try (apply Hno; intros; discriminate).
  clear Hno. eapply k_peek; [exact HV|exact C1|]. intros t2 s2 r Ha Hl Hs S2 C2.
  destruct (expression_continuation t2) eqn:Ec; cbn [negb].
  - eapply k_unread2; [exact C|exact H1|exact S2|exact Hs|exact Hl|]. intros s3 Ha3 C3.
    apply wpP_ret. eapply post0_cur, cur_weaken; [exact C3|].
    intros i o (m & -> & -> & o' & ->). split; [reflexivity|]. intros t0 t' r0 s4 E _.
    injection E as -> -> ->. apply continues_iff, Ec.
  - assert (Hlit : exists q r, (q = 34%N \/ q = 39%N) /\ str_source lt = Some (q :: r)).
    { eapply lexed_string; [|exact Et]. eapply At_lexed; [exact (cur_At _ _ _ _ _ _ _ C1)|].
      apply in_or_app. left. apply in_or_app. right. left. reflexivity. }
    eapply wpP_bind.
    + apply wpP_conj with (Q1 := post1 h s (fun d i o => G g Directive i o d))
        (Q2 := fun d _ => dir_string d = lt).
      * eapply k_semi; [exact HV|exact C2|w_|].
        intros sm l i o (m & (m1 & (m2 & -> & ->) & -> & r' & ->) & He). cbn.
        eapply g_directive; [apply eat_cons, Et| |exact He].
        apply next_cons. rewrite <- continues_iff. congruence.
      * eapply wpP_conseq; [apply end_with_auto_semi_ok; [exact HV|exact (cur_At _ _ _ _ _ _ _ C2)]|].
        intros v s3 (h3 & sm & l & -> & _). reflexivity.
    + intros d s3 [Hp Hd]. apply wpP_ret. split; [exact Hp|]. rewrite Hd. exact Hlit.
Qed.

Lemma body_directives_ok g h s : At h s -> at_place g s -> L <= W h + b ->
  wpP (body_directives V R) s
      (post0 h s (fun ds i o => G g Directives i o ds
         /\ forall t t' r s, o = t :: t' :: r -> tk_value t = TString s -> continues t')).
Proof.
  intros HA Hg Hb. unfold body_directives.
  eapply (k_loop V src (r_fuel R) _
            (fun l i o => forall ds o', G g Directives o o' ds -> G g Directives i o' (l ++ ds))); [side|side| |].
  - intros i o -> ds o' H. exact H.
  - intros acc h1 s1 C1. eapply wpP_bind; [apply (match_directive_ok g); side|].
    intros [d|] s2; [intros [(h2 & S2 & Hw & Hsub) (q & r & Hq & Hd)]|intros (h2 & S2 & Hsub)].
    + assert (C2 : cur h s h2 s2 (seq (fun i o => forall ds o', G g Directives o o' ds -> G g Directives i o' (acc ++ ds))
                                      (fun i o => G g Directive i o d))).
      { eapply cur_seq; [exact C1|split; assumption]. }
      eapply wpP_bind with (Q1 := fun _ s' => s' = s2); [eapply apply_pragma_ok; [exact Hq|exact Hd|reflexivity]|].
      intros [] s3 ->. eapply k_loop_next; [exact C2|exact Hw|].
      intros i o (m & Hp & Hx) ds o' Hds. rewrite <- app_assoc. apply Hp. eapply g_dirs_cons; eassumption.
    + eapply k_loop_done; [eapply cur_seq; [exact C1|split; eassumption]|].
      intros i o (m & Hp & -> & Hn). split; [|exact Hn]. rewrite <- (app_nil_r acc). apply Hp, g_dirs_nil.
Qed.

Lemma statement_list_ok g h s : At h s -> at_place g s -> L < W h + b ->
  wpP (statement_list V R) s (post0 h s (fun l i o => G g Items i o l)).
Proof.
  intros HA Hg Hb. unfold statement_list.
  eapply (k_loop V src (r_fuel R) _
            (fun l i o => forall is o', G g Items o o' is -> G g Items i o' (l ++ is))); [side|side| |].
  - intros i o -> ds o' H. exact H.
  - intros acc h1 s1 C1. kp k_peek. intros t s2 r Ha Hl Hs S2 C2.
    destruct (follow_statement_list t) eqn:E.
    + eapply k_loop_done; [exact C2|]. intros i o (m & Hp & -> & r' & ->).
      rewrite <- (app_nil_r acc). apply Hp. apply g_items_nil. apply next_cons. apply follow_iff, E.
    + eapply k_call; [exact C2|apply (rk_item _ _ _ HR g); side|]. intros it s3 h3 Hw C3.
      eapply k_loop_next; [exact C3|w_|]. intros i o (m & (m1 & Hp & -> & _) & Hi) is o' His.
      rewrite <- app_assoc. apply Hp. eapply g_items_cons; [apply itemR_item, Hi|exact His].
Qed.

Lemma script_body_ok g h s : At h s -> at_place g s -> L < W h + b ->
  wpP (script_body V R) s (post0 h s (fun x i o => G g Script i o x)).
Proof.
  intros HA Hg Hb. unfold script_body.
  apply k_span0 with (Rm := fun x i o => forall l, G g Script i o (body_set_loc x l)).
  2:{ intros x l i o H. apply H. }
  pose proof (cur_refl _ _ _ _ HA) as C.
  eapply k_call0; [exact C|apply (body_directives_ok g); side|]. intros ds s1 h1 Hw1 C1.
  eapply k_call0; [exact C1|apply (statement_list_ok g); side|]. intros is s2 h2 Hw2 C2.
  eapply k_ret0; [exact C2|]. intros i o (m & (m1 & -> & Hd & Hn) & Hi) l. cbn. eapply g_script; (discriminate || eassumption).
Qed.

Lemma at_place_function g s : at_place g s ->
  at_place (in_function g) (set_context (context_new_function (p_context s)) s).
Proof.
  intros (A1 & A2 & A3 & A4 & A5 & A6). unfold at_place. cbn.
  split; [exact A1|]. repeat (split; [reflexivity|]). intros n v H. discriminate H.
Qed.

Lemma function_body_ok g ps h s : At h s -> at_place g s -> L <= W h + b ->
  wpP (function_body V R ps) s (post1 h s (fun x i o => G g FunctionBody i o x)).
Proof.
  intros HA Hg Hb. unfold function_body. apply wpP_get_context.
  apply (wpP_modify V src (fun s0 => set_context (context_new_function (p_context s0)) s0)).
  set (s1 := set_context (context_new_function (p_context s)) s).
  assert (HA1 : At h s1) by (eapply At_lexer; [exact HA|reflexivity]).
  assert (Hg1 : at_place (in_function g) s1) by apply at_place_function, Hg.
  pose proof (cur_refl _ _ _ _ HA1) as C.
  kpd k_expect. intros t2 s2 Ht2 Hw2 H2 C2.
  eapply k_call0; [exact C2|apply (script_body_ok (in_function g)); side|]. intros bd s3 h3 Hw3 C3.
  eapply wpP_bind; [apply (strict_check_ok V src _ h3 s3 True); [side|unfold body_check|auto]|].
  { apply wp_ret. split; [reflexivity|]. intros _.
    destruct (if existsb _ _ then _ else _) as [[|]|]; auto. }
  intros [] s4 (Hs4 & Hl4 & _).
  assert (C4 := cur_same _ _ _ _ _ _ _ _ C3 Hs4 Hl4).
  kpd k_expect. intros t5 s5 Ht5 Hw5 H5 C5.
  apply (wpP_modify V src (fun s0 => set_context (p_context s) s0)).
  apply wpP_ret. exists (h3 ++ [t5]). split; [|split; [w_|]].
  - eapply step_weaken; [eapply step_lexer; [exact (proj1 C5)|reflexivity|reflexivity]|].
    intros i o (m & (m1 & (m2 & -> & ->) & Hb') & ->). eapply g_function_body; eauto with g.
  - apply sub_context; [|reflexivity]. exact (proj1 (proj2 C5)).
Qed.

Lemma function_ok {I} (get_id : P I) (Rid : I -> rel) g h s t r : At h s -> at_place g s -> L <= W h + b ->
  ahead s = t :: r -> tk_value t = TReserved R_Function ->
  (forall h s, At h s -> at_place g s -> wpP get_id s (post0 h s Rid)) ->
  wpP (function_ V R get_id) s
      (post1 h s (fun f i o => exists l x ps bd gen i1 i2 i3, f = Fun l x ps bd gen
         /\ kw R_Function i i1 /\ (if gen : bool then op_ T_Star i1 i2 else i1 = i2)
         /\ Rid x i2 i3 /\ G g FunctionRest i3 o (ps, bd))).
Proof.
  intros HA Hg Hb Ha Ht Hid. unfold function_.
  apply k_span with (Rm := fun f i o => exists l x ps bd gen i1 i2 i3, f = Fun l x ps bd gen
         /\ kw R_Function i i1 /\ (if gen : bool then op_ T_Star i1 i2 else i1 = i2)
         /\ Rid x i2 i3 /\ G g FunctionRest i3 o (ps, bd)).
  2:{ intros f l i o (l0 & x & ps & bd & gen & i1 & i2 & i3 & -> & H). exists (Some l), x, ps, bd, gen, i1, i2, i3.
      split; [reflexivity|exact H]. }
  pose proof (cur_refl _ _ _ _ HA) as C.
  eapply k_reread; [exact Logic.I|exact C|exact Ha|apply is_t_refl; [exact Logic.I|exact Ht]|]. intros s1 _ Hw1 H1 Ha1 C1.
  assert (Hk : forall (gen : bool) h2 s2 (R2 : rel), W h < W h2 -> cur h s h2 s2 R2 ->
    (forall i o, R2 i o -> exists i1, kw R_Function i i1 /\ (if gen then op_ T_Star i1 o else i1 = o)) ->
    wpP (i <- get_id ;; ps <- formal_parameters V R ;; bd <- function_body V R (pa_list ps) ;;
         ret (Fun None i ps bd gen)) s2
        (post1 h s (fun f i o => exists l x ps bd gen i1 i2 i3, f = Fun l x ps bd gen
         /\ kw R_Function i i1 /\ (if gen : bool then op_ T_Star i1 i2 else i1 = i2)
         /\ Rid x i2 i3 /\ G g FunctionRest i3 o (ps, bd)))).
  { intros gen h2 s2 R2 Hw2 C2 HR2. eapply k_call0; [exact C2|apply Hid; side|]. intros x s3 h3 Hw3 C3.
    eapply k_call; [exact C3|apply (formal_parameters_ok g); side|]. intros ps s4 h4 Hw4 C4.
    eapply k_call; [exact C4|apply (function_body_ok g); side|]. intros bd s5 h5 Hw5 C5.
    eapply k_ret; [exact C5|w_|]. intros i o (m & (m1 & (m2 & H2 & Hx) & Hps) & Hbd).
    destruct (HR2 _ _ H2) as (i1 & Hk & Hs). exists None, x, ps, bd, gen, i1, m2, m1.
    split; [reflexivity|]. split; [exact Hk|]. split; [exact Hs|]. split; [exact Hx|].
    eapply g_function_rest; eassumption. }
  eapply k_matches; [exact HV|exact Logic.I|exact C1| |].
  - intros t2 s2 Ht2 Hw2 C2. eapply (Hk true); [|exact C2|]; [w_|].
    intros i o (m & (m1 & -> & ->) & ->). eexists. split; [apply kw_cons, Ht|apply op_cons, Ht2].
  - intros t2 s2 r2 Ht2 Ha2 C2. eapply (Hk false); [|exact C2|]; [w_|].
    intros i o (m & (m1 & -> & ->) & -> & _). eexists. split; [apply kw_cons, Ht|reflexivity].
Qed.

(** ** Primary expressions *)

Lemma expr_list_item_ok g h s : At h s -> at_place g s -> L < W h + a ->
  wpP (expr_list_item V R) s (post1 h s (fun e i o => G g ListItem i o e)).
Proof.
  intros HA Hg Hb. unfold expr_list_item. pose proof (cur_refl _ _ _ _ HA) as C.
  kp k_peek. intros t s1 r Ha Hl Hs S1 C1.
  destruct (is_t t (TPunc T_Ellipsis)) eqn:E.
  - eapply k_tail; [exact C1| |].
    + eapply k_span with (Rm := fun x i o => forall l, G g ListItem i o (eli_set_loc x (Some l)))
        (Ra := fun x i o => G g ListItem i o x).
      2:{ intros x l i o H. apply H. }
      pose proof (cur_refl _ _ _ _ (cur_At _ _ _ _ _ _ _ C1)) as D.
      eapply k_reread; [exact I|exact D|exact Ha|exact E|]. intros s2 Ht2 Hw2 H2 Ha2 D2.
      eapply k_call; [exact D2|apply assign_ok; side|]. intros e s3 h3 Hw3 D3.
      eapply k_ret; [exact D3|w_|]. intros i o (m & (m1 & -> & ->) & He) l. cbn.
      eapply g_item_spread; eauto with g.
    + intros x i o (m & (m1 & -> & -> & _) & Hx). exact Hx.
  - eapply k_call; [exact C1|apply assign_ok; side|]. intros e s2 h2 Hw2 C2.
    eapply k_ret; [exact C2|w_|]. intros i o (m & (m1 & -> & -> & _) & He). apply g_item_expr, He.
Qed.

Lemma array_element_ok g h s : At h s -> at_place g s -> L < W h + a ->
  wpP (array_element V R) s
      (post0 h s (fun x i o => match x with
         | None => i = o /\ next (fun t => tk_value t = TPunc T_Comma) o
         | Some e => G g ListItem i o e
         end)).
Proof.
  intros HA Hg Hb. unfold array_element. pose proof (cur_refl _ _ _ _ HA) as C.
  kp k_peek. intros t s1 r Ha Hl Hs S1 C1.
  destruct (is_t t (TPunc T_Comma)) eqn:E.
  - apply is_t_true in E; [|exact I]. eapply k_ret0; [exact C1|].
    intros i o (m & -> & -> & r' & ->). split; [reflexivity|]. apply next_cons, E.
  - eapply k_call; [exact C1|apply (expr_list_item_ok g); side|]. intros e s2 h2 Hw C2.
    eapply k_ret0; [exact C2|]. intros i o (m & (m1 & -> & -> & _) & He). exact He.
Qed.

Lemma array_literal_ok g t0 h s : At h s -> at_place g s -> L < W h + b ->
  wpP (array_literal V R t0) s
      (post1 h s (fun e i o => exists l es i1, e = E_Arr l es /\ G (with_in true g) Elements i i1 es
                                               /\ op_ T_RBrack i1 o)).
Proof.
  intros HA Hg Hb. unfold array_literal. apply allow_in1.
  set (s' := set_context _ s). assert (HA' : At h s') by (eapply At_lexer; [exact HA|reflexivity]).
  assert (Hg' : at_place (with_in true g) s') by apply at_place_in, Hg.
  clearbody s'. clear HA Hg s. rename s' into s. set (g' := with_in true g) in *.
  pose proof (cur_refl _ _ _ _ HA') as C.
  eapply k_call0; [exact C| |].
  - eapply (k_loop V src (r_fuel R) _
              (fun l i o => forall es o', G g' Elements o o' es -> G g' Elements i o' (l ++ es))
              (fun es i o => G g' Elements i o es)); [side|side| |].
    + intros i o -> es o' H. exact H.
    + intros acc h1 s1 C1. kp k_peek. intros t s2 r Ha Hl Hs S2 C2.
      destruct (is_t t (TPunc T_RBrack)) eqn:E.
      { eapply k_loop_done; [exact C2|]. intros i o (m & Hp & -> & _).
        rewrite <- (app_nil_r acc). apply Hp, g_elts_nil. }
      eapply k_call0; [exact C2|apply (array_element_ok g'); side|]. intros x s3 h3 Hw3 C3.
      eapply k_matches; [exact HV|exact I|exact C3| |].
      * intros t4 s4 Ht4 Hw4 C4. eapply k_loop_next; [exact C4|w_|].
        intros i o (m & (m1 & (m2 & Hp & -> & _) & Hx) & ->) es o' Hes.
        rewrite <- app_assoc. apply Hp. destruct x as [e|].
        -- eapply g_elts_cons; eauto with g.
        -- destruct Hx as [-> _]. eapply g_elts_hole; eauto with g.
      * intros t4 s4 r4 Ht4 Ha4 C4. eapply k_loop_done; [exact C4|].
        intros i o (m & (m1 & (m2 & Hp & -> & _) & Hx) & -> & r' & ->).
        apply Hp. destruct x as [e|]; [apply g_elts_last, Hx|].
        destruct Hx as [-> (t5 & o5 & E5 & Hc)]. injection E5 as -> ->. contradiction.
  - intros es s1 h1 Hw1 C1. kpd k_expect. intros t2 s2 Ht2 Hw2 H2 C2.
    eapply k_ret; [exact C2|w_|]. intros i o (m & (m1 & -> & Hes) & ->).
    eexists _, _, _. split; [reflexivity|]. split; [exact Hes|apply op_cons, Ht2].
Qed.

(** *** Properties *)

Lemma token_prop_key_ok g t o k : token_prop_key t = Some k ->
  G g Key (t :: o) o k /\ (forall n, k <> PK_Id None n)
  /\ (forall l n, k = PK_Id (Some l) n -> l = tk_loc t /\
        ((exists n', tk_value t = TIdent n' /\ n = name_string n') \/ exists r, tk_value t = TReserved r)).
Proof.
  unfold token_prop_key. destruct (tk_value t) as [r|p|n|s|r|n] eqn:E; try discriminate; intros H; injection H as <-.
  - split; [apply g_key_reserved, E|]. split; [discriminate|]. intros l n H. injection H as <- <-. eauto.
  - split; [apply g_key_number, E|]. split; discriminate.
  - split; [apply g_key_string, E|]. split; discriminate.
  - split; [apply g_key_ident, E|]. split; [discriminate|]. intros l n' H. injection H as <- <-. eauto.
Qed.

Lemma key_not_eof t k : token_prop_key t = Some k -> tk_value t <> TPunc T_EOF.
Proof. unfold token_prop_key. destruct (tk_value t); discriminate. Qed.

Lemma k_key_opt {B} (Q : B -> pst -> Prop) h0 s0 h s Rc (k : option prop_key -> P B) : cur h0 s0 h s Rc ->
  (forall t key s1, token_prop_key t = Some key -> weighs h t -> cur h0 s0 (h ++ [t]) s1 (seq Rc (one t)) ->
     wpP (k (Some key)) s1 Q) ->
  (forall t s1 r, ahead s1 = t :: r -> token_prop_key t = None -> cur h0 s0 h s1 (seq Rc (look (starts t))) ->
     wpP (k None) s1 Q) ->
  wpP (bind (property_key_opt V) k) s Q.
Proof.
  intros C K1 K2. unfold property_key_opt. apply wpP_assoc. kp k_read. intros t s1 Hw1 H1 C1.
  destruct (token_prop_key t) as [key|] eqn:E.
  - apply (K1 t key s1); assumption.
  - apply wpP_assoc. eapply k_unread; [exact C|exact H1|]. intros s2 Ha C2. eapply K2; eassumption.
Qed.
Lemma k_key {B} (Q : B -> pst -> Prop) h0 s0 h s Rc (k : prop_key -> P B) : cur h0 s0 h s Rc ->
  (forall t key s1, token_prop_key t = Some key -> weighs h t -> cur h0 s0 (h ++ [t]) s1 (seq Rc (one t)) ->
     wpP (k key) s1 Q) ->
  wpP (bind (property_key V) k) s Q.
Proof.
  intros C K1. unfold property_key. apply wpP_assoc. eapply k_key_opt; [exact C| |].
  - intros t key s1 Ht Hw C1. eapply K1; eassumption.
  - intros t s1 r Ha Ht C1. eapply wpP_bind; [apply (k_unexpected V src _ _ _ _ _ _ _ (fun _ _ => False) C1 Ha)|].
    intros ? ? [].
Qed.

(** What may follow a property's key. *)
Definition prop_rest (g : place) (key : prop_key) (x : prop) : rel := fun i o =>
  (exists l e i1, x = Pr_Regular l key (PV_Init e) /\ op_ T_Colon i i1 /\ G (with_in true g) Assignment i1 o e)
  \/ (exists l ps bd, x = Pr_Method (Fun l key ps bd false) /\ G g FunctionRest i o (ps, bd))
  \/ (exists l n, key = PK_Id (Some l) n /\ x = Pr_Shorthand (Id (Some l) (name_from n))
        /\ name_ok (pl_mode g) false (name_from n) /\ i = o
        /\ next (fun t' => tk_value t' = TPunc T_Comma \/ tk_value t' = TPunc T_RBrace) o).

Lemma more_prop_init_ok g key h s : At h s -> at_place g s -> L < W h + b ->
  (forall n, key <> PK_Id None n) ->
  wpP (more_prop_init V R key) s (post0 h s (prop_rest g key)).
Proof.
  intros HA Hg Hb Hkey. unfold more_prop_init. pose proof (cur_refl _ _ _ _ HA) as C.
  kp k_peek. intros t s1 r Ha Hl Hs S1 C1.
  destruct (is_t t (TPunc T_Colon)) eqn:E1.
  { apply is_t_true in E1; [|exact I]. eapply k_skip; [exact HV|exact C1|]. intros t2 s2 Hw2 H2 C2.
    eapply (k_in V src _ _ _ g); [pl_|exact C2|intros s' HA' Hg'; apply assign_ok; side|].
    intros e s3 h3 Hw3 C3. eapply k_ret0; [exact C3|].
    intros i o (m & (m1 & (m2 & -> & -> & r' & ->) & Ho) & He). injection Ho as -> ->.
    left. eexists _, _, _. split; [reflexivity|]. split; [apply op_cons, E1|exact He]. }
  destruct (is_t t (TPunc T_LParen)) eqn:E2.
  { eapply k_call; [exact C1|apply (formal_parameters_ok g); side|]. intros ps s2 h2 Hw2 C2.
    eapply k_call; [exact C2|apply (function_body_ok g); side|]. intros bd s3 h3 Hw3 C3.
    eapply k_ret0; [exact C3|]. intros i o (m & (m1 & (m2 & -> & -> & r' & _) & Hps) & Hbd).
    right. left. eexists _, _, _. split; [reflexivity|]. eapply g_function_rest; eassumption. }
  destruct (is_t t (TPunc T_Comma) || is_t t (TPunc T_RBrace)) eqn:E3.
  - destruct key as [[l|] n|l n|l n].
    + eapply (k_new_id V src _ _ _ g); [pl_|exact C1|]. intros s2 Hn Ha2 Hs2 C2. eapply k_ret0; [exact C2|].
      intros i o (m & -> & -> & r' & ->). right. right. exists l, n. split; [reflexivity|]. split; [reflexivity|].
      split; [exact Hn|]. split; [reflexivity|]. apply next_cons.
      apply orb_true_iff in E3 as [E3|E3]; apply is_t_true in E3; auto; exact I.
    + exfalso. eapply Hkey. reflexivity.
    + eapply k_unexpected; eassumption.
    + eapply k_unexpected; eassumption.
  - eapply k_unexpected; eassumption.
Qed.

Lemma prop_rest_property g t k i o x : token_prop_key t = Some k -> prop_rest g k x i o ->
  (forall r, tk_value t = TReserved r -> ~ next (fun t' => tk_value t' = TPunc T_Comma \/ tk_value t' = TPunc T_RBrace) i) ->
  G g Property (t :: i) o x.
Proof.
  intros Hk Hr Hres. destruct (token_prop_key_ok g t i k Hk) as (Hkey & _ & Hid).
  destruct Hr as [(l & e & i1 & -> & Hc & He)|[(l & ps & bd & -> & Hf)|(l & n & -> & -> & Hn & -> & Hx)]].
  - eapply g_prop_init; eassumption.
  - eapply g_prop_method; eassumption.
  - destruct (Hid l n eq_refl) as (-> & [(n' & Ht & ->)|(r & Ht)]).
    + eapply g_prop_shorthand; [exact Ht|apply name_from_names|exact Hn|exact Hx].
    + exfalso. eapply Hres; eassumption.
Qed.

Lemma object_property_ok g h s : At h s -> at_place g s -> L <= W h + b ->
  wpP (object_property V R) s (post1 h s (fun x i o => G g Property i o x)).
Proof.
  intros HA Hg Hb. unfold object_property. pose proof (cur_refl _ _ _ _ HA) as C.
  kp k_read. intros t s1 Hw1 H1 C1.
  destruct (is_t t (TIdent (NAtom A_Get))) eqn:E1.
  { apply is_t_true in E1; [|exact I]. eapply k_key_opt; [exact C1| |].
    - intros t2 key s2 Hk Hw2 C2. kpd k_expect. intros t3 s3 Ht3 Hw3 H3 C3.
      kpd k_expect. intros t4 s4 Ht4 Hw4 H4 C4.
      eapply k_call; [exact C4|apply (function_body_ok g); side|]. intros bd s5 h5 Hw5 C5.
      eapply k_ret; [exact C5|w_|]. intros i o (m & (m1 & (m2 & (m3 & (m4 & -> & ->) & ->) & ->) & ->) & Hbd).
      eapply g_prop_get; [apply eat_cons, E1| |apply op_cons, Ht3|apply op_cons, Ht4|exact Hbd].
      apply token_prop_key_ok, Hk.
    - intros t2 s2 r2 Ha2 Hk C2.
      assert (Hkt : token_prop_key t = Some (PK_Id (Some (tk_loc t)) (lit "get"))).
      { unfold token_prop_key. rewrite E1. reflexivity. }
      eapply k_tail0; [exact C2|w_|apply (more_prop_init_ok g); side || discriminate|].
      intros x i o (m & (m1 & (m2 & -> & ->) & -> & _) & Hx). eapply prop_rest_property; [exact Hkt|exact Hx|].
      intros r Hr. congruence. }
  destruct (is_t t (TIdent (NAtom A_Set))) eqn:E2.
  { apply is_t_true in E2; [|exact I]. eapply k_key_opt; [exact C1| |].
    - intros t2 key s2 Hk Hw2 C2. kpd k_expect. intros t3 s3 Ht3 Hw3 H3 C3.
      eapply k_call; [exact C3|apply (pattern_ok g); side|]. intros pt s4 h4 Hw4 C4.
      kpd k_expect. intros t5 s5 Ht5 Hw5 H5 C5.
      eapply k_call; [exact C5|apply (function_body_ok g); side|]. intros bd s6 h6 Hw6 C6.
      eapply k_ret; [exact C6|w_|].
      intros i o (m & (m1 & (m2 & (m3 & (m4 & (m5 & -> & ->) & ->) & ->) & Hp) & ->) & Hbd).
      eapply g_prop_set; [apply eat_cons, E2| |apply op_cons, Ht3|exact Hp|apply op_cons, Ht5|exact Hbd].
      apply token_prop_key_ok, Hk.
    - intros t2 s2 r2 Ha2 Hk C2.
      assert (Hkt : token_prop_key t = Some (PK_Id (Some (tk_loc t)) (lit "set"))).
      { unfold token_prop_key. rewrite E2. reflexivity. }
      eapply k_tail0; [exact C2|w_|apply (more_prop_init_ok g); side || discriminate|].
      intros x i o (m & (m1 & (m2 & -> & ->) & -> & _) & Hx). eapply prop_rest_property; [exact Hkt|exact Hx|].
      intros r Hr. congruence. }
  destruct (is_t t (TPunc T_Star)) eqn:E3.
  { apply is_t_true in E3; [|exact I]. eapply k_key; [exact C1|]. intros t2 key s2 Hk Hw2 C2.
    eapply k_call; [exact C2|apply (formal_parameters_ok g); side|]. intros ps s3 h3 Hw3 C3.
    eapply k_call; [exact C3|apply (function_body_ok g); side|]. intros bd s4 h4 Hw4 C4.
    eapply k_ret; [exact C4|w_|]. intros i o (m & (m1 & (m2 & (m3 & -> & ->) & ->) & Hps) & Hbd).
    eapply g_prop_generator; [apply op_cons, E3|apply token_prop_key_ok, Hk|]. eapply g_function_rest; eassumption. }
  destruct (is_reserved t) eqn:E4.
  - kp k_peek. intros t2 s2 r2 Ha2 Hl2 Hs2 S2 C2.
    destruct (is_t t2 (TPunc T_Comma) || is_t t2 (TPunc T_RBrace)) eqn:E5; [apply wpP_err|].
    apply orb_false_iff in E5 as [E5 E6].
    apply is_t_false in E5; [|exact I]. apply is_t_false in E6; [|exact I].
    eapply k_unread2; [exact C|exact H1|exact S2|exact Hs2|exact Hl2|]. intros s3 Ha3 C3.
    eapply k_key; [exact C3|]. intros t4 key s4 Hk Hw4 C4.
    pose proof (key_not_eof _ _ Hk) as Hne.
    eapply k_tail0; [exact C4|w_|apply (more_prop_init_ok g); try side; apply (token_prop_key_ok g t4 [] key Hk)|].
    intros x i o (m & (m1 & (m2 & -> & -> & o' & Ho) & ->) & Hx). injection Ho as -> ->.
    eapply prop_rest_property; [exact Hk|exact Hx|].
    intros r Hr (t5 & o5 & Et & Hor). injection Et as <- <-. destruct Hor; contradiction.
  - eapply k_unread; [exact C|exact H1|]. intros s3 Ha3 C3.
    eapply k_key; [exact C3|]. intros t4 key s4 Hk Hw4 C4.
    pose proof (key_not_eof _ _ Hk) as Hne.
    eapply k_tail0; [exact C4|w_|apply (more_prop_init_ok g); try side; apply (token_prop_key_ok g t4 [] key Hk)|].
    intros x i o (m & (m1 & (m2 & -> & -> & o' & Ho) & ->) & Hx). injection Ho as -> ->.
    eapply prop_rest_property; [exact Hk|exact Hx|].
    intros r Hr. unfold is_reserved in E4. rewrite Hr in E4. discriminate.
Qed.

Lemma object_literal_ok g t0 h s : At h s -> at_place g s -> L < W h + b ->
  wpP (object_literal V R t0) s
      (post1 h s (fun e i o => exists l ps i1, e = E_Obj l ps /\ G g (CommaList Property) i i1 ps
                                               /\ op_ T_RBrace i1 o)).
Proof.
  intros HA Hg Hb. unfold object_literal. pose proof (cur_refl _ _ _ _ HA) as C.
  eapply k_call0; [exact C| |].
  - eapply (k_loop V src (r_fuel R) _
              (fun l i o => forall es o', G g (CommaList Property) o o' es -> G g (CommaList Property) i o' (l ++ es))
              (fun es i o => G g (CommaList Property) i o es)); [side|side| |].
    + intros i o -> es o' H. exact H.
    + intros acc h1 s1 C1. kp k_peek. intros t s2 r Ha Hl Hs S2 C2.
      destruct (is_t t (TPunc T_RBrace)) eqn:E.
      { eapply k_loop_done; [exact C2|]. intros i o (m & Hp & -> & _).
        rewrite <- (app_nil_r acc). apply Hp, g_cl_nil. }
      eapply k_call; [exact C2|apply (object_property_ok g); side|]. intros x s3 h3 Hw3 C3.
      eapply k_matches; [exact HV|exact I|exact C3| |].
      * intros t4 s4 Ht4 Hw4 C4. eapply k_loop_next; [exact C4|w_|].
        intros i o (m & (m1 & (m2 & Hp & -> & _) & Hx) & ->) es o' Hes.
        rewrite <- app_assoc. apply Hp. eapply g_cl_cons; eauto with g.
      * intros t4 s4 r4 Ht4 Ha4 C4. eapply k_loop_done; [exact C4|].
        intros i o (m & (m1 & (m2 & Hp & -> & _) & Hx) & -> & r' & ->).
        apply Hp. apply g_cl_last, Hx.
  - intros es s1 h1 Hw1 C1. kpd k_expect. intros t2 s2 Ht2 Hw2 H2 C2.
    eapply k_ret; [exact C2|w_|]. intros i o (m & (m1 & -> & Hes) & ->).
    eexists _, _, _. split; [reflexivity|]. split; [exact Hes|apply op_cons, Ht2].
Qed.

Lemma token_literal_ok g t e o : token_literal t = Some e -> G g Primary (t :: o) o e /\ tk_value t <> TPunc T_EOF.
Proof.
  unfold token_literal. destruct (tk_value t) as [r|p|n|s|r|n] eqn:E; try discriminate.
  - destruct r; try discriminate; intros H; injection H as <-; (split; [|discriminate]);
      [apply g_null|apply g_true|apply g_false|apply g_this]; exact E.
  - intros H; injection H as <-; (split; [|discriminate]); apply g_number, E.
  - intros H; injection H as <-; (split; [|discriminate]); apply g_string, E.
  - intros H; injection H as <-; (split; [|discriminate]); apply g_regexp, E.
Qed.

Lemma primary_ok g h s : At h s -> at_place g s -> L <= W h + b ->
  wpP (primary_expression V R) s (post1 h s (fun e i o => G g Primary i o e)).
Proof.
  intros HA Hg Hb. unfold primary_expression. pose proof (cur_refl _ _ _ _ HA) as C.
  kp k_read. intros t s1 Hw1 H1 C1.
  destruct (as_ident t) as [n|] eqn:E0.
  { apply as_ident_some in E0. eapply (k_new_id V src _ _ _ g); [pl_|exact C1|]. intros s2 Hn Ha Hs C2.
    eapply k_ret; [exact C2|w_|]. intros i o (m & -> & ->). apply g_id, g_name; assumption. }
  destruct (token_literal t) as [e|] eqn:E1.
  { assert (Hne := proj2 (token_literal_ok g t e [] E1)). eapply k_ret; [exact C1|w_|].
    intros i o (m & -> & ->). apply token_literal_ok, E1. }
  destruct (is_t t (TPunc T_LBrack)) eqn:E2.
  { apply is_t_true in E2; [|exact I]. eapply k_tail; [exact C1|apply (array_literal_ok g); side|].
    intros e i o (m & (m1 & -> & ->) & l & es & i1 & -> & Hes & Ho). eapply g_array; eauto with g. }
  destruct (is_t t (TPunc T_LBrace)) eqn:E3.
  { apply is_t_true in E3; [|exact I]. eapply k_tail; [exact C1|apply (object_literal_ok g); side|].
    intros e i o (m & (m1 & -> & ->) & l & es & i1 & -> & Hes & Ho). eapply g_object; eauto with g. }
  destruct (is_t t (TReserved R_Function)) eqn:E4.
  { apply is_t_true in E4; [|exact I]. eapply k_unread; [exact C|exact H1|]. intros s2 Ha C2.
    eapply k_call; [exact C2|eapply (function_ok (p_id_opt V true) _ g); [side|side|side|exact Ha|exact E4|]; intros h' s' HA' Hg'; apply (p_id_opt_ok g); assumption|].
    intros f s3 h3 Hw3 C3. eapply k_ret; [exact C3|w_|].
    intros i o (m & (m1 & -> & -> & _) & l & x & ps & bd & gen & i1 & i2 & i3 & -> & Hk & Hs & Hx & Hf).
    apply g_function. destruct gen; destruct x as [x|]; subst.
    - eapply g_generator_named; eassumption.
    - eapply g_generator_anon; eassumption.
    - eapply g_function_named; eassumption.
    - eapply g_function_anon; eassumption. }
  destruct (is_t t (TPunc T_LParen)) eqn:E5; [|apply wpP_err].
  eapply k_unread; [exact C|exact H1|]. intros s2 Ha C2.
  eapply k_tail; [exact C2|apply (paren_expression_ok g); side|].
  intros e i o (m & (m1 & -> & -> & _) & i1 & i2 & Hl & He & Hr). eapply g_paren; eassumption.
Qed.

(** ** Left-hand sides *)

Lemma member_base_ok g h s : At h s -> at_place g s -> L <= W h + b ->
  wpP (member_base_expression V R) s (post1 h s (fun e i o => G g Base_ i o e)).
Proof.
  intros HA Hg Hb. unfold member_base_expression. pose proof (cur_refl _ _ _ _ HA) as C.
  eapply k_matches_token; [exact HV|exact I|exact C| |].
  - intros t s1 Ht Hw C1. kpd k_expect. intros t2 s2 Ht2 Hw2 H2 C2. kpd k_expect. intros t3 s3 Ht3 Hw3 H3 C3.
    eapply k_ret; [exact C3|w_|]. intros i o (m & (m1 & (m2 & -> & ->) & ->) & ->).
    eapply g_new_target; eauto with g.
  - intros t s1 r Ht Ha C1. eapply k_tail; [exact C1|apply (primary_ok g); side|].
    intros e i o (m & (m1 & -> & -> & _) & He). apply g_base, He.
Qed.

Lemma arguments_ok g h s : At h s -> at_place g s -> L <= W h + b ->
  wpP (arguments_ V R) s (post1 h s (fun x i o => G g Arguments i o (args_list x))).
Proof.
  intros HA Hg Hb. unfold arguments_. apply allow_in1.
  set (s' := set_context _ s). assert (HA' : At h s') by (eapply At_lexer; [exact HA|reflexivity]).
  assert (Hg' : at_place (with_in true g) s') by apply at_place_in, Hg.
  clearbody s'. clear HA Hg s. rename s' into s. set (g' := with_in true g) in *.
  pose proof (cur_refl _ _ _ _ HA') as C.
  kpd k_expect. intros t1 s1 Ht1 Hw1 H1 C1. kp k_peek. intros t s2 r Ha Hl Hs S2 C2.
  destruct (is_t t (TPunc T_RParen)) eqn:E; cbn [negb].
  - eapply wpP_bind with (Q1 := fun x s' => x = [] /\ s' = s2); [apply wpP_ret; auto|]. intros x s' [-> ->].
    kpd k_expect. intros t3 s3 Ht3 Hw3 H3 C3. eapply k_ret; [exact C3|w_|].
    intros i o (m & (m1 & (m2 & -> & ->) & -> & _) & ->). eapply g_args_nil; eauto with g.
  - eapply k_call0; [exact C2| |].
    + eapply (k_loop V src (r_fuel R) _
                (fun l i o => forall es o', G g' (Commas ListItem) o o' es -> G g' (Commas ListItem) i o' (l ++ es))
                (fun es i o => G g' (Commas ListItem) i o es)); [side|side| |].
      * intros i o -> es o' H. exact H.
      * intros acc h3 s3 C3. eapply k_call; [exact C3|apply (expr_list_item_ok g'); side|]. intros x s4 h4 Hw4 C4.
        eapply k_matches; [exact HV|exact I|exact C4| |].
        -- intros t5 s5 Ht5 Hw5 C5. eapply k_loop_next; [exact C5|w_|].
           intros i o (m & (m1 & Hp & Hx) & ->) es o' Hes. rewrite <- app_assoc. apply Hp.
           eapply g_more; eauto with g.
        -- intros t5 s5 r5 Ht5 Ha5 C5. eapply k_loop_done; [exact C5|].
           intros i o (m & (m1 & Hp & Hx) & -> & _). apply Hp. apply g_one, Hx.
    + intros es s3 h3 Hw3 C3. kpd k_expect. intros t4 s4 Ht4 Hw4 H4 C4. eapply k_ret; [exact C4|w_|].
      intros i o (m & (m1 & (m2 & (m3 & -> & ->) & -> & _) & Hes) & ->). eapply g_args; eauto with g.
Qed.

Definition access (g : place) (d : deref) : rel := fun i o =>
  match d with
  | De_Brack k _ => exists i1 i2, op_ T_LBrack i i1 /\ G (with_in true g) Expression i1 i2 k /\ op_ T_RBrack i2 o
  | De_Dot k => exists i1, op_ T_Dot i i1 /\ G g DotName i1 o k
  end.
Lemma access_member g d i0 i o e : G g Member i0 i e -> access g d i o -> G g Member i0 o (deref_append_to d e).
Proof.
  intros He. destruct d as [k t|k]; [intros (i1 & i2 & Hl & Hk & Hr)|intros (i1 & Hd & Hk)];
    [eapply g_member_brack|eapply g_member_dot]; eassumption.
Qed.
Lemma access_lhs g d i0 i o e : G g Lhs i0 i e -> access g d i o -> G g Lhs i0 o (deref_append_to d e).
Proof.
  intros He. destruct d as [k t|k]; [intros (i1 & i2 & Hl & Hk & Hr)|intros (i1 & Hd & Hk)];
    [eapply g_lhs_brack|eapply g_lhs_dot]; eassumption.
Qed.

Lemma deref_brack_ok g h s t r : At h s -> at_place g s -> L <= W h + b -> ahead s = t :: r ->
  is_t t (TPunc T_LBrack) = true -> wpP (deref_brack V R) s (post1 h s (access g)).
Proof.
  intros HA Hg Hb Ha E. unfold deref_brack. pose proof (cur_refl _ _ _ _ HA) as C.
  eapply k_reread; [exact I|exact C|exact Ha|exact E|]. intros s1 Ht1 Hw1 H1 Ha1 C1.
  eapply (k_in V src _ _ _ g); [pl_|exact C1|intros s' HA' Hg'; apply expression_ok; side|].
  intros e s2 h2 Hw2 C2. kpd k_expect. intros t3 s3 Ht3 Hw3 H3 C3.
  eapply k_ret; [exact C3|w_|]. intros i o (m & (m1 & (m2 & -> & ->) & He) & ->).
  exists m1, (t3 :: o). auto with g.
Qed.
Lemma deref_dot_ok g h s t r : At h s -> at_place g s -> L <= W h + b -> ahead s = t :: r ->
  is_t t (TPunc T_Dot) = true -> wpP (deref_dot V) s (post1 h s (access g)).
Proof.
  intros HA Hg Hb Ha E. unfold deref_dot, id_name_. pose proof (cur_refl _ _ _ _ HA) as C.
  eapply k_reread; [exact I|exact C|exact Ha|exact E|]. intros s1 Ht1 Hw1 H1 Ha1 C1.
  apply wpP_assoc. eapply k_read; [exact HV|exact C1|]. intros t2 s2 Hw2 H2 C2.
  destruct (tk_value t2) as [r2|p|n|st|r2|n] eqn:E2; try apply wpP_err.
  - eapply (k_ret V src h s _ _ _ (De_Dot _)); [exact C2|w_|]. intros i o (m & (m1 & -> & ->) & ->).
    eexists. split; [apply op_cons, Ht1|apply g_dot_reserved, E2].
  - eapply (k_ret V src h s _ _ _ (De_Dot _)); [exact C2|w_|]. intros i o (m & (m1 & -> & ->) & ->).
    eexists. split; [apply op_cons, Ht1|apply g_dot_ident, E2].
Qed.

Lemma deref_opt_ok g h s : At h s -> at_place g s -> L <= W h + b ->
  wpP (deref_opt V R) s
      (fun x s' => match x with
        | Some d => post1 h s (access g) d s'
        | None => post0 h s (fun _ => look (next (fun t => tk_value t <> TPunc T_Dot /\ tk_value t <> TPunc T_LBrack))) tt s'
        end).
Proof.
  intros HA Hg Hb. unfold deref_opt. pose proof (cur_refl _ _ _ _ HA) as C.
  kp k_peek_op. intros t s1 r Ha Hl Hs S1 C1.
  assert (Hk : forall m : P deref, wpP m s1 (post1 h s1 (access g)) ->
    wpP (d <- m ;; ret (Some d)) s1 (fun x s' => match x with
        | Some d => post1 h s (access g) d s'
        | None => post0 h s (fun _ => look (next (fun t => tk_value t <> TPunc T_Dot /\ tk_value t <> TPunc T_LBrack))) tt s'
        end)).
  { intros m Hm. eapply k_call; [exact C1|exact Hm|]. intros d s2 h2 Hw2 C2. apply wpP_ret.
    eapply post1_cur; [eapply cur_weaken; [exact C2|]|exact Hw2].
    intros i o (m0 & (m1 & -> & -> & _) & Hd). exact Hd. }
  destruct (is_t t (TPunc T_LBrack)) eqn:E1; [apply Hk; eapply deref_brack_ok; try side; eassumption|].
  destruct (is_t t (TPunc T_Dot)) eqn:E2; [apply Hk; eapply deref_dot_ok; try side; eassumption|].
  apply wpP_ret. eapply post0_cur, cur_weaken; [exact C1|].
  intros i o (m & -> & -> & r' & ->). split; [reflexivity|]. apply next_cons.
  apply is_t_false in E1; [|exact I]. apply is_t_false in E2; [|exact I]. auto.
Qed.

Definition applied (g : place) (x : suffix) : rel := fun i o =>
  match x with
  | Su_Deref d => access g d i o
  | Su_Arguments x => G g Arguments i o (args_list x)
  end.
Lemma applied_lhs g x i0 i o e : G g Lhs i0 i e -> applied g x i o -> G g Lhs i0 o (suffix_append_to x e).
Proof. intros He. destruct x as [d|x]; [apply access_lhs, He|]. intros H. eapply g_lhs_call; eassumption. Qed.

(** Nothing that extends a left-hand side follows. *)
Definition lhs_done : tokens -> Prop :=
  next (fun t => tk_value t <> TPunc T_Dot /\ tk_value t <> TPunc T_LBrack /\ tk_value t <> TPunc T_LParen).

Lemma suffix_opt_ok g h s : At h s -> at_place g s -> L <= W h + b ->
  wpP (suffix_opt V R) s
      (fun x s' => match x with
        | Some d => post1 h s (applied g) d s'
        | None => post0 h s (fun _ => look lhs_done) tt s'
        end).
Proof.
  intros HA Hg Hb. unfold suffix_opt. pose proof (cur_refl _ _ _ _ HA) as C.
  kp k_peek_op. intros t s1 r Ha Hl Hs S1 C1.
  assert (Hk : forall A (mk : A -> suffix) (m : P A), wpP m s1 (post1 h s1 (fun d => applied g (mk d))) ->
    wpP (d <- m ;; ret (Some (mk d))) s1 (fun x s' => match x with
        | Some d => post1 h s (applied g) d s'
        | None => post0 h s (fun _ => look lhs_done) tt s'
        end)).
  { intros A mk m Hm. eapply k_call; [exact C1|exact Hm|]. intros d s2 h2 Hw2 C2. apply wpP_ret.
    eapply post1_cur; [eapply cur_weaken; [exact C2|]|exact Hw2].
    intros i o (m0 & (m1 & -> & -> & _) & Hd). exact Hd. }
  destruct (is_t t (TPunc T_Dot)) eqn:E2; [apply (Hk deref Su_Deref); eapply deref_dot_ok; try side; eassumption|].
  destruct (is_t t (TPunc T_LBrack)) eqn:E1; [apply (Hk deref Su_Deref); eapply deref_brack_ok; try side; eassumption|].
  destruct (is_t t (TPunc T_LParen)) eqn:E3; [apply (Hk arguments Su_Arguments); apply arguments_ok; side|].
  apply wpP_ret. eapply post0_cur, cur_weaken; [exact C1|].
  intros i o (m & -> & -> & r' & ->). split; [reflexivity|]. apply next_cons.
  apply is_t_false in E1; [|exact I]. apply is_t_false in E2; [|exact I]. apply is_t_false in E3; [|exact I]. auto.
Qed.

Lemma more_suffixes_ok g e0 h s : At h s -> at_place g s -> L <= W h + b ->
  wpP (more_suffixes V R e0) s
      (post0 h s (fun e i o => (forall i0, G g Lhs i0 i e0 -> G g Lhs i0 o e) /\ lhs_done o)).
Proof.
  intros HA Hg Hb. unfold more_suffixes.
  eapply (k_loop V src (r_fuel R) _ (fun e i o => forall i0, G g Lhs i0 i e0 -> G g Lhs i0 o e)); [side|side| |].
  - intros i o ->. auto.
  - intros acc h1 s1 C1. eapply wpP_bind; [apply (suffix_opt_ok g); side|].
    intros [x|] s2; [intros (h2 & S2 & Hw & Hsub)|intros (h2 & S2 & Hsub)].
    + eapply k_loop_next; [eapply cur_seq; [exact C1|split; eassumption]|exact Hw|].
      intros i o (m & Hp & Hx) i0 Hi. eapply applied_lhs; [apply Hp, Hi|exact Hx].
    + eapply k_loop_done; [eapply cur_seq; [exact C1|split; eassumption]|].
      intros i o (m & Hp & -> & Hx). auto.
Qed.

Lemma wpP_now {A B} (x : A) (k : A -> P B) s Q : wpP (k x) s Q -> wpP (bind (ret x) k) s Q.
Proof. intros H. exact H. Qed.

Lemma apply_news_ok g : forall news ha base h s, At h s -> at_place g s -> L <= W h + b ->
  Forall (fun t => tk_value t = TReserved R_New) news ->
  wpP (apply_news V R ha news base) s
      (post0 h s (fun e i o => forall i0,
         (if ha : bool then G g NewArgs i0 i base else G g NewBare i0 i base /\ not_next (TPunc T_LParen) i) ->
         G g NewBare (rev news ++ i0) o e)).
Proof.
  induction news as [|n news IH]; intros ha base h s HA Hg Hb Hnews.
  - cbn [apply_news rev app]. eapply k_ret0; [apply cur_refl, HA|]. intros i o -> i0.
    destruct ha; [intros H; apply g_new_some, H|intros [H _]; exact H].
  - inversion Hnews as [|? ? Hn Hnews']; subst. cbn [apply_news rev].
    pose proof (cur_refl _ _ _ _ HA) as C.
    assert (Hfalse : forall h1 s1 R1, cur h s h1 s1 R1 ->
      (forall i o, R1 i o -> i = o /\ not_next (TPunc T_LParen) o) ->
      wpP (apply_news V R false news (E_New (span_of (Some (tk_loc n)) (expr_loc base)) base None)) s1
        (post0 h s (fun e i o => forall i0, G g NewBare i0 i base ->
           G g NewBare ((rev news ++ [n]) ++ i0) o e))).
    { intros h1 s1 R1 C1 HR1. eapply k_tail00; [exact C1|apply IH; side|].
      intros e i o (m & Hm & He) i0 Hi. destruct (HR1 _ _ Hm) as [-> Hnn].
      rewrite <- app_assoc. cbn [app]. apply He. split; [|exact Hnn].
      eapply g_new_bare; [apply kw_cons, Hn|exact Hi|exact Hnn]. }
    destruct ha.
    + apply wpP_assoc. kp k_peek_op. intros t s1 r Ha Hl Hs S1 C1.
      apply wpP_now. destruct (is_t t (TPunc T_LParen)) eqn:E.
      * apply wpP_assoc. eapply k_call; [exact C1|apply (arguments_ok g); side|]. intros x s2 h2 Hw2 C2.
        apply wpP_now.
        eapply k_tail00; [exact C2|apply IH; side|].
        intros e i o (m & (m1 & (m2 & -> & -> & _) & Hargs) & He) i0 Hi.
        rewrite <- app_assoc. cbn [app]. apply He. eapply g_new_args; [apply kw_cons, Hn|exact Hi|exact Hargs].
      * apply is_t_false in E; [|exact I].
        apply wpP_now.
        eapply wpP_conseq; [eapply Hfalse; [exact C1|]|].
        -- intros i o (m & -> & -> & r' & ->). split; [reflexivity|]. apply not_next_cons, E.
        -- intros e s' (h' & S' & Hsub). exists h'. split; [|exact Hsub].
           eapply step_weaken; [exact S'|]. intros i o H i0 Hi. apply H, g_new_some, Hi.
    + apply wpP_now.
      apply wpP_now.
      eapply k_tail00; [exact C|apply IH; side|].
      intros e i o (m & -> & He) i0 [Hi Hnn]. rewrite <- app_assoc. cbn [app]. apply He. split; [|exact Hnn].
      eapply g_new_bare; [apply kw_cons, Hn|exact Hi|exact Hnn].
Qed.

Lemma more_new_ok g news base0 h s : At h s -> at_place g s -> L <= W h + b ->
  Forall (fun t => tk_value t = TReserved R_New) news -> news <> [] ->
  wpP (more_new_expression V R news base0) s
      (post0 h s (fun e i o => (forall i0, G g Member i0 i base0 -> G g Lhs (news ++ i0) o e) /\ lhs_done o)).
Proof.
  intros HA Hg Hb Hnews Hne. unfold more_new_expression. pose proof (cur_refl _ _ _ _ HA) as C.
  eapply k_call0; [exact C| |].
  - eapply (k_loop V src (r_fuel R) _ (fun e i o => forall i0, G g Member i0 i base0 -> G g Member i0 o e)
              (fun e i o => forall i0, G g Member i0 i base0 -> G g NewArgs i0 o e)); [side|side| |].
    + intros i o ->. auto.
    + intros acc h1 s1 C1. eapply wpP_bind; [apply (deref_opt_ok g); side|].
      intros [x|] s2; [intros (h2 & S2 & Hw & Hsub)|intros (h2 & S2 & Hsub)].
      * eapply k_loop_next; [eapply cur_seq; [exact C1|split; eassumption]|exact Hw|].
        intros i o (m & Hp & Hx) i0 Hi. eapply access_member; [apply Hp, Hi|exact Hx].
      * eapply k_loop_done; [eapply cur_seq; [exact C1|split; eassumption]|].
        intros i o (m & Hp & -> & Hx) i0 Hi. apply g_new_base; [apply Hp, Hi|exact Hx].
  - intros base s1 h1 Hw1 C1. eapply k_call0; [exact C1|apply (apply_news_ok g); try side|].
    { apply Forall_rev, Hnews. }
    intros base2 s2 h2 Hw2 C2. eapply k_tail00; [exact C2|apply (more_suffixes_ok g); side|].
    intros e i o (m & (m1 & (m2 & -> & Hd) & Hn) & Hs & Hdone). split; [|exact Hdone].
    intros i0 Hi. apply Hs. rewrite rev_involutive in Hn.
    destruct news as [|n news]; [congruence|]. inversion Hnews; subst.
    eapply g_lhs_new; [apply kw_cons; eassumption|]. apply (Hn i0), Hd, Hi.
Qed.

Lemma read_news_ok h s : At h s -> L <= W h + b ->
  wpP (read_news V R) s
      (post0 h s (fun news i o => i = news ++ o /\ Forall (fun t => tk_value t = TReserved R_New) news)).
Proof.
  intros HA Hb. unfold read_news.
  eapply (k_loop V src (r_fuel R) _
            (fun news i o => i = news ++ o /\ Forall (fun t => tk_value t = TReserved R_New) news)); [side|side| |].
  - intros i o ->. auto.
  - intros acc h1 s1 C1. kp k_peek. intros t s2 r Ha Hl Hs S2 C2.
    destruct (is_t t (TReserved R_New)) eqn:E.
    + eapply k_reread; [exact I|exact C2|exact Ha|exact E|]. intros s3 Ht3 Hw3 H3 Ha3 C3.
      eapply k_loop_next; [exact C3|w_|]. intros i o (m & (m1 & (-> & Hf) & -> & _) & ->).
      rewrite <- app_assoc. split; [reflexivity|]. apply Forall_app. auto.
    + eapply k_loop_done; [exact C2|]. intros i o (m & H & -> & _). exact H.
Qed.

Lemma lhs_ok g h s : At h s -> at_place g s -> L <= W h + b ->
  wpP (lhs_expression V R) s (post1 h s (fun e i o => G g Lhs i o e /\ lhs_done o)).
Proof.
  intros HA Hg Hb. unfold lhs_expression. pose proof (cur_refl _ _ _ _ HA) as C.
  eapply wpP_bind; [apply wpP_conj with (Q1 := post0 h s (fun news i o => i = news ++ o /\ Forall (fun t => tk_value t = TReserved R_New) news))
     (Q2 := fun news _ => Forall (fun t => tk_value t = TReserved R_New) news)|].
  - apply read_news_ok; side.
  - eapply wpP_conseq; [apply read_news_ok; side|]. intros news s1 (h1 & (A1 & _ & _ & ts & _ & H) & _).
    destruct (H _ (pre_refl _)) as (_ & _ & Hf). exact Hf.
  - intros news s1 [(h1 & S1 & Hsub1) Hnews].
    assert (C1 : cur h s h1 s1 (fun i o => i = news ++ o)).
    { split; [|exact Hsub1]. eapply step_weaken; [exact S1|]. intros i o [H _]. exact H. }
    clear S1 Hsub1. destruct (rev news) as [|new news'] eqn:Er.
    + assert (news = []) by (rewrite <- (rev_involutive news), Er; reflexivity). subst news.
      unfold call_expression. eapply k_call; [exact C1|apply (primary_ok g); side|]. intros e s2 h2 Hw2 C2.
      eapply k_tail0; [exact C2|w_|apply (more_suffixes_ok g); side|].
      intros e' i o (m & (m1 & -> & He) & Hs & Hd). split; [|exact Hd]. apply Hs, g_lhs_base, g_base, He.
    + assert (Hn : news = rev news' ++ [new]) by (rewrite <- (rev_involutive news), Er; reflexivity).
      assert (Hne : news <> []) by (rewrite Hn; destruct (rev news'); discriminate).
      eapply k_matches_op; [exact HV|exact I|exact C1| |].
      * intros t2 s2 Ht2 Hw2 C2. kpd k_expect. intros t3 s3 Ht3 Hw3 H3 C3.
        rewrite Hn in Hnews. apply Forall_app in Hnews as [Hnews' Hnew]. inversion Hnew as [|? ? Hkw _]; subst.
        set (nt := E_NewTarget (span_of (Some (tk_loc new)) (Some (tk_loc t3)))).
        destruct news' as [|x news'].
        -- eapply k_tail0; [exact C3|w_|apply (more_suffixes_ok g); side|].
           intros e i o (m & (m1 & (m2 & -> & ->) & ->) & Hs & Hd). split; [|exact Hd]. apply Hs. cbn [rev app].
           eapply g_lhs_base, g_new_target; eauto with g.
        -- eapply k_tail0; [exact C3|w_|apply (more_new_ok g); try side|].
           { cbn [rev]. destruct (rev news'); discriminate. }
           intros e i o (m & (m1 & (m2 & -> & ->) & ->) & Hs & Hd). split; [|exact Hd].
           rewrite <- app_assoc. apply Hs. cbn [app].
           eapply g_member, g_new_target; eauto with g.
      * intros t2 s2 r2 Ht2 Ha2 C2. unfold new_expression.
        eapply k_call; [exact C2|apply (member_base_ok g); side|]. intros e s3 h3 Hw3 C3.
        eapply k_tail0; [exact C3|w_|apply (more_new_ok g); try side|].
        intros e' i o (m & (m1 & (m2 & -> & -> & _) & He) & Hs & Hd). split; [|exact Hd]. apply Hs, g_member, He.
Qed.

(** ** Unary operators *)

Definition prefix_tok (t : token) (p : PState.prefix) : Prop :=
  match p with
  | Pre_Inc l => tk_value t = TPunc T_Inc /\ l = tk_loc t
  | Pre_Dec l => tk_value t = TPunc T_Dec /\ l = tk_loc t
  | Pre_Unop o => spelled t (unop_text (op_tag o)) /\ op_loc o = Some (tk_loc t)
  end.

Lemma token_unop_not_eof t u : token_unop t = Some u -> tk_value t <> TPunc T_EOF.
Proof. unfold token_unop. intros H E. rewrite E in H. discriminate. Qed.

Lemma match_prefix_ok h s : At h s ->
  wpP (match_prefix V) s
      (fun x s' => match x with
        | Some p => post1 h s (fun p i o => exists t, i = t :: o /\ prefix_tok t p) p s'
        | None => post0 h s (fun _ => eq) tt s'
        end).
Proof.
  intros HA. unfold match_prefix. pose proof (cur_refl _ _ _ _ HA) as C.
  kp k_read. intros t s1 Hw1 H1 C1.
  destruct (is_t t (TPunc T_Inc)) eqn:E1.
  { apply is_t_true in E1; [|exact I]. apply wpP_ret. eapply post1_cur; [eapply cur_weaken; [exact C1|]|w_].
    intros i o (m & -> & ->). exists t. split; [reflexivity|split; auto]. }
  destruct (is_t t (TPunc T_Dec)) eqn:E2.
  { apply is_t_true in E2; [|exact I]. apply wpP_ret. eapply post1_cur; [eapply cur_weaken; [exact C1|]|w_].
    intros i o (m & -> & ->). exists t. split; [reflexivity|split; auto]. }
  eapply k_unread; [exact C|exact H1|]. intros s2 Ha C2. unfold match_unop.
  apply wpP_assoc. eapply k_read; [exact HV|exact C2|]. intros t3 s3 Hw3 H3 C3.
  destruct (token_unop t3) as [u|] eqn:Eu.
  - pose proof (token_unop_not_eof _ _ Eu). apply wpP_now. apply wpP_ret. cbn [option_map].
    eapply post1_cur; [eapply cur_weaken; [exact C3|]|w_].
    intros i o (m & (m1 & -> & -> & _) & ->). exists t3. split; [reflexivity|].
    split; [apply token_unop_some, Eu|reflexivity].
  - apply wpP_assoc. eapply k_unread; [exact C2|exact H3|]. intros s4 Ha4 C4. apply wpP_now, wpP_ret. cbn [option_map].
    eapply post0_cur, cur_weaken; [exact C4|]. intros i o (m & (m1 & -> & -> & _) & -> & _). reflexivity.
Qed.

Lemma read_prefixes_ok h s : At h s -> L <= W h + b ->
  wpP (read_prefixes V R) s (post0 h s (fun ps i o => exists ts, i = ts ++ o /\ Forall2 prefix_tok ts ps)).
Proof.
  intros HA Hb. unfold read_prefixes.
  eapply (k_loop V src (r_fuel R) _ (fun ps i o => exists ts, i = ts ++ o /\ Forall2 prefix_tok ts ps)); [side|side| |].
  - intros i o ->. exists []. auto.
  - intros acc h1 s1 C1. eapply wpP_bind; [apply match_prefix_ok; side|].
    intros [x|] s2; [intros (h2 & S2 & Hw & Hsub)|intros (h2 & S2 & Hsub)].
    + eapply k_loop_next; [eapply cur_seq; [exact C1|split; eassumption]|exact Hw|].
      intros i o (m & (ts & -> & Hts) & t & -> & Ht). exists (ts ++ [t]).
      rewrite <- app_assoc. split; [reflexivity|]. apply Forall2_app; auto.
    + eapply k_loop_done; [eapply cur_seq; [exact C1|split; eassumption]|].
      intros i o (m & H & ->). exact H.
Qed.

Lemma match_postfix_ok h s : At h s ->
  wpP (match_postfix_operator_opt V) s
      (fun x s' => match x with
        | Some p => post1 h s (fun p i o => exists t, i = t :: o /\ tk_newline t = false
             /\ match p with Post_Inc l => tk_value t = TPunc T_Inc /\ l = tk_loc t
                           | Post_Dec l => tk_value t = TPunc T_Dec /\ l = tk_loc t end) p s'
        | None => post0 h s (fun _ => look (next (fun t => ~ postfix_op t))) tt s'
        end).
Proof.
  intros HA. unfold match_postfix_operator_opt. pose proof (cur_refl _ _ _ _ HA) as C.
  kp k_read_op. intros t s1 Hw1 H1 C1.
  destruct (negb (tk_newline t) && is_t t (TPunc T_Inc)) eqn:E1.
  { apply andb_true_iff in E1 as [En E1]. apply negb_true_iff in En.
    apply is_t_true in E1; [|exact I]. apply wpP_ret. eapply post1_cur; [eapply cur_weaken; [exact C1|]|w_].
    intros i o (m & -> & ->). exists t. split; [reflexivity|split; auto]. }
  destruct (negb (tk_newline t) && is_t t (TPunc T_Dec)) eqn:E2.
  { apply andb_true_iff in E2 as [En E2]. apply negb_true_iff in En.
    apply is_t_true in E2; [|exact I]. apply wpP_ret. eapply post1_cur; [eapply cur_weaken; [exact C1|]|w_].
    intros i o (m & -> & ->). exists t. split; [reflexivity|split; auto]. }
  eapply k_unread; [exact C|exact H1|]. intros s2 Ha C2. apply wpP_ret.
  eapply post0_cur, cur_weaken; [exact C2|]. intros i o (m & -> & -> & r & ->). split; [reflexivity|].
  apply next_cons. intros [En [E|[E|[]]]].
  - rewrite En, (is_t_refl t (TPunc T_Inc)) in E1; [discriminate|exact I|congruence].
  - rewrite En, (is_t_refl t (TPunc T_Dec)) in E2; [discriminate|exact I|congruence].
Qed.

Lemma to_target_ok e s (Q : target -> pst -> Prop) : (forall x, e = target_expr x -> Q x s) -> wpP (to_target e) s Q.
Proof.
  intros H. unfold to_target. destruct (into_assign_target e) as [c|x] eqn:E; [apply wpP_err|].
  apply wpP_ret, H, target_iff, E.
Qed.
Lemma to_patt_ok e s (Q : patt target -> pst -> Prop) :
  (forall x, e = patt_expr x -> rests_unlocated x -> Q x s) -> wpP (to_patt e) s Q.
Proof.
  intros H. unfold to_patt. destruct (into_assign_patt e) as [c|x] eqn:E; [apply wpP_err|].
  apply patt_iff in E as [E1 E2]. apply wpP_ret, H; assumption.
Qed.

Lemma apply_prefixes_ok g : forall ps arg s,
  wpP (apply_prefixes ps arg) s (fun e s' => s' = s /\ forall ts i o, Forall2 prefix_tok ts ps ->
    G g Unary i o arg -> G g Unary (rev ts ++ i) o e).
Proof.
  induction ps as [|p ps IH]; intros arg s; cbn [apply_prefixes].
  - apply wpP_ret. split; [reflexivity|]. intros ts i o H. inversion H; subst. cbn. auto.
  - destruct p as [u|l|l].
    + eapply wpP_conseq; [apply IH|]. intros e s' [-> H]. split; [reflexivity|].
      intros ts i o Hts Harg. inversion Hts as [|t p0 ts' ps0 Hp Hts' E1 E2]; subst; destruct Hp as [Ht Hl]; subst. cbn [rev].
      rewrite <- app_assoc. cbn [app]. apply H; [exact Hts'|].
      destruct u as [ol u]. cbn in Hl, Ht |- *. subst ol. apply g_unary_op; assumption.
    + eapply wpP_bind; [apply to_target_ok with (Q := fun x s' => s' = s /\ arg = target_expr x); auto|].
      intros x s' [-> Hx]. eapply wpP_conseq; [apply IH|]. intros e s' [-> H]. split; [reflexivity|].
      intros ts i o Hts Harg. inversion Hts as [|t p0 ts' ps0 Hp Hts' E1 E2]; subst; destruct Hp as [Ht Hl]; subst. cbn [rev].
      rewrite <- app_assoc. cbn [app]. apply H; [exact Hts'|]. apply g_unary_inc; assumption.
    + eapply wpP_bind; [apply to_target_ok with (Q := fun x s' => s' = s /\ arg = target_expr x); auto|].
      intros x s' [-> Hx]. eapply wpP_conseq; [apply IH|]. intros e s' [-> H]. split; [reflexivity|].
      intros ts i o Hts Harg. inversion Hts as [|t p0 ts' ps0 Hp Hts' E1 E2]; subst; destruct Hp as [Ht Hl]; subst. cbn [rev].
      rewrite <- app_assoc. cbn [app]. apply H; [exact Hts'|]. apply g_unary_dec; assumption.
Qed.

Lemma unary_ok g h s : At h s -> at_place g s -> L <= W h + b ->
  wpP (unary_expression V R) s (post1 h s (fun e i o => G g Unary i o e)).
Proof.
  intros HA Hg Hb. unfold unary_expression. pose proof (cur_refl _ _ _ _ HA) as C.
  eapply k_call0; [exact C|apply read_prefixes_ok; side|]. intros ps s1 h1 Hw1 C1.
  eapply k_call; [exact C1|apply (lhs_ok g); side|]. intros e s2 h2 Hw2 C2.
  assert (Hend : forall h3 s3 R3 arg, cur h s h3 s3 R3 -> W h < W h3 ->
     (forall i o, R3 i o -> exists ts m, i = ts ++ m /\ Forall2 prefix_tok ts ps /\ G g Postfix m o arg) ->
     wpP (apply_prefixes (rev ps) arg) s3 (post1 h s (fun e i o => G g Unary i o e))).
  { intros h3 s3 R3 arg C3 Hw3 H3. eapply wpP_conseq; [apply (apply_prefixes_ok g)|].
    intros e' s' [-> H]. eapply post1_cur; [eapply cur_weaken; [exact C3|]|exact Hw3].
    intros i o Hi. destruct (H3 _ _ Hi) as (ts & m & -> & Hts & Harg).
    rewrite <- (rev_involutive ts). apply H; [|apply g_unary_none, Harg].
    clear - Hts. induction Hts; cbn; [constructor|]. apply Forall2_app; auto. }
  eapply wpP_bind; [apply match_postfix_ok; side|].
  intros [p|] s3; [intros (h3 & S3 & Hw3 & Hsub)|intros (h3 & S3 & Hsub)].
  - assert (C3 := cur_seq _ _ _ _ _ _ _ _ _ _ C2 (conj S3 Hsub)).
    unfold apply_postfix. apply wpP_assoc.
    eapply wpP_bind; [apply to_target_ok with (Q := fun x s' => s' = s3 /\ e = target_expr x); auto|].
    intros x s' [-> Hx]. apply wpP_now. eapply Hend; [exact C3|w_|].
    intros i o (m & (m1 & (m2 & -> & ts & -> & Hts) & He & _) & t & -> & Hnl & Hp).
    exists ts, m1. split; [reflexivity|]. split; [exact Hts|]. rewrite Hx in He.
    destruct p as [l|l]; destruct Hp as [Hv ->]; [eapply g_postfix_inc|eapply g_postfix_dec]; eassumption.
  - assert (C3 := cur_seq _ _ _ _ _ _ _ _ _ _ C2 (conj S3 Hsub)). apply wpP_now.
    assert (W h2 <= W h3) by apply S3. eapply Hend; [exact C3|w_|].
    intros i o (m & (m1 & (m2 & -> & ts & -> & Hts) & He & Hd) & -> & t & o' & -> & Hp).
    exists ts, m1. split; [reflexivity|]. split; [exact Hts|]. apply g_postfix_none; [exact He| |discriminate].
    destruct Hd as (t' & o'' & E & Hd). injection E as <- <-. apply next_cons. auto.
Qed.

(** ** Infix operators *)

(** Operators, each followed by an operand. *)
Fixpoint segs (g : place) (more : list (infix * expr)) (i o : tokens) : Prop :=
  match more with
  | [] => i = o
  | (op, e) :: more' => exists t i1 i2, i = t :: i1 /\ infix_tok (pl_in g) t op /\ G g Unary i1 i2 e
                                        /\ segs g more' i2 o
  end.
Lemma segs_app g m1 m2 i o : segs g (m1 ++ m2) i o <-> exists m, segs g m1 i m /\ segs g m2 m o.
Proof.
  revert i. induction m1 as [|[op e] m1 IH]; intros i; cbn.
  - split; [intros H; exists i; auto|intros (m & -> & H); exact H].
  - split.
    + intros (t & i1 & i2 & -> & Ht & He & H). apply IH in H as (m & H1 & H2).
      exists m. split; [|exact H2]. exists t, i1, i2. auto.
    + intros (m & (t & i1 & i2 & -> & Ht & He & H1) & H2). exists t, i1, i2.
      split; [reflexivity|]. split; [exact Ht|]. split; [exact He|]. apply IH. exists m. auto.
Qed.

Lemma infix_down g n m i o e : n <= m -> m <= length levels -> G g (Infix m) i o e -> G g (Infix n) i o e.
Proof.
  intros Hn. induction Hn as [|m Hn IH]; [auto|]. intros Hm H. apply IH; [lia|].
  apply g_infix_up; [lia|exact H].
Qed.

Lemma grouping_infix g gr : forall i i1 o n, well_grouped gr ->
  G g Unary i i1 (fst (written gr)) -> segs g (snd (written gr)) i1 o -> n <= length levels ->
  (forall op m, applies gr op -> at_level op m -> n <= m) -> G g (Infix n) i o (denote gr).
Proof.
  induction gr as [e|l IHl op r IHr]; intros i i1 o n Hwg He Hs Hn Hlev.
  - cbn in He, Hs. subst i1. cbn [denote]. eapply infix_down; [exact Hn|apply le_n|]. apply g_infix_unary, He.
  - destruct Hwg as (Hl & Hr & Hll & Hlr). cbn [written fst snd] in He, Hs.
    apply segs_app in Hs as (m & Hs1 & Hs2). cbn in Hs2.
    destruct Hs2 as (t & m1 & m2 & -> & Ht & He2 & Hs2).
    destruct (level_exists op) as (lv & Hlv & _).
    assert (Hlt : lv < length levels).
    { destruct Hlv as (ws & w & Hnth & _). apply nth_error_Some. congruence. }
    assert (n <= lv) by (eapply Hlev; [right; left; reflexivity|exact Hlv]).
    eapply infix_down; [eassumption|lia|].
    assert (D : denote (Apply l op r) = infix_expr (span_of (expr_loc (denote l)) (expr_loc (denote r))) op (denote l) (denote r)).
    { destruct op; reflexivity. }
    rewrite D. eapply g_infix_op; [|exact Ht|exact Hlv|].
    + eapply IHl; [exact Hl|exact He|exact Hs1|lia|]. intros o' m' Ha Hm. eapply Hll; eassumption.
    + eapply IHr; [exact Hr|exact He2|exact Hs2|lia|]. intros o' m' Ha Hm.
      assert (lv < m') by (eapply Hlr; eassumption). lia.
Qed.

Lemma infix_text_not_empty op : infix_text op <> [].
Proof. destruct op as [[l []]|[l []]]; discriminate. Qed.
Lemma infix_not_eof b' t op : infix_tok b' t op -> tk_value t <> TPunc T_EOF.
Proof.
  intros ([(p & Hv & Hp & Hne)|(r & Hv & _)] & _) E; rewrite Hv in E; [|discriminate].
  injection E as ->. cbn in Hp. congruence.
Qed.

Lemma more_infix_ok g left h s : At h s -> at_place g s -> L <= W h + b ->
  wpP (more_infix_expressions V R left) s
      (post0 h s (fun e i o => (forall i0, G g Unary i0 i left -> G g (Infix 0) i0 o e)
                               /\ next (fun t => forall op, ~ infix_tok (pl_in g) t op) o)).
Proof.
  intros HA Hg Hb. unfold more_infix_expressions.
  eapply (k_loop V src (r_fuel R) _
     (fun x i o => exists more, segs g more i o
        /\ forall rest, feed stack_new left (more ++ rest) = feed (fst x) (snd x) rest)); [side|side| |].
  - intros i o ->. exists []. split; [reflexivity|]. reflexivity.
  - intros [st operand] h1 s1 C1. unfold match_infix. apply wpP_assoc.
    kp k_read_op. intros t s2 Hw2 H2 C2. apply wpP_assoc, wpP_get_context.
    assert (Hin : cx_allow_in (p_context s2) = pl_in g).
    { symmetry. assert (Hp : at_place g s2) by pl_. apply Hp. }
    rewrite Hin. destruct (token_infix t (pl_in g)) as [op|] eqn:E.
    + apply token_infix_some in E. pose proof (infix_not_eof _ _ _ E). apply wpP_now.
      eapply k_call; [exact C2|apply (unary_ok g); side|]. intros e s3 h3 Hw3 C3.
      eapply k_loop_next; [exact C3|w_|].
      intros i o (m & (m1 & (more & Hm & Hf) & ->) & He). exists (more ++ [(op, e)]). split.
      * apply segs_app. exists (t :: m). split; [exact Hm|]. cbn. exists t, m, o. auto.
      * intros rest. rewrite <- app_assoc. cbn [app]. rewrite Hf. reflexivity.
    + pose proof (token_infix_none _ _ E) as Hno. apply wpP_assoc.
      eapply k_unread; [exact C1|exact H2|]. intros s3 Ha C3. apply wpP_now.
      eapply k_loop_done; [exact C3|].
      intros i o (m & (more & Hm & Hf) & -> & r & ->). split; [|apply next_cons, Hno].
      intros i0 Hi. specialize (Hf []). rewrite app_nil_r in Hf. cbn [feed fst snd] in Hf. rewrite <- Hf.
      destruct (feed_grouping left more) as (gr & -> & Hwg & Hwr).
      eapply grouping_infix; [exact Hwg|rewrite Hwr; exact Hi|rewrite Hwr; exact Hm|lia|lia].
Qed.

Lemma conditional_ok g h s : At h s -> at_place g s -> L <= W h + b ->
  wpP (conditional_expression V R) s (post1 h s (fun e i o => G g Conditional i o e)).
Proof.
  intros HA Hg Hb. unfold conditional_expression, more_conditional. pose proof (cur_refl _ _ _ _ HA) as C.
  eapply k_call; [exact C|apply (unary_ok g); side|]. intros left s1 h1 Hw1 C1.
  eapply k_call0; [exact C1|apply (more_infix_ok g); side|]. intros test s2 h2 Hw2 C2.
  eapply k_matches_op; [exact HV|exact I|exact C2| |].
  - intros t3 s3 Ht3 Hw3 C3.
    eapply (k_in V src _ _ _ g); [pl_|exact C3|intros s' HA' Hg'; apply assign_ok; side|].
    intros e2 s4 h4 Hw4 C4. kpd k_expect. intros t5 s5 Ht5 Hw5 H5 C5.
    eapply k_call; [exact C5|apply (assign_ok g); side|]. intros e3 s6 h6 Hw6 C6.
    eapply k_ret; [exact C6|w_|].
    intros i o (m & (m1 & (m2 & (m3 & (m4 & (m5 & -> & Hl) & Ht & _) & ->) & H2) & ->) & H3).
    eapply g_cond; [apply Ht, Hl|apply op_cons, Ht3|exact H2|apply op_cons, Ht5|exact H3].
  - intros t3 s3 r3 Ht3 Ha3 C3. eapply k_ret; [exact C3|w_|].
    intros i o (m & (m1 & (m2 & -> & Hl) & Ht & Hn) & -> & r & ->).
    apply g_cond_none; [apply Ht, Hl| |discriminate]. destruct Hn as (t' & o' & E & Hn). injection E as <- <-.
    apply next_cons. auto.
Qed.

Lemma assop_not_eof t o : to_assop t = Some o -> tk_value t <> TPunc T_EOF.
Proof. unfold to_assop, mk_op. intros H E. rewrite E in H. discriminate. Qed.

Lemma assignment_ok g h s : At h s -> at_place g s -> L <= W h + b ->
  wpP (assignment_expression V R) s (post1 h s (fun e i o => G g Assignment i o e)).
Proof.
  intros HA Hg Hb. unfold assignment_expression, more_assignment. pose proof (cur_refl _ _ _ _ HA) as C.
  eapply k_call; [exact C|apply (conditional_ok g); side|]. intros left s1 h1 Hw1 C1.
  kp k_read_op. intros t s2 Hw2 H2 C2.
  destruct (is_t t (TPunc T_Assign)) eqn:E1.
  { apply is_t_true in E1; [|exact I].
    eapply wpP_bind; [apply to_patt_ok with (Q := fun x s' => s' = s2 /\ left = patt_expr x /\ rests_unlocated x); auto|].
    intros x s' (-> & Hx & Hr). eapply k_call; [exact C2|apply (assign_ok g); side|]. intros e s3 h3 Hw3 C3.
    eapply k_ret; [exact C3|w_|]. intros i o (m & (m1 & (m2 & -> & Hl) & ->) & He). rewrite Hx in Hl.
    eapply g_assign; [exact Hl|exact Hr|apply op_cons, E1|exact He]. }
  apply is_t_false in E1; [|exact I].
  destruct (to_assop t) as [op|] eqn:E2.
  - pose proof (assop_not_eof _ _ E2). apply to_assop_some in E2 as [Hsp Hloc].
    eapply wpP_bind; [apply to_target_ok with (Q := fun x s' => s' = s2 /\ left = target_expr x); auto|].
    intros x s' (-> & Hx). eapply k_call; [exact C2|apply (assign_ok g); side|]. intros e s3 h3 Hw3 C3.
    eapply k_ret; [exact C3|w_|]. intros i o (m & (m1 & (m2 & -> & Hl) & ->) & He). rewrite Hx in Hl.
    destruct op as [ol a']. cbn in Hsp, Hloc. subst ol. eapply g_assign_op; eassumption.
  - eapply k_unread; [exact C1|exact H2|]. intros s3 Ha C3. eapply k_ret; [exact C3|w_|].
    intros i o (m & (m1 & -> & Hl) & -> & r & ->). apply g_assign_none; [exact Hl|].
    apply next_cons, to_assop_none; assumption.
Qed.
End Expr.
