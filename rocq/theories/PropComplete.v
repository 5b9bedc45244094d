(** Every program of the grammar is parsed (C67), and in one way only (C69).  The
    vocabulary is that of [SpecGrammar] and [SpecParser]. *)
From Coq Require Import String Ascii List NArith Arith Bool Lia.
From Verif Require Import Base Chars Word Token Reader Lexer LexClient Punc Ast Track PState Parser Api SpecStack SpecTree
  SpecLexer LexTheorems LexExact SpecGrammar SpecParser SpecEntry ParserTop GrammarProps CompEntry PropLayout.
Import ListNotations.
Local Open Scope nat_scope.

(** C67: if the first tokens of the text are a program according to the grammar, [script]
    returns the tree of that program (up to locations, which are the subject of C41 to
    C43 and C59).  [GX true] is the grammar [G] of C44 without nested labels of the same
    name, and with slashes only where the parser reads them the same way. *)
Theorem C67_script : forall V src ts rest k t, ucd_ok V -> reads V src (ts ++ rest) k ->
  GX true (top Sloppy) Script (ts ++ rest) rest t ->
  exists t', script_of V src = Ok t' /\ script_untrack t' = script_untrack t.
Proof. intros V src ts rest k t HV Hr D. exact (script_found V src HV false ts rest k t Hr D). Qed.
Print Assumptions C67_script.

Theorem C67_strict : forall V src ts rest k t, ucd_ok V -> reads V src (ts ++ rest) k ->
  GX true (top Strict) Script (ts ++ rest) rest t ->
  exists t', strict_of V src = Ok t' /\ script_untrack t' = script_untrack t.
Proof. intros V src ts rest k t HV Hr D. exact (script_found V src HV true ts rest k t Hr D). Qed.
Print Assumptions C67_strict.

(** [module] and [program] read to the end of the input. *)
Theorem C67_module : forall V src ts e rest k l ds is, ucd_ok V -> reads V src (ts ++ e :: rest) k -> at_eof e ->
  GX true (top Module_) Script (ts ++ e :: rest) (e :: rest) (Body l ds is) ->
  exists t', module_of V src = Ok t' /\ module_untrack t' = module_untrack (Body l ds (map MI_Item is)).
Proof.
  intros V src ts e rest k l ds is HV Hr He D. exact (module_found V src HV ts e rest k _ Hr He D).
Qed.
Print Assumptions C67_module.

Theorem C67_program : forall V src ts e rest k t, ucd_ok V -> reads V src (ts ++ e :: rest) k -> at_eof e ->
  GX true (top Sloppy) Script (ts ++ e :: rest) (e :: rest) t ->
  exists cs t', program_of V src = Ok (Pg_Ambiguous cs t') /\ script_untrack t' = script_untrack t.
Proof. intros V src ts e rest k t HV Hr He D. exact (program_found V src HV ts e rest k t Hr He D). Qed.
Print Assumptions C67_program.

(** C67: an error is a proof that the text is no such program. *)
Theorem C67_errors_are_justified : forall V src ts k, ucd_ok V -> reads V src ts k ->
  (forall e rest t, script_of V src = Err e -> ~ GX true (top Sloppy) Script ts rest t)
  /\ (forall e rest t, strict_of V src = Err e -> ~ GX true (top Strict) Script ts rest t)
  /\ (forall e eof rest t, module_of V src = Err e -> at_eof eof -> ~ GX true (top Module_) Script ts (eof :: rest) t)
  /\ (forall e eof rest t, program_of V src = Err e -> at_eof eof -> ~ GX true (top Sloppy) Script ts (eof :: rest) t).
Proof.
  intros V src ts k HV Hr. split; [|split; [|split]].
  - intros e rest t E D. destruct (G_suffix _ _ _ _ _ _ D) as (pre & ->).
    destruct (C67_script _ _ _ _ _ _ HV Hr D) as (t' & E' & _). congruence.
  - intros e rest t E D. destruct (G_suffix _ _ _ _ _ _ D) as (pre & ->).
    destruct (C67_strict _ _ _ _ _ _ HV Hr D) as (t' & E' & _). congruence.
  - intros e eof rest [l ds is] E He D. destruct (G_suffix _ _ _ _ _ _ D) as (pre & ->).
    destruct (C67_module _ _ _ _ _ _ _ _ _ HV Hr He D) as (t' & E' & _). congruence.
  - intros e eof rest t E He D. destruct (G_suffix _ _ _ _ _ _ D) as (pre & ->).
    destruct (C67_program _ _ _ _ _ _ _ HV Hr He D) as (cs & t' & E' & _). congruence.
Qed.
Print Assumptions C67_errors_are_justified.

(** C69: the same tokens form one program at most. *)
Theorem C69_unambiguous : forall V src m ts k r1 r2 t1 t2, ucd_ok V -> reads V src ts k ->
  GX true (top m) Script ts r1 t1 -> GX true (top m) Script ts r2 t2 -> script_untrack t1 = script_untrack t2.
Proof. intros V src m ts k r1 r2 t1 t2 HV Hr D1 D2. exact (body_unambiguous V src HV m ts k r1 r2 t1 t2 Hr D1 D2). Qed.
Print Assumptions C69_unambiguous.

(** A program that meets the hypotheses. *)
Ltac tok := first [eexists; split; [reflexivity|reflexivity]].
Ltac nx := eexists _, _; split; [reflexivity|].
Ltac refute := let H := fresh in intros H; cbn in H; decompose sum H; discriminate.
Lemma operand V i o e : GX true V Primary i o e ->
  next (fun t => In (tk_value t) [TPunc T_Semi; TPunc T_RParen]) o -> GX true V Expression i o e.
Proof.
  intros D (t & o' & -> & Ht).
  assert (Hs : forall w, spelled t w -> w = lit ";" \/ w = lit ")").
  { intros w [(p & E & Hw & _)|(r & E & Hr)]; destruct Ht as [Ht|[Ht|[]]]; try congruence;
      [left|right]; assert (p = T_Semi \/ p = T_RParen) as [-> | ->] by (rewrite E in Ht; injection Ht; auto);
      rewrite <- Hw; try reflexivity; rewrite E in Ht; discriminate Ht. }
  apply g_expr; [apply g_assign_none; [apply g_cond_none|]|].
  - assert (D' : GX true V (Infix (length levels)) i (t :: o') e).
    { apply g_infix_unary, g_unary_none, g_postfix_none; [apply g_lhs_base, g_base, D| |].
      - exists t, o'. split; [reflexivity|]. destruct Ht as [Ht|[Ht|[]]]; rewrite <- Ht;
          (split; [intros [_ [K|[K|[]]]]; congruence|]); repeat split; discriminate.
      - intros _. exists t, o'. split; [reflexivity|]. intros (r & K). destruct Ht as [Ht|[Ht|[]]]; congruence. }
    assert (Hn : forall n, n <= length levels -> GX true V (Infix (length levels - n)) i (t :: o') e).
    { induction n as [|n IH]; intros Hn; [rewrite Nat.sub_0_r; exact D'|]. apply g_infix_up; [lia|].
      replace (S (length levels - S n)) with (length levels - n) by lia. apply IH. lia. }
    specialize (Hn (length levels) (le_n _)). rewrite Nat.sub_diag in Hn. exact Hn.
  - exists t, o'. split; [reflexivity|]. split; [|destruct Ht as [Ht|[Ht|[]]]; congruence].
    intros op [K _]. apply Hs in K as [K|K]; destruct op as [[? []]|[? []]]; discriminate K.
  - intros _. exists t, o'. split; [reflexivity|]. intros (r & K). destruct Ht as [Ht|[Ht|[]]]; congruence.
  - exists t, o'. split; [reflexivity|]. intros [K|(a & K)]; [destruct Ht as [Ht|[Ht|[]]]; congruence|].
    apply Hs in K as [K|K]; destruct a; discriminate K.
  - exists t, o'. split; [reflexivity|]. destruct Ht as [Ht|[Ht|[]]]; congruence.
Qed.

Definition example : str := lit "a: while (b) break a;".
Example C67_example : exists ts rest k t, reads env_ascii example (ts ++ rest) k
  /\ GX true (top Sloppy) Script (ts ++ rest) rest t /\ length ts = 9.
Proof.
  assert (R : exists ts x, read_tokens env_ascii (repeat false 10) (lexer_new example) = Ok (ts, x)).
  { eexists _, _. vm_compute. reflexivity. }
  destruct R as (ts & x & R).
  assert (T : exists k, tiles env_ascii example (repeat false 10) true 0 ts k).
  { apply (C66_reads_exactly_the_grammar env_ascii example _ ts ucd_ok_ascii). exists x. exact R. }
  vm_compute in R. injection R as Hts _. subst ts. destruct T as (k & T).
  eexists (firstn 9 _), (skipn 9 _), k. eexists. rewrite firstn_skipn. split; [eexists; exact T|].
  split; [|reflexivity]. cbn [skipn].
  eapply g_script with (l := None); [apply g_dirs_nil| | |].
  - intros t t' r s E. injection E as <- _ _. discriminate.
  - intros _ t t' r s E. injection E as <- _ _. discriminate.
  - eapply g_items_cons; [|apply g_items_nil; nx; cbn; auto].
    eapply g_item_stmt. eapply g_label with (l := None); [apply g_name; [reflexivity|left; reflexivity]|tok|intros _ []|].
    eapply g_while with (l := None);
      [tok|tok|eapply operand; [apply g_id, g_name; [reflexivity|left; reflexivity]|nx; cbn; auto]|tok|].
    eapply g_break_to with (l := None) (k := true);
      [tok|nx; intros [K|[K|K]]; discriminate K|apply g_name; [reflexivity|left; reflexivity]|exists [], []; split; [reflexivity|intros []]
      |apply en_explicit; reflexivity].
Qed.
(** The tree is the one the parser returns, and no other. *)
Example C69_example : exists ts k r t, reads env_ascii example ts k /\ GX true (top Sloppy) Script ts r t
  /\ (forall r' t', GX true (top Sloppy) Script ts r' t' -> script_untrack t' = script_untrack t)
  /\ match script_of env_ascii example with Ok u => script_untrack u = script_untrack t | _ => False end.
Proof.
  destruct C67_example as (ts & rest & k & t & Hr & D & _). exists (ts ++ rest), k, rest, t.
  split; [exact Hr|]. split; [exact D|]. split.
  - intros r' t' D'. exact (C69_unambiguous _ _ _ _ _ _ _ _ _ ucd_ok_ascii Hr D' D).
  - destruct (C67_script _ _ _ _ _ _ ucd_ok_ascii Hr D) as (u & -> & E). exact E.
Qed.
