(** Properties of parsing whole inputs (C07, C27, C28, C31, C34, C36, C38, C39, C44).
    Vocabulary: SpecLexer (tokens), SpecGrammar (the grammar), SpecParser, SpecPlace,
    SpecEntry. *)
From Coq Require Import String Ascii List NArith Arith Bool Lia.
From Verif Require Import Base Chars Word Token Reader Lexer Punc Ast PState Parser Api Wp Node SpecReader
  SpecLexer LexTheorems SpecStack SpecTree SpecGrammar SpecParser SpecPlace SpecEntry ParserWp ParserTop
  GrammarProps.
Import ListNotations.
Local Open Scope nat_scope.

(** ** From runs to results *)

Lemma run_cases {A} (p : P A) s (Q : A -> pst -> Prop) X K : wp p s Q X K ->
  match run p s with
  | Ok a => exists s', Q a s'
  | Err e => True
  | Panic k => K k
  | NoFuel => False
  end.
Proof.
  unfold wp, run. destruct (p s) as [[a s']|e|k|]; intros h; auto. exists s'. exact h.
Qed.

Lemma script_cases V src strict : ucd_ok V ->
  match run (script_ V (parse_rec V (fuel_for src)) strict) (parser_new src) with
  | Ok t => session V src (fun i o => G (top (if strict then Strict else Sloppy)) Script i o t)
  | Err e => True
  | Panic k => lexer_panics V src k
  | NoFuel => False
  end.
Proof.
  intros HV. pose proof (run_cases _ _ _ _ _ (script_run V src HV strict)) as h.
  destruct (run _ _) as [t|e|k|]; auto. destruct h as (s' & h' & hs & _). eapply step_session, hs.
Qed.
Lemma module_cases V src : ucd_ok V ->
  match module_of V src with
  | Ok t => exists l ds is, t = Body l ds (map MI_Item is)
              /\ session V src (fun i o => top_level Module_ ds is i o /\ next at_eof o)
  | Err e => True
  | Panic k => lexer_panics V src k \/ (k = P_unimplemented /\ meets_port V src Module_)
  | NoFuel => False
  end.
Proof.
  intros HV. pose proof (run_cases _ _ _ _ _ (module_run V src HV)) as h. unfold module_of.
  destruct (run _ _) as [t|e|k|]; auto. destruct h as (s' & h). exact h.
Qed.
Lemma program_cases V src : ucd_ok V ->
  match program_of V src with
  | Ok t => exists cs l ds is, t = Pg_Ambiguous cs (Body l ds is)
              /\ session V src (fun i o => top_level Sloppy ds is i o /\ next at_eof o)
  | Err e => True
  | Panic k => lexer_panics V src k \/ (k = P_unimplemented /\ meets_port V src Sloppy)
  | NoFuel => False
  end.
Proof.
  intros HV. pose proof (run_cases _ _ _ _ _ (program_run V src HV)) as h. unfold program_of.
  destruct (run _ _) as [t|e|k|]; auto. destruct h as (s' & h). exact h.
Qed.

Lemma panic_cases V src k : ucd_ok V -> panicked V src k ->
  lexer_panics V src k \/ (k = P_unimplemented /\ exists m, meets_port V src m).
Proof.
  intros HV [k' E|k' E|k' E|k' E].
  - pose proof (script_cases V src false HV) as h. unfold script_of in E. rewrite E in h. left. exact h.
  - pose proof (script_cases V src true HV) as h. unfold strict_of in E. rewrite E in h. left. exact h.
  - pose proof (module_cases V src HV) as h. rewrite E in h. destruct h as [h|[-> h]]; eauto.
  - pose proof (program_cases V src HV) as h. rewrite E in h. destruct h as [h|[-> h]]; eauto.
Qed.

(** ** C07 *)

(** C07: no entry point overflows the two-token look-ahead buffer, or asks for more
    look-ahead than the buffer can hold. *)
Theorem C07_buffer_never_overflows : forall V src k, ucd_ok V -> panicked V src k ->
  k <> P_buffer_full /\ k <> P_lookahead.
Proof.
  intros V src k HV h. destruct (panic_cases V src k HV h) as [[[-> _]|[-> _]]|[-> _]]; split; discriminate.
Qed.
Print Assumptions C07_buffer_never_overflows.

(** A parse that uses two tokens of look-ahead. *)
Example C07_example : exists t, script_of env_ascii (lit "'a' + 'b'; let x = 1; for (let of of y) {}") = Ok t.
Proof. eexists. vm_compute. reflexivity. Qed.
Example C07_panic_example : panicked env_ascii (lit "a = /b") P_read_eof.
Proof. apply pk_script. vm_compute. reflexivity. Qed.

(** ** C27 *)

(** C27: every entry point returns.  [fuel_for src = 2 * length src + 10] bounds both
    the depth of recursion and the iterations of every single loop; PropCost.v bounds the
    total number of steps. *)
Theorem C27_returns : forall V src, ucd_ok V ->
  script_of V src <> NoFuel /\ strict_of V src <> NoFuel
  /\ module_of V src <> NoFuel /\ program_of V src <> NoFuel.
Proof.
  intros V src HV. split; [|split; [|split]]; intros h.
  - pose proof (script_cases V src false HV) as k. unfold script_of in h. rewrite h in k. exact k.
  - pose proof (script_cases V src true HV) as k. unfold strict_of in h. rewrite h in k. exact k.
  - pose proof (module_cases V src HV) as k. rewrite h in k. exact k.
  - pose proof (program_cases V src HV) as k. rewrite h in k. exact k.
Qed.
Print Assumptions C27_returns.

Example C27_example : exists t e, script_of env_ascii (lit "((((a))))") = Ok t
  /\ script_of env_ascii (lit "((((((((((((((((((((((((((((((") = Err e.
Proof. eexists _, _. split; vm_compute; reflexivity. Qed.

(** ** C28 *)

(** C28: [script] and [strict] panic only where the lexer does. *)
Theorem C28_script_panics : forall V src k, ucd_ok V ->
  script_of V src = Panic k \/ strict_of V src = Panic k -> lexer_panics V src k.
Proof.
  intros V src k HV [h|h].
  - pose proof (script_cases V src false HV) as c. unfold script_of in h. rewrite h in c. exact c.
  - pose proof (script_cases V src true HV) as c. unfold strict_of in h. rewrite h in c. exact c.
Qed.
Print Assumptions C28_script_panics.

(** [module] and [program] panic also at [import] and [export], where a top-level
    item would start. *)
Theorem C28_module_panics : forall V src k, ucd_ok V -> module_of V src = Panic k ->
  lexer_panics V src k \/ (k = P_unimplemented /\ meets_port V src Module_).
Proof.
  intros V src k HV h. pose proof (module_cases V src HV) as c. rewrite h in c. exact c.
Qed.
Print Assumptions C28_module_panics.
Theorem C28_program_panics : forall V src k, ucd_ok V -> program_of V src = Panic k ->
  lexer_panics V src k \/ (k = P_unimplemented /\ meets_port V src Sloppy).
Proof.
  intros V src k HV h. pose proof (program_cases V src HV) as c. rewrite h in c. exact c.
Qed.
Print Assumptions C28_program_panics.

Example C28_example : module_of env_ascii (lit "f(); import 'a';") = Panic P_unimplemented
  /\ program_of env_ascii (lit "var x; export var y;") = Panic P_unimplemented
  /\ (exists e, script_of env_ascii (lit "f(); import 'a';") = Err e)
  /\ (exists e, module_of env_ascii (lit "f(import)") = Err e).
Proof. split; [|split; [|split]]; try eexists; vm_compute; reflexivity. Qed.

(** ** C31 *)

Lemma next_token_le V src op b k t k' : next_token V src op b k t k' -> k <= length src -> k <= k' <= length src.
Proof.
  intros (ws & w & l & hs & -> & _) hk. apply (f_equal (@length _)) in hs.
  rewrite skipn_length, !app_length in hs. lia.
Qed.
Lemma tiles_end V src ops b k ts k' : tiles V src ops b k ts k' -> k = length src -> k' = length src.
Proof.
  induction 1 as [|op ops b k t k1 ts k2 h1 h2 IH]; intros E; [exact E|]. subst k.
  pose proof (next_token_le _ _ _ _ _ _ _ h1 (le_n _)). apply IH. lia.
Qed.
Lemma tiles_eof V src ops b k ts k' : tiles V src ops b k ts k' -> k <= length src ->
  (exists t, In t ts /\ at_eof t) -> k' = length src.
Proof.
  induction 1 as [|op ops b k t k1 ts k2 h1 h2 IH]; intros hk (x & hx & he); [contradiction|].
  pose proof (next_token_le _ _ _ _ _ _ _ h1 hk). destruct hx as [->|hx].
  - assert (K : k1 = length src).
    { destruct h1 as (ws & w & l & hs & -> & _ & hl & _). rewrite he in hl.
      assert (w = [] /\ l = []) as [-> ->].
      { inversion hl; subst; [split; reflexivity|]. match goal with K : is_punctuator _ _ |- _ => destruct K; congruence end. }
      apply (f_equal (@length _)) in hs. rewrite skipn_length, !app_length in hs. cbn in *. lia. }
    exact (tiles_end _ _ _ _ _ _ _ h2 K).
  - apply IH; [lia|eauto].
Qed.
Lemma reads_eof V src ts rest k : reads V src (ts ++ rest) k -> next at_eof rest -> k = length src.
Proof.
  intros (ops & h) (t & o & -> & he). apply (tiles_eof _ _ _ _ _ _ _ h); [lia|].
  exists t. split; [apply in_or_app; right; left; reflexivity|exact he].
Qed.

(** C31: a tree returned by [module] or [program] accounts for all tokens of the input:
    its directives and items are made of the tokens [ts], which are followed by the end
    of input. *)
Theorem C31_module_whole : forall V src t, ucd_ok V -> module_of V src = Ok t ->
  exists l ds is ts e rest, t = Body l ds (map MI_Item is) /\ at_eof e
    /\ reads V src (ts ++ e :: rest) (length src)
    /\ top_level Module_ ds is (ts ++ e :: rest) (e :: rest).
Proof.
  intros V src t HV h. pose proof (module_cases V src HV) as c. rewrite h in c.
  destruct c as (l & ds & is & -> & ts & rest & k & hr & _ & ht & he).
  pose proof (reads_eof _ _ _ _ _ hr he) as ->. destruct he as (e & o & -> & he).
  exists l, ds, is, ts, e, o. auto.
Qed.
Print Assumptions C31_module_whole.
Theorem C31_program_whole : forall V src p, ucd_ok V -> program_of V src = Ok p ->
  exists cs l ds is ts e rest, p = Pg_Ambiguous cs (Body l ds is) /\ at_eof e
    /\ reads V src (ts ++ e :: rest) (length src)
    /\ top_level Sloppy ds is (ts ++ e :: rest) (e :: rest).
Proof.
  intros V src t HV h. pose proof (program_cases V src HV) as c. rewrite h in c.
  destruct c as (cs & l & ds & is & -> & ts & rest & k & hr & _ & ht & he).
  pose proof (reads_eof _ _ _ _ _ hr he) as ->. destruct he as (e & o & -> & he).
  exists cs, l, ds, is, ts, e, o. auto.
Qed.
Print Assumptions C31_program_whole.

Example C31_example : (exists t, module_of env_ascii (lit "'d'; f(1); var x = [2]") = Ok t)
  /\ (exists p, program_of env_ascii (lit "'d'; f(1); with (a) b") = Ok p)
  /\ (exists e, module_of env_ascii (lit "f(); }") = Err e).
Proof. split; [|split]; eexists; vm_compute; reflexivity. Qed.

(** ** C44 *)

(** C44: the tree is a derivation, in the grammar, of the tokens consumed. *)
Theorem C44_script : forall V src t, ucd_ok V -> script_of V src = Ok t ->
  exists ts rest k, reads V src (ts ++ rest) k /\ G (top Sloppy) Script (ts ++ rest) rest t.
Proof.
  intros V src t HV h. pose proof (script_cases V src false HV) as c. unfold script_of in h. rewrite h in c.
  destruct c as (ts & rest & k & hr & _ & hg). exists ts, rest, k. auto.
Qed.
Print Assumptions C44_script.
Theorem C44_strict : forall V src t, ucd_ok V -> strict_of V src = Ok t ->
  exists ts rest k, reads V src (ts ++ rest) k /\ G (top Strict) Script (ts ++ rest) rest t.
Proof.
  intros V src t HV h. pose proof (script_cases V src true HV) as c. unfold strict_of in h. rewrite h in c.
  destruct c as (ts & rest & k & hr & _ & hg). exists ts, rest, k. auto.
Qed.
Print Assumptions C44_strict.

Example C44_example : exists t, script_of env_ascii
    (lit "a: while (x < y + 1) { if (z) continue a; x = f(x, [1,,2], {p: 3, q() { return this }}) }") = Ok t
  /\ length (bo_items t) = 1.
Proof. eexists. split; [vm_compute; reflexivity|vm_compute; reflexivity]. Qed.

(** ** C34, C36, C38, C39 *)

Lemma returned_tree V src m n : ucd_ok V -> returned V src m n ->
  exists ts k, reads V src ts k /\ H ts m nothing n.
Proof.
  intros HV [t h|t h|t h|cs t h|t h].
  - apply C44_script in h as (ts & r & k & hr & hg); [|exact HV]. exists (ts ++ r), k.
    split; [exact hr|exact (script_tree _ _ _ _ hg)].
  - apply C44_strict in h as (ts & r & k & hr & hg); [|exact HV]. exists (ts ++ r), k.
    split; [exact hr|exact (script_tree _ _ _ _ hg)].
  - apply C31_module_whole in h as (l & ds & is & ts & e & r & -> & _ & hr & hg); [|exact HV].
    eexists _, _. split; [exact hr|exact (module_tree _ _ _ _ _ _ hg)].
  - apply C31_program_whole in h as (cs' & l & ds & is & ts & e & r & E & _ & hr & hg); [|exact HV].
    injection E as -> ->. eexists _, _. split; [exact hr|exact (body_tree _ _ _ _ _ _ hg)].
  - apply C31_program_whole in h as (cs' & l & ds & is & ts & e & r & E & _); [|exact HV]. discriminate.
Qed.

(** C34: what a tree returned by [strict] or [module] never contains. *)
Theorem C34_strict_trees : forall V src m n x, ucd_ok V -> returned V src m n -> m <> Sloppy ->
  within n x -> strict_ok (match m with Module_ => true | _ => false end) x.
Proof.
  intros V src m n x HV h hm hw. apply returned_tree in h as (ts & k & _ & [h]); [|exact HV].
  apply (within_inside nothing) in hw as [d hw]. exact (proj1 (proj2 (proj2 (h _ _ hw))) hm).
Qed.
Print Assumptions C34_strict_trees.

Example C34_example :
  (exists t, strict_of env_ascii (lit "function f(a) { try { await = eval } catch (b) { a.with } }") = Ok t)
  /\ (exists e, strict_of env_ascii (lit "with (a) b") = Err e)
  /\ (exists e, strict_of env_ascii (lit "function f() { function eval() {} }") = Err e)
  /\ (exists e, module_of env_ascii (lit "x = await") = Err e)
  /\ (exists t, script_of env_ascii (lit "with (a) { var eval = yield }") = Ok t).
Proof. repeat split; eexists; vm_compute; reflexivity. Qed.

(** C36: [break], [continue] and [return] are well placed everywhere in the tree. *)
Theorem C36_jumps : forall V src m n x d, ucd_ok V -> returned V src m n ->
  inside n nothing x d -> jump_ok d x.
Proof.
  intros V src m n x d HV h hw. apply returned_tree in h as (ts & k & _ & [h]); [|exact HV].
  exact (proj1 (h _ _ hw)).
Qed.
Print Assumptions C36_jumps.

Example C36_example :
  (exists t, script_of env_ascii (lit "a: b: for (;;) { switch (x) { case 1: break; default: continue a } }") = Ok t)
  /\ (exists e, script_of env_ascii (lit "a: while (x) { (function () { break a }) }") = Err e)
  /\ (exists e, script_of env_ascii (lit "a: { while (x) continue a }") = Err e)
  /\ (exists e, script_of env_ascii (lit "switch (x) { case 1: continue }") = Err e)
  /\ (exists e, script_of env_ascii (lit "return") = Err e).
Proof. repeat split; eexists; vm_compute; reflexivity. Qed.

(** C38 *)
Theorem C38_switch_and_try : forall V src m n x, ucd_ok V -> returned V src m n ->
  within n x -> clauses_ok x.
Proof.
  intros V src m n x HV h hw. apply returned_tree in h as (ts & k & _ & [h]); [|exact HV].
  apply (within_inside nothing) in hw as [d hw]. exact (proj1 (proj2 (h _ _ hw))).
Qed.
Print Assumptions C38_switch_and_try.

Example C38_example :
  (exists t, script_of env_ascii (lit "switch (x) { case 1: default: case 2: try {} catch (e) {} }") = Ok t)
  /\ (exists e, script_of env_ascii (lit "switch (x) { default: case 2: default: }") = Err e)
  /\ (exists e, script_of env_ascii (lit "try {} f()") = Err e).
Proof. repeat split; eexists; vm_compute; reflexivity. Qed.

(** C39: [ts] are the tokens of the input; every semicolon recorded in the tree is one
    of them or was inserted where that is allowed. *)
Theorem C39_semicolons : forall V src m n, ucd_ok V -> returned V src m n ->
  exists ts k, reads V src ts k /\ forall x, within n x -> semi_ok ts x.
Proof.
  intros V src m n HV h. apply returned_tree in h as (ts & k & hr & [h]); [|exact HV].
  exists ts, k. split; [exact hr|]. intros x hw.
  apply (within_inside nothing) in hw as [d hw]. exact (proj2 (proj2 (proj2 (h _ _ hw)))).
Qed.
Print Assumptions C39_semicolons.

Example C39_example :
  (exists t, script_of env_ascii (lit "do x(); while (y) z()" ++ [10%N] ++ lit "var w; { throw 1 }") = Ok t)
  /\ (exists e, script_of env_ascii (lit "x() y()") = Err e).
Proof. repeat split; eexists; vm_compute; reflexivity. Qed.
