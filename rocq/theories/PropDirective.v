(** Directives (C35): ["use strict"] is never recognised. *)
From Coq Require Import String Ascii List NArith Arith Bool Lia.
From Verif Require Import Base Chars Word Token Reader Lexer Punc Ast Track Cover Stack Node PState Parser Api
  SpecTree SpecLexer SpecGrammar SpecParser SpecPlace SpecLoc LexTheorems LexerProofs PropParser PropLoc.
Import ListNotations.
Local Open Scope N_scope.

Lemma tiles_string V src ops b k ts k' t s : tiles V src ops b k ts k' -> In t ts -> tk_value t = TString s ->
  exists q b v, (q = 34 \/ q = 39) /\ s = StringLiteral (Some (q :: b ++ [q])) v.
Proof.
  induction 1 as [|op ops b k t0 k1 ts k2 (ws & w & l & hs & -> & _ & hl & _) h2 IH]; intros Hin E; [destruct Hin|].
  destruct Hin as [->|Hin]; [|exact (IH Hin E)]. rewrite E in hl. inversion hl; subst. eauto.
Qed.

(** C35: whatever the parser returns, what it compares with ["use strict"] and
    ["use module"], for any directive in any place, is the text of a string literal with
    its quotes. *)
Theorem C35_never_recognised : forall V src t d, ucd_ok V -> parsed V src t -> within t (N_dir d) ->
  (exists q b, (q = 34 \/ q = 39) /\ dir_pragma d = q :: b ++ [q])
  /\ dir_pragma d <> lit "use strict" /\ dir_pragma d <> lit "use module".
Proof.
  intros V src t d HV Hp Hw. destruct (C59_leaves_are_their_tokens V src t HV Hp) as (ts & k & (ops & Hr) & H).
  destruct (H _ Hw) as (tk & Hin & E). destruct (tiles_string _ _ _ _ _ _ _ _ _ Hr Hin E) as (q & b & v & Hq & Es).
  assert (Ed : dir_pragma d = q :: b ++ [q]) by (unfold dir_pragma; rewrite Es; reflexivity).
  split; [eauto|]. rewrite Ed. split; intros K; injection K as K _; subst q; destruct Hq as [Hq|Hq]; discriminate Hq.
Qed.
Print Assumptions C35_never_recognised.

(** ['use strict'] in a function of a script. *)
Example C35_example : exists b d, parsed env_ascii (lit "f(function() { 'use strict' })") (N_body b)
  /\ within (N_body b) (N_dir d) /\ str_value (dir_string d) = lit "use strict" /\ dir_pragma d = lit "'use strict'".
Proof.
  destruct (script_of env_ascii (lit "f(function() { 'use strict' })")) as [b| | |] eqn:E; try (vm_compute in E; discriminate).
  exists b. vm_compute in E. injection E as <-. eexists.
  split; [apply pa_script; vm_compute; reflexivity|]. split; [|split].
  - eapply wi_step; [eapply wi_step; [eapply wi_step; [eapply wi_step; [eapply wi_step; [eapply wi_step;
      [eapply wi_step; [eapply wi_step; [apply wi_refl|]|]|]|]|]|]|]|].
    + left. reflexivity.
    + left. reflexivity.
    + left. reflexivity.
    + right. left. reflexivity.
    + left. reflexivity.
    + left. reflexivity.
    + right. left. reflexivity.
    + left. reflexivity.
  - reflexivity.
  - reflexivity.
Qed.
