(** Properties of the parser that a user may expect and that the code does not
    have: for each, an input that refutes it (C29, C30, C35, C37, C40, C43, C56, C60,
    C61, C62, C68). *)
From Coq Require Import String Ascii List NArith Bool Lia.
From Verif Require Import Base Chars Word Token Reader Lexer Punc Ast Track Cover Stack PState Parser Api Node.
Import ListNotations.
Local Open Scope N_scope.

(** C29: imports and exports make module and program panic. *)
Theorem C29_import_export_refuted :
  module_of env_ascii (lit "import 'a';") = Panic P_unimplemented
  /\ module_of env_ascii (lit "export var a;") = Panic P_unimplemented
  /\ program_of env_ascii (lit "import 'a';") = Panic P_unimplemented
  /\ program_of env_ascii (lit "export var a;") = Panic P_unimplemented.
Proof. split; [|split; [|split]]; vm_compute; reflexivity. Qed.
Print Assumptions C29_import_export_refuted.

(** C30: script accepts an input without looking at all of it: what follows an
    unmatched brace is ignored, even if it is not a program. *)
Theorem C30_rest_ignored_refuted :
  (exists t, script_of env_ascii (lit "a; } b c d") = Ok t)
  /\ (exists t, strict_of env_ascii (lit "a; } b c d") = Ok t)
  /\ (exists e, script_of env_ascii (lit "a;   b c d") = Err e).
Proof. split; [|split]; eexists; vm_compute; reflexivity. Qed.
Print Assumptions C30_rest_ignored_refuted.

(** C35: the directive is recorded but has no effect. *)
Theorem C35_use_strict_refuted :
  (exists t, script_of env_ascii (lit """use strict""; with (a) b;") = Ok t)
  /\ (exists e, strict_of env_ascii (lit "with (a) b;") = Err (StrictWith e)).
Proof. split; eexists; vm_compute; reflexivity. Qed.
Print Assumptions C35_use_strict_refuted.

(** C37: a label is forgotten when an inner statement with the same label ends. *)
Theorem C37_label_scope_refuted :
  (exists i, script_of env_ascii (lit "a: { a: ; break a; }") = Err (InvalidLabel i))
  /\ (exists t, script_of env_ascii (lit "a: { b: ; break a; }") = Ok t).
Proof. split; eexists; vm_compute; reflexivity. Qed.
Print Assumptions C37_label_scope_refuted.

(** C40: an input is rejected, and accepted once a line feed is appended. *)
Theorem C40_final_newline_refuted :
  (exists e, script_of env_ascii (lit "while(1) break") = Err e)
  /\ (exists t, script_of env_ascii (lit "while(1) break" ++ [10]) = Ok t).
Proof. split; eexists; vm_compute; reflexivity. Qed.
Print Assumptions C40_final_newline_refuted.

(** One location encloses another. *)
Definition encloses (a b : span) : Prop :=
  offset (sp_start a) <= offset (sp_start b) /\ offset (sp_end b) <= offset (sp_end a).

(** C43: the location of [a ? b : c] starts after the one of [a]. *)
Theorem C43_enclosing_refuted : exists t n c l k,
  script_of env_ascii (lit "a ? b : c") = Ok t
  /\ within (N_body t) n /\ In c (children n)
  /\ node_loc n = Some l /\ node_loc c = Some k /\ ~ encloses l k.
Proof.
  eexists _, _, _, _, _. split; [vm_compute; reflexivity|]. split.
  - eapply wi_step; [eapply wi_step; [eapply wi_step; [apply wi_refl|left; reflexivity]|left; reflexivity]
                    |left; reflexivity].
  - split; [left; reflexivity|]. split; [reflexivity|]. split; [reflexivity|].
    intros [H _]. cbn in H. lia.
Qed.
Print Assumptions C43_enclosing_refuted.
(** Also of whole statements: [a = 1;] starts at its second token. *)
Theorem C43_statement_refuted : exists t s e l k sm,
  script_of env_ascii (lit "a = 1;") = Ok t /\ bo_items t = [I_Stmt (S_Expr (Some l) e sm)]
  /\ s = N_stmt (S_Expr (Some l) e sm) /\ In (N_expr e) (children s) /\ expr_loc e = Some k
  /\ offset (sp_start k) = 0 /\ offset (sp_start l) = 3 /\ ~ encloses l k.
Proof.
  eexists _, _, _, _, _, _. split; [vm_compute; reflexivity|]. split; [reflexivity|]. split; [reflexivity|].
  split; [left; reflexivity|]. split; [reflexivity|]. split; [reflexivity|]. split; [reflexivity|].
  intros [H _]. cbn in H. lia.
Qed.
Print Assumptions C43_statement_refuted.

(** C56: after a string at the start of a script a slash starts a regular
    expression, so the division is not seen. *)
Theorem C56_string_division_refuted :
  (exists t r, script_of env_ascii (lit "'x' / y / z;") = Err (FailedASI t) /\ tk_value t = TRegExp r)
  /\ (exists t, script_of env_ascii (lit "('x') / y / z;") = Ok t)
  /\ (exists t, script_of env_ascii (lit ";'x' / y / z;") = Ok t).
Proof.
  split; [eexists _, _; split; [vm_compute; reflexivity|reflexivity]|].
  split; eexists; vm_compute; reflexivity.
Qed.
Print Assumptions C56_string_division_refuted.

(** C60: in [new new a().b] the access applies to the result of both [new]s, where
    ECMAScript applies it to the inner one ([new (new a().b)]). *)
Theorem C60_nested_new_refuted : exists t t1 t2,
  script_of env_ascii (lit "new new a().b") = Ok t
  /\ script_of env_ascii (lit "(new (new a())).b") = Ok t1
  /\ script_of env_ascii (lit "new (new a().b)") = Ok t2
  /\ script_untrack t = script_untrack t1 /\ script_untrack t <> script_untrack t2.
Proof.
  eexists _, _, _. do 3 (split; [vm_compute; reflexivity|]). split; [vm_compute; reflexivity|].
  vm_compute. discriminate.
Qed.
Print Assumptions C60_nested_new_refuted.

(** C61: the object of [for-in] may be any expression in ECMAScript; here a comma is
    an error unless parenthesised. *)
Theorem C61_for_in_object_refuted :
  (exists t, script_of env_ascii (lit "for (a in b, c) {}") = Err (UnexpectedToken t) /\ tk_value t = TPunc T_Comma)
  /\ exists t, script_of env_ascii (lit "for (a in (b, c)) {}") = Ok t.
Proof.
  split; [eexists; split; [vm_compute; reflexivity|reflexivity]|]. eexists. vm_compute. reflexivity.
Qed.
Print Assumptions C61_for_in_object_refuted.

(** C62: a label may be repeated inside its own statement; after the inner statement
    the outer label is forgotten. *)
Theorem C62_duplicate_labels_refuted :
  (exists t, script_of env_ascii (lit "a: { a: ; }") = Ok t)
  /\ (exists t, script_of env_ascii (lit "a: a: ;") = Ok t)
  /\ exists i, script_of env_ascii (lit "a: { a: ; break a; }") = Err (InvalidLabel i).
Proof. split; [|split]; eexists; vm_compute; reflexivity. Qed.
Print Assumptions C62_duplicate_labels_refuted.

(** C68: at the head of a [for], after a variable called [let], a slash starts a
    regular expression, so the division is not seen. *)
Theorem C68_for_let_division_refuted :
  script_of env_ascii (lit "for (let / 2; ; ) break;") = Panic P_read_eof
  /\ (exists t, script_of env_ascii (lit "for ((let) / 2; ; ) break;") = Ok t)
  /\ (exists t, script_of env_ascii (lit "for (of / 2; ; ) break;") = Ok t)
  /\ (exists t r, script_of env_ascii (lit "for (let / 2 / 2; ; ) break;") = Err (UnexpectedToken t) /\ tk_value t = TRegExp r).
Proof.
  split; [|split; [|split]].
  - vm_compute. reflexivity.
  - eexists. vm_compute. reflexivity.
  - eexists. vm_compute. reflexivity.
  - eexists _, _. split; vm_compute; reflexivity.
Qed.
Print Assumptions C68_for_let_division_refuted.
