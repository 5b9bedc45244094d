(** Properties of strictness and of the parsing context (C32, C33, C57). *)
From Coq Require Import String Ascii List NArith Bool.
From Verif Require Import Base Chars Word Token Reader Lexer Punc Ast Track PState Parser Api SpecReader SpecLexer
  LexTheorems PropParser KeepProofs SimProofs SimTop.
Import ListNotations.
Local Open Scope nat_scope.

(** ** C32 *)

(** C32: the methods of the [Program] that [program] returns answer what [script],
    [strict] and [module] answer on the same input: the same tree or the same error. *)
Theorem C32_deciding_later : forall V src cs b, program_of V src = Ok (Pg_Ambiguous cs b) ->
  program_script (Pg_Ambiguous cs b) = script_of V src
  /\ program_strict (Pg_Ambiguous cs b) = strict_of V src
  /\ program_module (Pg_Ambiguous cs b) = module_of V src.
Proof.
  intros V src cs b E. split; [|split].
  - rewrite (script_later _ _ _ _ E). reflexivity.
  - rewrite (strict_later _ _ _ _ E). reflexivity.
  - rewrite (module_later _ _ _ _ E). reflexivity.
Qed.
Print Assumptions C32_deciding_later.
(** The same of whatever [program] returns. *)
Theorem C32_every_program : forall V src p, ucd_ok V -> program_of V src = Ok p ->
  program_script p = script_of V src /\ program_strict p = strict_of V src /\ program_module p = module_of V src.
Proof.
  intros V src p HV E. pose proof (program_cases V src HV) as h. rewrite E in h.
  destruct h as (cs & l & ds & is & -> & _). apply C32_deciding_later, E.
Qed.
Print Assumptions C32_every_program.

(** A program with checks of both kinds deferred, the second kind only for modules. *)
Example C32_example : exists cs b, program_of env_ascii (lit "var await; with (a) static") = Ok (Pg_Ambiguous cs b)
  /\ length cs = 3
  /\ (exists t, script_of env_ascii (lit "var await; with (a) static") = Ok t)
  /\ (exists tk, strict_of env_ascii (lit "var await; with (a) static") = Err (StrictWith tk))
  /\ (exists s, module_of env_ascii (lit "var await; with (a) static") = Err (ContextualKeyword s A_Await)).
Proof. eexists _, _. split; [vm_compute; reflexivity|]. repeat split; try eexists; vm_compute; reflexivity. Qed.
(** One without. *)
Example C32_example_accepted : exists b, program_of env_ascii (lit "f(1)") = Ok (Pg_Ambiguous [] b)
  /\ strict_of env_ascii (lit "f(1)") = Ok b.
Proof. eexists. split; vm_compute; reflexivity. Qed.

(** ** C33 *)

(** C33: what [strict] accepts, [script] accepts with the same tree; what [module]
    accepts, [strict] accepts with the same directives, items and locations. *)
Theorem C33_strict_only_rejects : forall V src t, strict_of V src = Ok t -> script_of V src = Ok t.
Proof. exact strict_script. Qed.
Print Assumptions C33_strict_only_rejects.
Theorem C33_module_only_rejects : forall V src m, module_of V src = Ok m ->
  exists t, strict_of V src = Ok t
    /\ bo_loc m = bo_loc t /\ bo_dirs m = bo_dirs t /\ bo_items m = map MI_Item (bo_items t).
Proof.
  intros V src m E. destruct (module_strict V src m E) as (t & E' & ->). exists t. repeat split. exact E'.
Qed.
Print Assumptions C33_module_only_rejects.

Example C33_example : (exists t, strict_of env_ascii (lit "await: for (;;) break await;") = Ok t)
  /\ (exists m, module_of env_ascii (lit "'d'; function f(x) { return x }") = Ok m)
  /\ (exists t e, script_of env_ascii (lit "yield = 1") = Ok t /\ strict_of env_ascii (lit "yield = 1") = Err e)
  /\ (exists t e, strict_of env_ascii (lit "await = 1") = Ok t /\ module_of env_ascii (lit "await = 1") = Err e).
Proof.
  split; [|split; [|split]].
  - eexists. vm_compute. reflexivity.
  - eexists. vm_compute. reflexivity.
  - eexists _, _. split; vm_compute; reflexivity.
  - eexists _, _. split; vm_compute; reflexivity.
Qed.

(** ** C57 *)

(** The flags of the context are the same in the two states. *)
Definition flags_kept (s s' : pst) : Prop :=
  let c := p_context s in let c' := p_context s' in
  cx_allow_in c' = cx_allow_in c /\ cx_iteration c' = cx_iteration c /\ cx_switch c' = cx_switch c
  /\ cx_function c' = cx_function c /\ cx_strict c' = cx_strict c.
Lemma keeps_kept {A} (m : P A) s a s' : keeps m -> m s = Ok (a, s') -> flags_kept s s'.
Proof.
  intros h E. apply h in E. unfold flags in E.
  unfold flags_kept. cbv zeta in *. repeat split; congruence.
Qed.

(** C57: in any state whatever, parsing an expression, a statement or declaration, or a
    function leaves the flags of the context as they were. *)
Theorem C57_context_restored : forall V n s s',
  (forall e, expression V (parse_rec V n) s = Ok (e, s') -> flags_kept s s')
  /\ (forall e, assignment_expression V (parse_rec V n) s = Ok (e, s') -> flags_kept s s')
  /\ (forall d i, stmt_list_item V (parse_rec V n) d s = Ok (i, s') -> flags_kept s s')
  /\ (forall f, function_ V (parse_rec V n) (p_id V true) s = Ok (f, s') -> flags_kept s s')
  /\ (forall f, function_ V (parse_rec V n) (p_id_opt V true) s = Ok (f, s') -> flags_kept s s')
  /\ (forall ps b, function_body V (parse_rec V n) ps s = Ok (b, s') -> flags_kept s s').
Proof.
  intros V n s s'. destruct (keeps_rec V n) as [h1 h2].
  split; [|split; [|split; [|split; [|split]]]]; intros.
  - eapply keeps_kept; [|eassumption]. apply keeps_expression; assumption.
  - eapply keeps_kept; [|eassumption]. apply keeps_assignment; assumption.
  - eapply keeps_kept; [|eassumption]. apply keeps_item; assumption.
  - eapply keeps_kept; [|eassumption]. apply keeps_function; [assumption..|apply keeps_id].
  - eapply keeps_kept; [|eassumption]. apply keeps_function; [assumption..|apply keeps_id_opt].
  - eapply keeps_kept; [|eassumption]. apply keeps_function_body.
Qed.
Print Assumptions C57_context_restored.

(** A state in which the flags matter, and a statement that changes all but [strict]
    on the way. *)
Definition C57_state : pst :=
  PSt G_Script [] (lexer_new (lit "for (x in y) switch (z) { case function () { return 1 }: break }"))
    (Context Yes false false false false []).
Example C57_example : exists i s', stmt_list_item env_ascii (parse_rec env_ascii 200) true C57_state = Ok (i, s')
  /\ p_context s' = p_context C57_state.
Proof. eexists _, _. split; vm_compute; reflexivity. Qed.
