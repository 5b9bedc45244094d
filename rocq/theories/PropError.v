(** Errors are honest (C71): what an error carries can be found in the text.  The
    vocabulary is that of [SpecError]. *)
From Coq Require Import String Ascii List NArith Bool Lia.
From Verif Require Import Base Chars Word Token Reader Lexer LexClient Punc Ast Track Cover PState Parser Api SpecReader
  SpecLexer LexTheorems SpecParser SpecLoc SpecError LocProofs PropParser SimTop PropStrict.
Import ListNotations.
Local Open Scope nat_scope.

(** The errors that a text yields: those of the entry points, and those of the methods
    of the [Program] that [program] returns. *)
Inductive reports (V : env) (src : str) : perror -> Prop :=
| re_script : forall e, script_of V src = Err e -> reports V src e
| re_strict : forall e, strict_of V src = Err e -> reports V src e
| re_module : forall e, module_of V src = Err e -> reports V src e
| re_program : forall e, program_of V src = Err e -> reports V src e
| re_program_script : forall p e, program_of V src = Ok p -> program_script p = Err e -> reports V src e
| re_program_strict : forall p e, program_of V src = Ok p -> program_strict p = Err e -> reports V src e
| re_program_module : forall p e, program_of V src = Ok p -> program_module p = Err e -> reports V src e.

(** C71: an error names a token, a word or a place of the text, of the kind that it
    speaks of; an error of the lexer is one that reading the text's tokens gives. *)
Theorem C71_errors_are_honest : forall V src e, ucd_ok V -> reports V src e -> honest V src e.
Proof.
  intros V src e HV H.
  pose proof (script_honest V src HV) as h1. pose proof (strict_honest V src HV) as h2.
  pose proof (module_honest V src HV) as h3. pose proof (program_honest V src HV) as h4.
  destruct H as [e E|e E|e E|e E|p e E E1|p e E E1|p e E E1].
  - rewrite E in h1. exact h1.
  - rewrite E in h2. exact h2.
  - rewrite E in h3. exact h3.
  - rewrite E in h4. exact h4.
  - destruct (C32_every_program V src p HV E) as (h & _ & _). rewrite h in E1. rewrite E1 in h1. exact h1.
  - destruct (C32_every_program V src p HV E) as (_ & h & _). rewrite h in E1. rewrite E1 in h2. exact h2.
  - destruct (C32_every_program V src p HV E) as (_ & _ & h). rewrite h in E1. rewrite E1 in h3. exact h3.
Qed.
Print Assumptions C71_errors_are_honest.

(** C71 for panics: one that is not about [import] and [export] is one that reading the
    text's tokens raises. *)
Definition panics (V : env) (src : str) (k : panic) : Prop :=
  script_of V src = Panic k \/ strict_of V src = Panic k \/ module_of V src = Panic k \/ program_of V src = Panic k.
Theorem C71_panics_are_honest : forall V src k, ucd_ok V -> panics V src k ->
  k = P_unimplemented \/ exists ops, read_tokens V ops (lexer_new src) = Panic k.
Proof.
  intros V src k HV H.
  assert (G : (k = P_read_eof \/ k = P_overflow) \/ k = P_unimplemented).
  { assert (L : lexer_panics V src k -> k = P_read_eof \/ k = P_overflow) by (unfold lexer_panics; tauto).
    destruct H as [H|[H|[H|H]]].
    - left. apply L. eapply C28_script_panics; eauto.
    - left. apply L. eapply C28_script_panics; eauto.
    - apply C28_module_panics in H as [H|[H _]]; auto.
    - apply C28_program_panics in H as [H|[H _]]; auto. }
  destruct G as [G|G]; [|left; exact G]. right.
  pose proof (script_honest V src HV) as h1. pose proof (strict_honest V src HV) as h2.
  pose proof (module_honest V src HV) as h3. pose proof (program_honest V src HV) as h4.
  destruct H as [H|[H|[H|H]]]; [rewrite H in h1; exact (h1 G)|rewrite H in h2; exact (h2 G)
    |rewrite H in h3; exact (h3 G)|rewrite H in h4; exact (h4 G)].
Qed.
Print Assumptions C71_panics_are_honest.

(** The checks that the [Program] keeps for later are honest as well. *)
Theorem C71_deferred_checks_are_honest : forall V src cs b, ucd_ok V ->
  program_of V src = Ok (Pg_Ambiguous cs b) -> forall c, In c cs -> check_honest V src c.
Proof.
  intros V src cs b HV E c Hc. pose proof (deferred_honest V src HV cs b E) as H.
  rewrite Forall_forall in H. exact (H c Hc).
Qed.
Print Assumptions C71_deferred_checks_are_honest.

(** Errors of several kinds, from texts of several lines. *)
Definition err_kind (e : perror) : nat :=
  match e with
  | UnexpectedToken _ => 0 | FailedASI _ => 1 | LexError _ => 2 | TopLevelReturn _ => 3 | IllegalBreak _ => 4
  | IllegalContinue _ => 5 | InvalidLabel _ => 6 | InvalidLabelType _ => 7 | ContextualKeyword _ _ => 8
  | IllegalStrictBinding _ _ => 9 | DuplicateDefault _ => 10 | StrictWith _ => 11 | ThrowArgument _ => 12
  | OrphanTry _ => 13 | InvalidLHS _ _ => 14 | UnsupportedFeature _ => 15 | _ => 16
  end.
Definition err_of (V : env) (src : str) : option nat :=
  match strict_of V src with Err e => Some (err_kind e) | _ => None end.
Example C71_example :
  map (fun s => err_of env_ascii (lit s))
    ["f(;"; "a b"; "a @"; "return 1;"; "{ break; }"; "continue;"; "x: { break y; }"; "x: { while (a) continue x; }";
     "var yield;"; "eval: f(eval); var eval"; "switch (a) { default: default: }"; "with (a) b"; "throw;"; "try { } f()";
     "a = 1 + [...b, c] = d"; "var {x} = y"]%string
  = map Some (seq 0 16)
  /\ (exists t, strict_of env_ascii (lit "f(;") = Err (UnexpectedToken t) /\ delivers env_ascii (lit "f(;") t)
  /\ exists l x, strict_of env_ascii (lit "a = 1 + [...b, c] = d") = Err (InvalidLHS l x)
       /\ place_there (lit "a = 1 + [...b, c] = d") l.
Proof.
  split; [vm_compute; reflexivity|]. split.
  - destruct (strict_of env_ascii (lit "f(;")) as [|e| |] eqn:E; try (vm_compute in E; discriminate E).
    assert (H := C71_errors_are_honest env_ascii _ e ucd_ok_ascii (re_strict _ _ _ E)).
    vm_compute in E. injection E as <-. eexists. split; [reflexivity|]. exact H.
  - destruct (strict_of env_ascii (lit "a = 1 + [...b, c] = d")) as [|e| |] eqn:E; try (vm_compute in E; discriminate E).
    assert (H := C71_errors_are_honest env_ascii _ e ucd_ok_ascii (re_strict _ _ _ E)).
    vm_compute in E. injection E as <-. eexists _, _. split; [reflexivity|]. exact (proj1 H).
Qed.
