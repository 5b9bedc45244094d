(** How long parsing takes (C27).  Vocabulary: Cost.v, where the parser of the model is run
    with a count of its steps. *)
From Coq Require Import String Ascii List NArith ZArith Arith Bool Lia.
From Verif Require Import Base Chars Word Token Reader Lexer Punc Ast PState Parser Api SpecReader SpecLexer
  LexTheorems PropParser Cost CostErase CostProofs.
Import ListNotations.
Local Open Scope nat_scope.

(** C27: on every input every entry point returns a tree, an error or a panic, after a number
    of steps that is at most a linear function of the length of the input. *)
Theorem C27_terminates : forall V src, ucd_ok V ->
  (exists c, script_of' V src = (c, script_of V src) /\ script_of V src <> NoFuel
     /\ steps c <= 201 * length src + 230)
  /\ (exists c, strict_of' V src = (c, strict_of V src) /\ strict_of V src <> NoFuel
     /\ steps c <= 201 * length src + 230)
  /\ (exists c, module_of' V src = (c, module_of V src) /\ module_of V src <> NoFuel
     /\ steps c <= 201 * length src + 230)
  /\ (exists c, program_of' V src = (c, program_of V src) /\ program_of V src <> NoFuel
     /\ steps c <= 201 * length src + 230).
Proof.
  intros V src HV. destruct (C27_returns V src HV) as (h1 & h2 & h3 & h4).
  split; [|split; [|split]].
  - exists (fst (script_of' V src)). rewrite <- er_script_of. split; [apply surjective_pairing|].
    split; [rewrite er_script_of; exact h1|]. pose proof (script_steps V src HV false). unfold script_of'. lia.
  - exists (fst (strict_of' V src)). rewrite <- er_strict_of. split; [apply surjective_pairing|].
    split; [rewrite er_strict_of; exact h2|]. pose proof (script_steps V src HV true). unfold strict_of'. lia.
  - exists (fst (module_of' V src)). rewrite <- er_module_of. split; [apply surjective_pairing|].
    split; [rewrite er_module_of; exact h3|]. pose proof (module_steps V src HV). unfold module_of'. lia.
  - exists (fst (program_of' V src)). rewrite <- er_program_of. split; [apply surjective_pairing|].
    split; [rewrite er_program_of; exact h4|]. pose proof (program_steps V src HV). unfold program_of'. lia.
Qed.
Print Assumptions C27_terminates.

(** Three runs and their numbers of steps: a tree, an error, a module. *)
Example C27_steps_example :
  steps (fst (script_of' env_ascii (lit "((((a))))"))) = 262
  /\ steps (fst (script_of' env_ascii (lit "(((((((((((((((((((((((((((((("))) = 569
  /\ steps (fst (module_of' env_ascii (lit "for (var i = 0; i < 10; i++) f(i);"))) = 376.
Proof. vm_compute. auto. Qed.
