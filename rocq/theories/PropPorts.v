(** Imports and exports (C29): no text with one where an item may start is accepted. *)
From Coq Require Import String Ascii List NArith Arith Bool Lia.
From Verif Require Import Base Chars Word Token Reader Lexer Punc Ast Track Cover Stack Node PState Parser Api
  SpecTree SpecLexer LexClient SpecClient SpecGrammar SpecParser SpecPlace SpecEntry SpecExact GrammarProps ExactProofs LexTheorems PropLayout PropParser PortProofs.
Import ListNotations.
Local Open Scope nat_scope.

(** C29: behind directives and items of a module, [import] and [export] make [module]
    panic, whatever stands before and behind them.  As in C72, nested labels differ
    and slashes cannot be misread. *)
Theorem C29_module_panics : forall V src ts rest k ds is, ucd_ok V -> reads V src (ts ++ rest) k -> calm (ts ++ rest) ->
  labels_differ (N_body (Body None ds is)) -> top_level Module_ ds is (ts ++ rest) rest -> next is_port rest ->
  module_of V src = Panic P_unimplemented.
Proof. intros V src ts rest k ds is HV. exact (module_ports V src HV ts rest k ds is). Qed.
Print Assumptions C29_module_panics.

(** [program] panics too, unless it has found that what it has read before is no
    module. *)
Theorem C29_program_refuses : forall V src ts rest k ds is, ucd_ok V -> reads V src (ts ++ rest) k -> calm (ts ++ rest) ->
  labels_differ (N_body (Body None ds is)) -> top_level Sloppy ds is (ts ++ rest) rest -> next is_port rest ->
  program_of V src = Panic P_unimplemented \/ exists e, program_of V src = Err e.
Proof. intros V src ts rest k ds is HV. exact (program_ports V src HV ts rest k ds is). Qed.
Print Assumptions C29_program_refuses.

(** C29: no tree that [module] or [program] returns has an import or an export, and
    [program] never finds that a text is a module. *)
Theorem C29_never_returned : forall V src, ucd_ok V ->
  (forall t i, module_of V src = Ok t -> In i (bo_items t) -> exists it, i = MI_Item it)
  /\ (forall m, program_of V src <> Ok (Pg_Module m)).
Proof.
  intros V src HV. split.
  - intros t i H Hi. apply C31_module_whole in H as (l & ds & is & ts & e & rest & -> & _); [|exact HV].
    cbn in Hi. apply in_map_iff in Hi as (it & <- & _). eauto.
  - intros m H. apply C31_program_whole in H as (cs & l & ds & is & ts & e & rest & E & _); [|exact HV]. discriminate E.
Qed.
Print Assumptions C29_never_returned.

(** [; import 'a'] meets the hypotheses of the first two. *)
Lemma read_reads V src ops ts x : ucd_ok V -> read_tokens V ops (lexer_new src) = Ok (ts, x) -> exists k, reads V src ts k.
Proof. intros HV E. destruct (proj1 (C66_reads_exactly_the_grammar V src ops ts HV) (ex_intro _ x E)) as (k & H). exists k, ops. exact H. Qed.
Example C29_example : exists ts rest k is, reads env_ascii (lit "; import 'a'") (ts ++ rest) k /\ calm (ts ++ rest)
  /\ labels_differ (N_body (Body None [] is)) /\ top_level Module_ [] is (ts ++ rest) rest
  /\ top_level Sloppy [] is (ts ++ rest) rest /\ next is_port rest /\ length is = 1
  /\ program_of env_ascii (lit "with (a) b; import 'a'") <> Panic P_unimplemented.
Proof.
  destruct (read_reads env_ascii (lit "; import 'a'") [false; false; false; false] _ _ ucd_ok_ascii ltac:(vm_compute; reflexivity)) as (k & Hr).
  match type of Hr with reads _ _ (?t :: ?r) _ => exists [t], r, k, [I_Stmt (S_Empty (Some (tk_loc t)))] end.
  split; [exact Hr|]. split; [eapply no_slash_calm; [exact Hr|cbn; intuition discriminate]|].
  split; [|split; [|split; [|split; [|split; [reflexivity|vm_compute; discriminate]]]]].
  - assert (K : L nothing (N_body (Body None [] [I_Stmt (S_Empty None)]))).
    { repeat (apply L_intro; [exact Logic.I|cbn; repeat first [apply Forall_nil|apply Forall_cons]]). }
    eapply labels_untrack; [|destruct K as [K]; exact K]. reflexivity.
  - eexists. split; [apply g_dirs_nil|]. split.
    + intros t t' r s E K. injection E as <- _ _. discriminate K.
    + eexists. split; [|reflexivity]. apply g_item_stmt, g_empty. eexists. split; reflexivity.
  - eexists. split; [apply g_dirs_nil|]. split.
    + intros t t' r s E K. injection E as <- _ _. discriminate K.
    + eexists. split; [|reflexivity]. apply g_item_stmt, g_empty. eexists. split; reflexivity.
  - eexists _, _. split; [reflexivity|]. left. reflexivity.
Qed.
