(** What follows an unmatched closing brace is ignored, in every script (C30).  The
    vocabulary is that of [SpecLexer], [SpecGrammar] and [SpecExact]. *)
From Coq Require Import String Ascii List NArith Arith Bool Lia.
From Verif Require Import Base Chars Word Token Reader Lexer LexClient Punc Ast Track PState Parser Api Node SpecStack
  SpecTree SpecLexer SpecGrammar SpecParser SpecPlace SpecEntry SpecExact GrammarProps ExactProofs LexTheorems LexLayout PropLayout
  PropParser PropComplete PropExact EndProofs EndText PropEnd PropComments RestProofs.
Import ListNotations.
Local Open Scope nat_scope.

(** No slash but in comments and strings. *)
Definition plain (V : env) (src : str) : Prop := ~ In (N_of_ascii "/") src \/ slashless V src.

Lemma plain_snoc V src c : ucd_ok V -> line_terminator c -> plain V src -> plain V (src ++ [c]).
Proof.
  intros HV hc [h|h]; [left|right].
  - apply no_slash_more; [exact h|]. constructor; [exact hc|constructor].
  - apply slashless_snoc; assumption.
Qed.
Lemma plain_calm V src ts k : ucd_ok V -> plain V src -> reads V src ts k -> calm ts.
Proof. intros HV [h|h] Hr; [exact (no_slash_calm _ _ _ _ Hr h)|exact (slashless_calm _ _ _ _ HV h Hr)]. Qed.

Lemma rest_derived V src c u m t : ucd_ok V -> line_terminator c -> plain V src -> labels_differ (N_body t) ->
  begins_with V src m t ->
  exists ts rest k, reads V (src ++ [c] ++ lit "}" ++ u) (ts ++ rest) k /\ GX true (top m) Script (ts ++ rest) rest t.
Proof.
  intros HV hc Hp Hl Hb. apply (begins_snoc _ _ c) in Hb; [|exact HV|exact hc]. apply (plain_snoc _ _ c HV hc) in Hp.
  destruct Hb as (ts & rest & k & (ops & T) & D). apply sure_script in D;
    [|exact (plain_calm _ _ _ _ HV Hp ltac:(exists ops; exact T))|exact Hl].
  destruct (tiles_brace _ _ _ _ _ _ _ u HV ltac:(exists src, c; auto) T ltac:(rewrite app_length; cbn; lia)) as (ops' & ts' & k' & T' & R).
  destruct (G_closed _ _ _ _ _ _ _ D _ R) as (o' & D' & _).
  destruct (G_suffix _ _ _ _ _ _ D') as (pre & ->). exists pre, o', k'. split; [exists ops'; rewrite app_assoc; exact T'|exact D'].
Qed.

(** C30 is false of the code: to any accepted script one may add, on a new line, a closing
    brace and then whatever one likes, be it the text of a program or not.  [script] and
    [strict] accept the longer text, and return the tree of the shorter one (up to
    locations). *)
Theorem C30_rest_ignored : forall V src c u t, ucd_ok V -> line_terminator c -> plain V src -> labels_differ (N_body t) ->
  (script_of V src = Ok t ->
     exists t', script_of V (src ++ [c] ++ lit "}" ++ u) = Ok t' /\ script_untrack t' = script_untrack t)
  /\ (strict_of V src = Ok t ->
     exists t', strict_of V (src ++ [c] ++ lit "}" ++ u) = Ok t' /\ script_untrack t' = script_untrack t).
Proof.
  intros V src c u t HV hc Hp Hl. split; intros E.
  - apply C44_script in E; [|exact HV]. destruct (rest_derived V src c u _ t HV hc Hp Hl E) as (ts & rest & k & Hr & D).
    exact (C67_script _ _ _ _ _ _ HV Hr D).
  - apply C44_strict in E; [|exact HV]. destruct (rest_derived V src c u _ t HV hc Hp Hl E) as (ts & rest & k & Hr & D).
    exact (C67_strict _ _ _ _ _ _ HV Hr D).
Qed.
Print Assumptions C30_rest_ignored.

(** Scripts that meet the hypotheses: one that ends without a semicolon, and one with
    comments. *)
Example C30_ignored_example :
  (exists t, script_of env_ascii (lit "a: while (b) break a") = Ok t /\ strict_of env_ascii (lit "a: while (b) break a") = Ok t
     /\ labels_differ (N_body t) /\ length (bo_items t) = 1)
  /\ plain env_ascii (lit "a: while (b) break a") /\ line_terminator 10%N
  /\ (exists e, script_of env_ascii (lit "a: while (b) break a" ++ [10%N] ++ lit ") ? 'x") = Err e)
  /\ exists t, script_of env_ascii (lit "a: while (b) break a" ++ [10%N] ++ lit "} ) ? 'x") = Ok t.
Proof.
  split; [|split; [|split; [|split]]].
  - eexists. split; [vm_compute; reflexivity|]. split; [vm_compute; reflexivity|]. split; [|reflexivity].
    match goal with |- labels_differ ?n => assert (h : L nothing n); [labels|destruct h as [h]; exact h] end.
  - left. intros h. vm_compute in h. decompose sum h; discriminate.
  - cbn. tauto.
  - eexists. vm_compute. reflexivity.
  - eexists. vm_compute. reflexivity.
Qed.
Example C30_ignored_comment : plain env_ascii commented
  /\ exists t, script_of env_ascii commented = Ok t /\ labels_differ (N_body t) /\ length (bo_items t) = 2.
Proof.
  split; [right; exact (proj1 C72_comments_example)|].
  destruct C72_comments_example as (_ & _ & _ & t & E & El & Hl). exists t. auto.
Qed.
