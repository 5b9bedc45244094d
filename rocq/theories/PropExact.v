(** The parser accepts exactly the programs of the grammar (C72).  The vocabulary is
    that of [SpecGrammar], [SpecParser] and [SpecExact]. *)
From Coq Require Import String Ascii List NArith Arith Bool Lia.
From Verif Require Import Base Chars Word Token Reader Lexer LexClient Punc Ast Track PState Parser Api Node SpecStack
  SpecTree SpecLexer SpecGrammar SpecParser SpecPlace SpecEntry SpecExact GrammarProps ExactProofs LexTheorems PropLayout PropParser PropComplete.
Import ListNotations.
Local Open Scope nat_scope.

(** C72: a text whose tokens begin with a script of the grammar is accepted, if its labels
    are not nested in themselves and its slashes stand where they cannot be misread. *)
Theorem C72_found : forall V src ts rest k t, ucd_ok V -> reads V src (ts ++ rest) k ->
  calm (ts ++ rest) -> labels_differ (N_body t) ->
  (G (top Sloppy) Script (ts ++ rest) rest t ->
     exists u, script_of V src = Ok u /\ script_untrack u = script_untrack t)
  /\ (G (top Strict) Script (ts ++ rest) rest t ->
     exists u, strict_of V src = Ok u /\ script_untrack u = script_untrack t).
Proof.
  intros V src ts rest k t HV Hr Hc Hl. split; intros D; apply sure_script in D; try assumption.
  - exact (C67_script _ _ _ _ _ _ HV Hr D).
  - exact (C67_strict _ _ _ _ _ _ HV Hr D).
Qed.
Print Assumptions C72_found.

(** C72: for texts without a slash (so without comments, divisions and regular
    expressions), and trees without a label inside a statement with the same label, the
    parser accepts exactly the grammar, and returns the tree the grammar assigns. *)
Theorem C72_script_exact : forall V src t, ucd_ok V -> ~ In (N_of_ascii "/") src -> labels_differ (N_body t) ->
  ((exists u, script_of V src = Ok u /\ script_untrack u = script_untrack t)
   <-> exists u, begins_with V src Sloppy u /\ script_untrack u = script_untrack t).
Proof.
  intros V src t HV Hn Hl. split.
  - intros (u & E & Eu). exists u. split; [|exact Eu]. exact (C44_script V src u HV E).
  - intros (u & (ts & rest & k & Hr & D) & Eu).
    destruct (proj1 (C72_found V src ts rest k u HV Hr (no_slash_calm _ _ _ _ Hr Hn)
      ltac:(eapply labels_untrack; [|exact Hl]; cbn; f_equal; symmetry; exact Eu)) D) as (u' & E & Eu').
    exists u'. split; [exact E|congruence].
Qed.
Print Assumptions C72_script_exact.

Theorem C72_strict_exact : forall V src t, ucd_ok V -> ~ In (N_of_ascii "/") src -> labels_differ (N_body t) ->
  ((exists u, strict_of V src = Ok u /\ script_untrack u = script_untrack t)
   <-> exists u, begins_with V src Strict u /\ script_untrack u = script_untrack t).
Proof.
  intros V src t HV Hn Hl. split.
  - intros (u & E & Eu). exists u. split; [|exact Eu]. exact (C44_strict V src u HV E).
  - intros (u & (ts & rest & k & Hr & D) & Eu).
    destruct (proj2 (C72_found V src ts rest k u HV Hr (no_slash_calm _ _ _ _ Hr Hn)
      ltac:(eapply labels_untrack; [|exact Hl]; cbn; f_equal; symmetry; exact Eu)) D) as (u' & E & Eu').
    exists u'. split; [exact E|congruence].
Qed.
Print Assumptions C72_strict_exact.

Lemma items_of g is i e o : item_seq g is i (e :: o) -> at_eof e -> G g Items i (e :: o) is.
Proof.
  revert i. induction is as [|a is IH]; intros i H He; cbn in H.
  - subst i. apply g_items_nil. exists e, o. split; [reflexivity|]. unfold at_eof in He. unfold ends_list. rewrite He. cbn. tauto.
  - destruct H as (m & Ha & H). eapply g_items_cons; [exact Ha|]. exact (IH m H He).
Qed.
Lemma script_of_top m l ds is i e o : top_level m ds is i (e :: o) -> at_eof e -> G (top m) Script i (e :: o) (Body l ds is).
Proof.
  intros (j & Hd & Hs & Hi) He. eapply g_script; [exact Hd|exact Hs|discriminate|]. exact (items_of _ _ _ _ _ Hi He).
Qed.

Theorem C72_program_exact : forall V src t, ucd_ok V -> ~ In (N_of_ascii "/") src -> labels_differ (N_body t) ->
  ((exists cs u, program_of V src = Ok (Pg_Ambiguous cs u) /\ script_untrack u = script_untrack t)
   <-> exists u, consists_of V src Sloppy u /\ script_untrack u = script_untrack t).
Proof.
  intros V src t HV Hn Hl. split.
  - intros (cs & u & E & Eu). exists u. split; [|exact Eu].
    destruct (C31_program_whole V src _ HV E) as (cs' & l & ds & is & ts & e & rest & X & He & Hr & Ht).
    injection X as _ ->. exists ts, e, rest, (length src). split; [exact Hr|]. split; [exact He|].
    exact (script_of_top _ _ _ _ _ _ _ Ht He).
  - intros (u & (ts & e & rest & k & Hr & He & D) & Eu).
    apply sure_script in D;
      [|exact (no_slash_calm _ _ _ _ Hr Hn)|eapply labels_untrack; [|exact Hl]; cbn; f_equal; symmetry; exact Eu].
    destruct (C67_program _ _ _ _ _ _ _ HV Hr He D) as (cs & u' & E & Eu'). exists cs, u'. split; [exact E|congruence].
Qed.
Print Assumptions C72_program_exact.

(** A module's items are wrapped once more. *)
Definition as_module (b : body item) : module := Body (bo_loc b) (bo_dirs b) (map MI_Item (bo_items b)).
Theorem C72_module_exact : forall V src t, ucd_ok V -> ~ In (N_of_ascii "/") src -> labels_differ (N_body t) ->
  ((exists u, module_of V src = Ok u /\ module_untrack u = module_untrack (as_module t))
   <-> exists u, consists_of V src Module_ u /\ script_untrack u = script_untrack t).
Proof.
  intros V src t HV Hn Hl. split.
  - intros (u & E & Eu).
    destruct (C31_module_whole V src _ HV E) as (l & ds & is & ts & e & rest & -> & He & Hr & Ht).
    exists (Body l ds is). split.
    + exists ts, e, rest, (length src). split; [exact Hr|]. split; [exact He|].
      exact (script_of_top _ _ _ _ _ _ _ Ht He).
    + destruct t as [l' ds' is']. unfold as_module in Eu. cbn in Eu |- *. injection Eu as E1 E2.
      unfold script_untrack, body_untrack; cbn. f_equal; [exact E1|].
      rewrite !map_map in E2. clear -E2. revert is' E2. induction is as [|a is IH]; intros [|b is'] E2; try discriminate; [reflexivity|].
      cbn in E2 |- *. injection E2 as E2 E3. f_equal; [exact E2|]. exact (IH _ E3).
  - intros (u & (ts & e & rest & k & Hr & He & D) & Eu).
    apply sure_script in D;
      [|exact (no_slash_calm _ _ _ _ Hr Hn)|eapply labels_untrack; [|exact Hl]; cbn; f_equal; symmetry; exact Eu].
    destruct u as [l ds is].
    destruct (C67_module _ _ _ _ _ _ _ _ _ HV Hr He D) as (u' & E & Eu'). exists u'. split; [exact E|].
    rewrite Eu'. destruct t as [l' ds' is']. unfold as_module; cbn in Eu |- *. injection Eu as E1 E2.
    unfold module_untrack, body_untrack; cbn. f_equal; [exact E1|].
    rewrite !map_map. clear -E2. revert is' E2. induction is as [|a is IH]; intros [|b is'] E2; try discriminate; [reflexivity|].
    cbn in E2 |- *. injection E2 as E2 E3. f_equal; [f_equal; exact E2|]. exact (IH _ E3).
Qed.
Print Assumptions C72_module_exact.

(** Labelled loops, a division and a regular expression meet the hypotheses. *)
Fixpoint calm_b (ts : tokens) : bool :=
  match ts with
  | t :: (t' :: _) as r =>
      match tk_value t', tk_value t with
      | TRegExp _, TPunc (T_Assign | T_LParen | T_Comma) => true
      | TRegExp _, _ => false
      | TPunc (T_Slash | T_SlashAssign), (TString _ | TIdent (NAtom A_Let)) => false
      | _, _ => true
      end && calm_b r
  | _ => true
  end.
Lemma calm_b_calm ts : calm_b ts = true -> calm ts.
Proof.
  intros h before. revert ts h. induction before as [|x before IH]; intros ts h t t' after ->.
  - cbn [app calm_b] in h. apply andb_true_iff in h as [h _]. split.
    + intros (r & E) K. unfold ends_operand in K. rewrite E in h.
      destruct (tk_value t) as [?|[]|?|?|?|?]; try discriminate h; cbn in K; decompose sum K; discriminate.
    + intros K. assert (h' : match tk_value t with TString _ | TIdent (NAtom A_Let) => false | _ => true end = true).
      { destruct K as [K|[K|[]]]; rewrite <- K in h; exact h. }
      split; [|intros s]; intros E; rewrite E in h'; discriminate h'.
  - apply (IH (before ++ t :: t' :: after)) with (after := after); [|reflexivity]. cbn [app calm_b] in h.
    destruct before as [|y before]; cbn [app calm_b] in h |- *; apply andb_true_iff in h as [_ h]; exact h.
Qed.
Example C72_calm_example : exists ts x,
  read_tokens env_ascii [false; true; true; true; true; true; true; false; true; true; true] (lexer_new (lit "x = y / 2; z = /re/;")) = Ok (ts, x)
  /\ calm ts /\ length ts = 11.
Proof.
  eexists _, _. split; [vm_compute; reflexivity|]. split; [|reflexivity]. apply calm_b_calm. vm_compute. reflexivity.
Qed.
Ltac kid := repeat first [apply Forall_nil | apply Forall_cons].
Ltac labels := repeat (apply L_intro; [cbn; intuition discriminate|cbn; kid]).
Definition sample : str := lit "a: b: while (c) { x = y - 2; if (x) break a; continue b }; a: b(function() { a: c })".
Example C72_example : exists t, script_of env_ascii sample = Ok t /\ begins_with env_ascii sample Sloppy t
  /\ labels_differ (N_body t) /\ ~ In (N_of_ascii "/") sample /\ length (bo_items t) = 3.
Proof.
  eexists. split; [vm_compute; reflexivity|]. split; [|split; [|split; [|reflexivity]]].
  - apply C44_script; [exact ucd_ok_ascii|vm_compute; reflexivity].
  - match goal with |- labels_differ ?n => assert (h : L nothing n); [labels|destruct h as [h]; exact h] end.
  - intros h. vm_compute in h. decompose sum h; discriminate.
Qed.
(** Both sides are false of a text outside the grammar, and of one in strict mode. *)
Example C72_rejected : (exists e, script_of env_ascii (lit "a: break b;") = Err e)
  /\ (forall t, labels_differ (N_body t) -> ~ begins_with env_ascii (lit "a: break b;") Sloppy t)
  /\ (forall t, labels_differ (N_body t) -> ~ begins_with env_ascii (lit "with (a) b;") Strict t).
Proof.
  split; [eexists; vm_compute; reflexivity|]. split; intros t Hl Hb.
  - assert (K : exists u, script_of env_ascii (lit "a: break b;") = Ok u /\ script_untrack u = script_untrack t).
    { apply (C72_script_exact _ _ _ ucd_ok_ascii); [|exact Hl|exists t; split; [exact Hb|reflexivity]].
      intros h. vm_compute in h. decompose sum h; discriminate. }
    destruct K as (u & K & _). vm_compute in K. discriminate K.
  - assert (K : exists u, strict_of env_ascii (lit "with (a) b;") = Ok u /\ script_untrack u = script_untrack t).
    { apply (C72_strict_exact _ _ _ ucd_ok_ascii); [|exact Hl|exists t; split; [exact Hb|reflexivity]].
      intros h. vm_compute in h. decompose sum h; discriminate. }
    destruct K as (u & K & _). vm_compute in K. discriminate K.
Qed.

Definition stops {A} (n : nt A) (o : tokens) : Prop :=
  match n with Items | Script => next ends_list o | _ => True end.
Lemma G_stops A g (n : nt A) i o a : G g n i o a -> stops n o.
Proof. induction 1; cbn [stops] in *; auto. Qed.

(** C30, the part that holds: [script] and [strict] stop only at the end of the input or in
    front of a token that closes a block or a clause: [}], [case] or [default].  So a text
    is read to its end unless such a token is not matched.  (Missing: that it is always
    read to its end, which is refuted by [C30_rest_ignored_refuted].) *)
Theorem C30_script_stops_partial : forall V src t, ucd_ok V -> script_of V src = Ok t \/ strict_of V src = Ok t ->
  exists ts r rest k m, reads V src (ts ++ r :: rest) k /\ G (top m) Script (ts ++ r :: rest) (r :: rest) t
    /\ In (tk_value r) [TPunc T_EOF; TPunc T_RBrace; TReserved R_Case; TReserved R_Default].
Proof.
  intros V src t HV H.
  assert (K : exists m, begins_with V src m t).
  { destruct H as [H|H]; [exists Sloppy; exact (C44_script V src t HV H)|exists Strict; exact (C44_strict V src t HV H)]. }
  destruct K as (m & ts & rest & k & Hr & D). destruct (G_stops _ _ _ _ _ _ D) as (r & rest' & -> & He).
  exists ts, r, rest', k, m. split; [exact Hr|]. split; [exact D|]. unfold ends_list in He. cbn in He |- *. tauto.
Qed.
Print Assumptions C30_script_stops_partial.
Example C30_stops_example : (exists t, script_of env_ascii (lit "a; } b c d") = Ok t)
  /\ (exists t, strict_of env_ascii (lit "a: { b }") = Ok t) /\ exists e, script_of env_ascii (lit "a; ) b") = Err e.
Proof. repeat split; eexists; vm_compute; reflexivity. Qed.
