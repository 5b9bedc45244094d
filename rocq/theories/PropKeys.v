(** How far the conversion departs from ESTree: every destructuring assignment is refused
    (C63) and no property key is ever taken for computed (C64). *)
From Coq Require Import String Ascii List NArith ZArith Bool.
From Verif Require Import Base F64 Word Token Punc Ast Track Node SpecTree Unjson Estree SpecEstree SpecKeys
  EstreeProofs EstreeConv EstreeComp EstreeSafe EstreeExtra EstreeKeys EstreeSits PropEstree.
Import ListNotations.
Local Open Scope string_scope.
Local Open Scope list_scope.
Local Open Scope nat_scope.
Local Arguments lit _ : simpl never.

(** *** C63 *)

(** A document with a node of an unknown type where an expression is expected, at any
    depth, is refused. *)
Theorem C63_unknown_types_refused : forall d o t,
  sits d R_Expression o -> typed o t -> ~ In t node_types -> exists e, into_script d = Err e.
Proof.
  intros d o t S T N. pose proof (into_script_safe d) as A. destruct (into_script d) as [s|e| |] eqn:E; try contradiction; eauto.
  destruct N. eapply accepted_type; eauto.
Qed.
Print Assumptions C63_unknown_types_refused.

Definition pattern (l : object) : Prop := typed l "ArrayPattern" \/ typed l "ObjectPattern".
Lemma not_types : ~ In "ArrayPattern" node_types /\ ~ In "ObjectPattern" node_types.
Proof. split; intros H; repeat (destruct H as [H|H]; [discriminate H|]); destruct H. Qed.

(** So every document with a destructuring assignment, wherever it stands, is refused. *)
Theorem C63_destructuring_always_refused : forall d o l,
  sits d R_Expression o -> typed o "AssignmentExpression" -> has o "left" (J_Object l) -> pattern l ->
  exists e, into_script d = Err e.
Proof.
  intros d o l S T H P. assert (S' : sits d R_Expression l).
  { eapply Si_part; [exact S|exact T| |left; exact H]. cbn. tauto. }
  destruct P as [P|P]; eapply C63_unknown_types_refused; try eassumption; apply not_types.
Qed.
Print Assumptions C63_destructuring_always_refused.

(** And so is every document with a for-in or for-of loop over a pattern. *)
Theorem C63_loop_patterns_always_refused : forall d o l,
  sits d R_Statement o -> typed o "ForInStatement" \/ typed o "ForOfStatement" ->
  has o "left" (J_Object l) -> pattern l -> exists e, into_script d = Err e.
Proof.
  intros d o l S T H P. assert (S' : sits d R_Expression l).
  { assert (exists r, sits d r l /\ (r = R_Head \/ r = R_OfHead)) as (r & A & R).
    { destruct T as [T|T]; [exists R_Head|exists R_OfHead]; (split; [|tauto]); eapply Si_part;
        [exact S|exact T| |left; exact H|exact S|exact T| |left; exact H]; cbn; tauto. }
    destruct P as [P|P]; eapply Si_head; eauto; discriminate. }
  destruct P as [P|P]; eapply C63_unknown_types_refused; try eassumption; apply not_types.
Qed.
Print Assumptions C63_loop_patterns_always_refused.

(** [while (a) { function f() { b + ([a] = b); } }] *)
Definition deep_assignment : object :=
  [(lit "type", st "AssignmentExpression"); (lit "operator", st "="); (lit "left", array_pattern); (lit "right", ident "b")].
Definition node (t : string) (l : list (string * json)) : object :=
  (lit "type", st t) :: map (fun p => (lit (fst p), snd p)) l.
Definition deep_sum : object :=
  node "BinaryExpression" [("operator", st "+"); ("left", ident "b"); ("right", J_Object deep_assignment)].
Definition deep_statement : object := node "ExpressionStatement" [("expression", J_Object deep_sum)].
Definition deep_body : object := node "BlockStatement" [("body", J_Array [J_Object deep_statement])].
Definition deep_function : object :=
  node "FunctionDeclaration" [("id", ident "f"); ("params", J_Array []); ("generator", J_Bool false);
    ("body", J_Object deep_body)].
Definition deep_block : object := node "BlockStatement" [("body", J_Array [J_Object deep_function])].
Definition deep_loop : object := node "WhileStatement" [("test", ident "a"); ("body", J_Object deep_block)].
Definition deep_doc : object := prog [J_Object deep_loop].
Ltac here := apply has_lookup; vm_compute; reflexivity.
Example C63_example : sits deep_doc R_Expression deep_assignment /\ typed deep_assignment "AssignmentExpression"
  /\ (exists l, has deep_assignment "left" (J_Object l) /\ pattern l)
  /\ into_script deep_doc = Err (EE_InvalidTypeTag (lit "ArrayPattern")).
Proof.
  split.
  - eapply (Si_part _ _ deep_sum); [| |do 1 right; left; reflexivity|]; [|here|left; here].
    eapply (Si_part _ _ deep_statement); [| |do 23 right; left; reflexivity|]; [|here|left; here].
    eapply (Si_fixed _ _ deep_body); [|left; reflexivity|]; [|right; eexists; split; [here|left; reflexivity]].
    eapply (Si_part _ _ deep_function); [| |do 21 right; left; reflexivity|]; [|here|left; here].
    eapply (Si_part _ _ deep_block); [| |do 51 right; left; reflexivity|]; [|here|right; eexists; split; [here|left; reflexivity]].
    eapply (Si_part _ _ deep_loop); [| |do 38 right; left; reflexivity|]; [|here|left; here].
    eapply (Si_fixed _ _ deep_doc); [|left; reflexivity|]; [|right; eexists; split; [here|left; reflexivity]].
    apply Si_root.
  - split; [here|]. split; [eexists; split; [here|left; here]|vm_compute; reflexivity].
Qed.

(** *** C64 *)

(** Two documents that agree except for the field [computed] of nodes that are not member
    expressions, and for fields that are not ESTree's, are converted to the same tree or
    are both refused.  In particular a property with a computed key is always taken for
    the property with the plain key. *)
Theorem C64_computed_never_read : forall o p, same_plain (J_Object o) (J_Object p) ->
  forall s, into_script o = Ok s <-> into_script p = Ok s.
Proof. exact EstreeKeys.into_script_same. Qed.
Print Assumptions C64_computed_never_read.

(** Such documents: those that differ in the value of one field [computed] of an object
    that is not a member expression, and those that contain such in corresponding
    fields. *)
Lemma lookup_other k a b x y : k <> lit "computed" ->
  lookup k (a ++ (lit "computed", x) :: b) = lookup k (a ++ (lit "computed", y) :: b).
Proof.
  intros N. induction a as [|[k' v'] a IH]; cbn.
  - now rewrite str_eqb_ne.
  - destruct (str_eqb k k'); [reflexivity|exact IH].
Qed.
Lemma same_computed a b x y : ~ typed (a ++ (lit "computed", x) :: b) "MemberExpression" ->
  same_plain (J_Object (a ++ (lit "computed", x) :: b)) (J_Object (a ++ (lit "computed", y) :: b)).
Proof.
  intros M. assert (N : forall k, k <> "computed" -> lit k <> lit "computed") by (intros k N E; apply N, lit_inj, E).
  assert (M' : ~ typed (a ++ (lit "computed", y) :: b) "MemberExpression").
  { intros T. apply M. apply has_lookup. apply has_lookup in T. rewrite (lookup_other _ a b x y); [exact T|now apply N]. }
  apply SP_object; intros k v [_ F] H; apply has_lookup in H; exists v; [split; [|constructor]|]; apply has_lookup.
  - rewrite (lookup_other _ a b y x); [exact H|]. apply N. auto.
  - rewrite (lookup_other _ a b x y); [exact H|]. apply N. auto.
Qed.
Lemma same_field a b k v w : k <> "type" -> same_plain v w ->
  same_plain (J_Object (a ++ (lit k, v) :: b)) (J_Object (a ++ (lit k, w) :: b)).
Proof.
  intros N S. assert (L : forall v w k' u, lookup (lit k') (a ++ (lit k, v) :: b) = Some u ->
    lookup (lit k') (a ++ (lit k, w) :: b) = Some u \/ u = v /\ lookup (lit k') (a ++ (lit k, w) :: b) = Some w).
  { clear. intros v w k' u. induction a as [|[k2 v2] a' IH]; cbn; destruct (str_eqb (lit k') _); auto.
    intros H. injection H as ->. auto. }
  apply SP_object; intros k' u _ H; apply has_lookup in H;
    [destruct (L _ w _ _ H) as [H'|[-> H']]|destruct (L _ v _ _ H) as [H'|[-> H']]].
  - exists u. split; [now apply has_lookup|constructor].
  - exists w. split; [now apply has_lookup|exact S].
  - exists u. now apply has_lookup.
  - exists v. now apply has_lookup.
Qed.
Example C64_example : same_plain (J_Object (object_with true)) (J_Object (object_with false))
  /\ into_script (object_with true) = Ok object_tree /\ into_script (object_with false) = Ok object_tree.
Proof.
  split; [|split; vm_compute; reflexivity].
  apply (same_field [(lit "type", st "Program")] [] "body"); [discriminate|]. apply SP_array. constructor; [|constructor].
  apply (same_field [(lit "type", st "ExpressionStatement")] [] "expression"); [discriminate|].
  apply (same_field [(lit "type", st "ObjectExpression")] [] "properties"); [discriminate|].
  apply SP_array. constructor; [|constructor].
  apply (same_computed [(lit "type", st "Property"); (lit "kind", st "init"); (lit "method", J_Bool false);
    (lit "shorthand", J_Bool false)] [(lit "key", ident "x"); (lit "value", lit_of (J_U64 1))]).
  intros T. apply has_lookup in T. vm_compute in T. discriminate T.
Qed.
