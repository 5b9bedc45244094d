(** Comparison of trees (C47). *)
From Coq Require Import String Ascii List NArith ZArith Permutation Bool.
From Verif Require Import Base Chars F64 Word Token Lexer Punc Ast Track PState Parser Api SpecLexer SpecParser
  LexerProofs Node NodeProofs SpecTree TreeProofs SpecLoc AstEq SpecEq EqProofs PropLoc.
Import ListNotations.
Local Open Scope nat_scope.

(** Two trees compare equal exactly when they have the same location, semicolon and
    data at every node; the spelling of a literal, the order of the flags of a regular
    expression and the presence of an empty argument list after [new] are not data. *)
Theorem C47_comparison_exact : forall n m, node_eqb n m = true <-> same n m.
Proof. exact node_eqb_iff. Qed.
Print Assumptions C47_comparison_exact.

(** Reflexive away from NaN, symmetric and transitive. *)
Theorem C47_reflexive : forall n, (forall m, within n m -> ~ nan_literal m) -> node_eqb n n = true.
Proof. intros n H. apply node_eqb_iff, same_refl, H. Qed.
Print Assumptions C47_reflexive.
Theorem C47_symmetric : forall n m, node_eqb n m = node_eqb m n.
Proof.
  intros n m. destruct (node_eqb n m) eqn:A, (node_eqb m n) eqn:B; try reflexivity; exfalso.
  - apply node_eqb_iff, same_sym, node_eqb_iff in A. congruence.
  - apply node_eqb_iff, same_sym, node_eqb_iff in B. congruence.
Qed.
Print Assumptions C47_symmetric.
Theorem C47_transitive : forall n m k, node_eqb n m = true -> node_eqb m k = true -> node_eqb n k = true.
Proof. intros n m k A B. apply node_eqb_iff in A, B. apply node_eqb_iff, (same_trans n m k A B). Qed.
Print Assumptions C47_transitive.

(** Equal trees stay equal when locations are removed. *)
Theorem C47_untracked : forall n m, node_eqb n m = true -> node_eqb (node_untrack n) (node_untrack m) = true.
Proof. intros n m A. apply node_eqb_iff in A. apply node_eqb_iff, same_untrack, A. Qed.
Print Assumptions C47_untracked.

(** The tree of a text always equals itself: no text yields a NaN literal. *)
Lemma tiles_number V src ops b k ts k' t x :
  tiles V src ops b k ts k' -> In t ts -> tk_value t = TNumber x -> num_value x <> FNan.
Proof.
  induction 1 as [|op ops b k u k1 ts k2 Hn _ IH]; intros Hi Hx; [destruct Hi|].
  destruct Hi as [->|Hi]; [|auto].
  destruct Hn as (ws & w & l & _ & _ & _ & Hl & _). rewrite Hx in Hl. inversion Hl; subst.
  eapply number_value_number. eassumption.
Qed.
Theorem C47_parsed_trees_equal_themselves : forall V src t, ucd_ok V -> parsed V src t -> node_eqb t t = true.
Proof.
  intros V src t HV H. apply C47_reflexive. intros m Hm Hnan.
  destruct (C59_leaves_are_their_tokens V src t HV H) as (ts & k & (ops & Ht) & Hok).
  specialize (Hok m Hm). destruct m; try contradiction.
  - destruct e; try contradiction. destruct Hok as (u & Hu & _ & Hv). exact (tiles_number _ _ _ _ _ _ _ _ _ Ht Hu Hv Hnan).
  - destruct k0; try contradiction. destruct Hok as (u & Hu & _ & Hv). exact (tiles_number _ _ _ _ _ _ _ _ _ Ht Hu Hv Hnan).
Qed.
Print Assumptions C47_parsed_trees_equal_themselves.

(** [{ x = 0x10; "a\x62"; /re/gi; new F }] and [{ x = 16; 'ab'; /re/ig; new F() }] are
    equal, as trees without locations, and differ when one value differs; NaN does not
    equal itself, and a location matters. *)
Definition num_ (s : option number_source) (n : N) : expr := E_Number None (NumberLiteral s (f64_of_N n)).
Definition fn_ : expr := E_Id (Id None (NString (lit "F"))).
Definition eq_left : node := N_expr (E_Seq None
  [num_ (Some (RadixInt (Hex LowerCase) (lit "10"))) 16; E_String None (StringLiteral (Some (lit "'a\x62'")) (lit "ab"));
   E_RegExp None (RegExpLiteral (lit "re") (lit "gi")); E_New None fn_ None]).
Definition eq_right : node := N_expr (E_Seq None
  [num_ None 16; E_String None (StringLiteral None (lit "ab"));
   E_RegExp None (RegExpLiteral (lit "re") (lit "ig")); E_New None fn_ (Some [])]).
Definition eq_other : node := N_expr (E_Seq None
  [num_ None 17; E_String None (StringLiteral None (lit "ab"));
   E_RegExp None (RegExpLiteral (lit "re") (lit "ig")); E_New None fn_ (Some [])]).
Example C47_example_equal : node_eqb eq_left eq_right = true /\ node_eqb eq_left eq_other = false.
Proof. split; reflexivity. Qed.
Example C47_example_nan :
  node_eqb (N_expr (E_Number None (NumberLiteral None FNan))) (N_expr (E_Number None (NumberLiteral None FNan))) = false
  /\ node_eqb (N_expr (E_Null None)) (N_expr (E_Null (Some (Span origin origin)))) = false.
Proof. split; reflexivity. Qed.
Example C47_example_parsed : exists b, parsed env_ascii loc_example (N_body b) /\ node_eqb (N_body b) (N_body b) = true.
Proof.
  destruct (script_of env_ascii loc_example) as [b| | |] eqn:E; try (vm_compute in E; discriminate).
  exists b. split; [apply pa_script, E|]. vm_compute in E. injection E as <-. vm_compute. reflexivity.
Qed.
