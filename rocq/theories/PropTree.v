(** Properties of operators, groupings, patterns and locations of trees
    (C22-C26, C45, C46, C48). *)
From Coq Require Import String Ascii List NArith Bool Lia.
From Verif Require Import Base Chars Word Token Punc Ast Track Cover Stack PState Parser Api SpecLexer
  LexerProofs SpecStack StackProofs Node NodeProofs SpecTree TreeProofs CoverProofs.
Import ListNotations.
Local Open Scope N_scope.

(** ** C22, C23: flat sequences of operators *)

(** C22 and C23: the tree built from a sequence is the tree of a grouping of just
    that sequence, in that order, in which tighter operators are applied first and
    operators of one level from left to right. *)
Theorem C22_C23_operators_grouped : forall e more, exists g,
  feed stack_new e more = denote g /\ well_grouped g /\ written g = (e, more).
Proof. exact feed_grouping. Qed.
Print Assumptions C22_C23_operators_grouped.

(** C23: there is no other such grouping. *)
Theorem C23_grouping_unique : forall g g',
  well_grouped g -> well_grouped g' -> written g = written g' -> g = g'.
Proof. exact grouping_unique. Qed.
Print Assumptions C23_grouping_unique.

(** C23: every infix operator stands on exactly one level of grammar.md. *)
Theorem C23_levels : forall o, exists n, at_level o n /\ forall n', at_level o n' -> n' = n.
Proof. exact level_exists. Qed.
Print Assumptions C23_levels.

(** [a - b * c - d || e] is [((a - (b * c)) - d) || e]. *)
Definition v (s : string) : expr := E_Id (Id None (NString (lit s))).
Definition bin (t : binop_tag) : infix := In_Binop (Op None t).
Example C22_C23_example :
  feed stack_new (v "a") [(bin Bi_Minus, v "b"); (bin Bi_Times, v "c"); (bin Bi_Minus, v "d");
                          (In_Logop (Op None Lo_Or), v "e")]
  = denote (Apply (Apply (Apply (Operand (v "a")) (bin Bi_Minus)
                                (Apply (Operand (v "b")) (bin Bi_Times) (Operand (v "c"))))
                         (bin Bi_Minus) (Operand (v "d")))
                  (In_Logop (Op None Lo_Or)) (Operand (v "e"))).
Proof. reflexivity. Qed.
Example C23_example :
  well_grouped (Apply (Operand (v "a")) (bin Bi_Minus)
                      (Apply (Operand (v "b")) (bin Bi_Times) (Operand (v "c"))))
  /\ at_level (bin Bi_Minus) 8 /\ at_level (bin Bi_Times) 9
  /\ ~ well_grouped (Apply (Apply (Operand (v "a")) (bin Bi_Minus) (Operand (v "b")))
                           (bin Bi_Times) (Operand (v "c"))).
Proof.
  assert (H8 : at_level (bin Bi_Minus) 8)
    by (exists ["+"; "-"]%string, "-"%string; split; [reflexivity|split; [cbn; tauto|reflexivity]]).
  assert (H9 : at_level (bin Bi_Times) 9)
    by (exists ["*"; "/"; "%"]%string, "*"%string; split; [reflexivity|split; [cbn; tauto|reflexivity]]).
  split; [|split; [exact H8|split; [exact H9|]]].
  - cbn [well_grouped applies]. split; [exact I|]. split.
    + split; [exact I|]. split; [exact I|]. split; intros; contradiction.
    + split; [intros; contradiction|]. intros o' n n' [[]|[->|[]]] Hn Hn'.
      apply at_level_rank in Hn. apply at_level_rank in Hn'. subst. cbn. lia.
  - cbn [well_grouped applies]. intros (_ & _ & H & _).
    assert (9 <= 8)%nat by (apply (H (bin Bi_Minus)); auto). lia.
Qed.

(** ** C24-C26: expressions reinterpreted as targets and patterns *)

(** C24: identifiers, dot accesses and bracket accesses become targets with all
    their parts; everything else is reported with its location. *)
Theorem C24_target_lossless : forall e,
  (forall t, into_assign_target e = inr t <-> e = target_expr t)
  /\ (forall x, into_assign_target e = inl x -> x = InvalidAssignTarget (expr_loc e)).
Proof. intros e. split; [apply target_iff|apply target_error]. Qed.
Print Assumptions C24_target_lossless.

Example C24_example : into_assign_target (v "a") = inr (AT_Id (Id None (NString (lit "a"))))
  /\ exists x, into_assign_target (E_This None) = inl x.
Proof. split; [reflexivity|eexists; reflexivity]. Qed.

(** C25: an expression that becomes a pattern is that pattern read as an expression. *)
Theorem C25_pattern_lossless : forall e p, into_assign_patt e = inr p -> patt_expr p = e.
Proof. exact patt_lossless. Qed.
Print Assumptions C25_pattern_lossless.

(** C25: which expressions become patterns: exactly the patterns whose rest elements
    carry no location. *)
Theorem C25_patterns_exact : forall e p,
  into_assign_patt e = inr p <-> e = patt_expr p /\ rests_unlocated p.
Proof. exact patt_iff. Qed.
Print Assumptions C25_patterns_exact.

Example C25_example : exists p,
  into_assign_patt (E_Arr None [Some (L_Expr (v "a")); None;
     Some (L_Expr (E_Obj None [Pr_Shorthand (Id None (NString (lit "b")));
                               Pr_Regular None (PK_Id None (lit "k")) (PV_Init (v "c"))]));
     Some (L_Spread None (v "d"))]) = inr p.
Proof. eexists. vm_compute. reflexivity. Qed.

(** C26 holds of trees without locations ... *)
Theorem C26_unlocated_rest : forall l es rest q r,
  into_assign_patt (E_Arr l es) = inr q ->
  (forall e', In (Some (L_Spread None e')) es -> False) ->
  into_assign_patt rest = inr r ->
  exists p, into_assign_patt (E_Arr l (es ++ [Some (L_Spread None rest)])) = inr p
            /\ patt_expr p = E_Arr l (es ++ [Some (L_Spread None rest)]).
Proof. exact rest_accepted. Qed.
Print Assumptions C26_unlocated_rest.

(** ... and is refuted for trees with them, whatever the elements ... *)
Theorem C26_located_rest_refused : forall l es sp rest p,
  into_assign_patt (E_Arr l (es ++ [Some (L_Spread (Some sp) rest)])) <> inr p.
Proof. exact rest_located. Qed.
Print Assumptions C26_located_rest_refused.

(** ... so that the parser refuses [[...a] = b]. *)
Theorem C26_rest_refuted : exists e, script_of env_ascii (lit "[...a] = b;") = Err e.
Proof. eexists. vm_compute. reflexivity. Qed.
Print Assumptions C26_rest_refuted.

Example C26_example : exists p, into_assign_patt (E_Arr None [Some (L_Spread None (v "a"))]) = inr p.
Proof. eexists. reflexivity. Qed.
(** Without the dots the same source is accepted. *)
Example C26_contrast : exists s, script_of env_ascii (lit "[a] = b;") = Ok s.
Proof. eexists. vm_compute. reflexivity. Qed.

(** ** C45, C46: locations of trees *)

(** C45: no location or semicolon mark remains anywhere ... *)
Theorem C45_untrack_erases : forall n m, within (node_untrack n) m ->
  node_loc m = None /\ (forall s, node_semi m = Some s -> s = Explicit None).
Proof. exact untrack_no_locs. Qed.
Print Assumptions C45_untrack_erases.

(** ... nothing else changes ... *)
Theorem C45_untrack_nothing_else : forall n, alike n (node_untrack n).
Proof. exact untrack_alike. Qed.
Print Assumptions C45_untrack_nothing_else.

(** ... untracking again changes nothing ... *)
Theorem C45_untrack_idempotent : forall n, node_untrack (node_untrack n) = node_untrack n.
Proof. exact untrack_idem. Qed.
Print Assumptions C45_untrack_idempotent.

(** ... and two trees become identical exactly when they differ only there. *)
Theorem C45_untrack_canonical : forall n m, alike n m <-> node_untrack n = node_untrack m.
Proof. exact alike_untrack. Qed.
Print Assumptions C45_untrack_canonical.

Definition here : loc := Some (Span origin (Posn 1 0 1)).
Example C45_example :
  let n := N_stmt (S_Var here [Dt_Simple here (Id here (NString (lit "x"))) (Some (E_This here))] Inserted) in
  within n (N_expr (E_This here)) /\ node_untrack n <> n
  /\ alike n (N_stmt (S_Var None [Dt_Simple here (Id None (NString (lit "x"))) (Some (E_This None))]
                            (Explicit (Some origin))))
  /\ ~ alike n (N_stmt (S_Var here [Dt_Simple here (Id here (NString (lit "y"))) (Some (E_This here))] Inserted)).
Proof.
  cbv zeta. split; [|split; [discriminate|split]].
  - eapply wi_step; [eapply wi_step; [constructor|left; reflexivity]|right; left; reflexivity].
  - apply C45_untrack_canonical. reflexivity.
  - intros H. apply C45_untrack_canonical in H. discriminate.
Qed.

(** C46: locations are read as they were last written, and writing one changes
    nothing else. *)
Theorem C46_location_lens : forall n k l,
  node_loc (node_set_loc n l) = l
  /\ node_set_loc n (node_loc n) = n
  /\ node_set_loc (node_set_loc n k) l = node_set_loc n l
  /\ alike n (node_set_loc n l)
  /\ node_loc (node_untrack n) = None.
Proof.
  intros n k l. split; [apply set_get|]. split; [apply get_set|]. split; [apply set_set|].
  split; [|apply untrack_loc]. apply alike_untrack. symmetry. apply set_shape.
Qed.
Print Assumptions C46_location_lens.

Example C46_example :
  node_loc (N_expr (E_Id (Id here (NString (lit "x"))))) = here
  /\ node_set_loc (N_item (I_Stmt (S_Block (Block None [])))) here = N_item (I_Stmt (S_Block (Block here []))).
Proof. split; reflexivity. Qed.

(** ** C48: operators and text *)

Lemma table_text {A} (tbl : list (str * A)) (txt : A -> str) s t :
  forallb (fun e => str_eqb (txt (snd e)) (fst e)) tbl = true -> assoc tbl s = Some t -> txt t = s.
Proof.
  intros F H. apply assoc_in in H. rewrite forallb_forall in F. apply F in H.
  apply str_eqb_iff in H. exact H.
Qed.

(** C48: the text of an operator parses to it, and what parses prints as itself. *)
Theorem C48_binop_text : forall s t, binop_tag_from_str s = Some t <-> binop_tag_text t = s.
Proof.
  intros s t. split; [apply table_text; reflexivity|]. intros <-. destruct t; reflexivity.
Qed.
Print Assumptions C48_binop_text.
Theorem C48_logop_text : forall s t, logop_tag_from_str s = Some t <-> logop_tag_text t = s.
Proof.
  intros s t. split; [apply table_text; reflexivity|]. intros <-. destruct t; reflexivity.
Qed.
Print Assumptions C48_logop_text.
Theorem C48_assop_text : forall s t, assop_tag_from_str s = Some t <-> assop_tag_text t = s.
Proof.
  intros s t. split; [apply table_text; reflexivity|]. intros <-. destruct t; reflexivity.
Qed.
Print Assumptions C48_assop_text.

Theorem C48_unop_text : forall s t, unop_tag_from_str s = Some t <-> lit (unop_spelling t) = s.
Proof.
  intros s t. split.
  - apply (table_text unop_tag_from_table (fun t => lit (unop_spelling t))). reflexivity.
  - intros <-. destruct t; reflexivity.
Qed.
Print Assumptions C48_unop_text.

(** Operators with a location parse and print through their tags. *)
Theorem C48_op_text : forall s (o : binop), op_from_str binop_tag_from_str s = Some o ->
  op_text binop_tag_text o = s /\ op_loc o = None.
Proof.
  unfold op_from_str. intros s o H. destruct (binop_tag_from_str s) as [t|] eqn:E; [|discriminate].
  injection H as <-. apply C48_binop_text in E. split; [exact E|reflexivity].
Qed.
Print Assumptions C48_op_text.

(** The operator a token stands for is the one the token spells, and carries the
    token's location. *)
Definition spelled (v : token_data) (s : str) : Prop :=
  match v with
  | TPunc p => punc_text p = s
  | TReserved r => reserved_name r = s
  | _ => False
  end.
Theorem C48_token_operators : forall t,
  (forall b o, to_binop t b = Some o -> spelled (tk_value t) (binop_tag_text (op_tag o)) /\ op_loc o = Some (tk_loc t))
  /\ (forall o, to_logop t = Some o -> spelled (tk_value t) (logop_tag_text (op_tag o)) /\ op_loc o = Some (tk_loc t))
  /\ (forall o, to_assop t = Some o -> spelled (tk_value t) (assop_tag_text (op_tag o)) /\ op_loc o = Some (tk_loc t)).
Proof.
  unfold to_binop, to_logop, to_assop, mk_op. intros [l n v0]. cbn [tk_value tk_loc].
  split; [|split].
  - intros b o. destruct v0; cbn [td_binop]; try discriminate; match goal with p : punc |- _ => destruct p | w : reserved |- _ => destruct w end; try discriminate;
      try (destruct b; try discriminate); intros H; injection H as <-; split; reflexivity.
  - intros o. destruct v0; cbn [td_logop]; try discriminate; match goal with p : punc |- _ => destruct p end; try discriminate;
      intros H; injection H as <-; split; reflexivity.
  - intros o. destruct v0; cbn [td_assop]; try discriminate; match goal with p : punc |- _ => destruct p end; try discriminate;
      intros H; injection H as <-; split; reflexivity.
Qed.
Print Assumptions C48_token_operators.

(** Every operator spelled by a punctuator or reserved word is recognised. *)
Theorem C48_token_binop_complete : forall t o, spelled (tk_value t) (binop_tag_text o) ->
  to_binop t true = Some (Op (Some (tk_loc t)) o)
  /\ (o <> Bi_In -> to_binop t false = Some (Op (Some (tk_loc t)) o)).
Proof.
  intros [l n v0] o. unfold to_binop, mk_op. cbn [tk_value tk_loc].
  destruct v0; cbn [spelled]; try contradiction; match goal with p : punc |- _ => destruct p | w : reserved |- _ => destruct w end; destruct o; cbn; intros H;
    try discriminate; (split; [reflexivity|]); intros G; try reflexivity; contradiction.
Qed.
Print Assumptions C48_token_binop_complete.

Example C48_example : binop_tag_from_str (lit ">>>") = Some Bi_URShift
  /\ binop_tag_from_str (lit "=") = None /\ spelled (TReserved R_In) (binop_tag_text Bi_In).
Proof. split; [reflexivity|split; reflexivity]. Qed.
