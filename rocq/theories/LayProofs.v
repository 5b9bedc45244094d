(** Two parses of texts with the same tokens, method by method: the record of the first run
    against the second run. *)
From Coq Require Import String Ascii List NArith Arith Bool Lia.
From Verif Require Import Base Chars F64 Word Token Reader Lexer Punc Ast Track Cover Stack PState Parser Api Wp
  SpecReader ReaderProofs SpecLexer SpecClient SpecLayout LexWp LexLit LexerProofs LexTheorems LexLayout
  ParserWp SpecBlank Cost CostErase LayBase LayBlank.
Import ListNotations.
Local Open Scope nat_scope.

Create HintDb sy.
#[export] Hint Extern 3 (like _ _) => lk : sy.

Section Methods.
Context (V : env) (HV : ucd_ok V) (src1 src2 : str).
Notation sim := (LayBase.sim V src1 src2).

Ltac toks := repeat match goal with H : @like token _ ?a ?b |- _ => is_var a; is_var b; prep H end.
Ltac sims := toks; repeat first
  [ solve [eauto with sy]
  | match goal with |- LayBase.sim _ _ _ (let x := _ in _) _ => cbv zeta end
  | match goal with |- LayBase.sim _ _ _ (cbind _ _) (bind _ _) =>
      eapply sim_bind; [|let a1 := fresh in let a2 := fresh in let H := fresh in intros a1 a2 H; prep H] end
  | match goal with |- LayBase.sim _ _ _ (cret _) (ret _) => apply sim_ret; lk end
  | match goal with |- LayBase.sim _ _ _ (cerr _) (err _) => apply sim_err; lk end
  | match goal with |- LayBase.sim _ _ _ (cpanic _) (panic_at _) => apply sim_panic end
  | match goal with |- LayBase.sim _ _ _ (cloop _ _ _) (loopM _ _ _) =>
      eapply sim_loop; [let a1 := fresh in let a2 := fresh in let H := fresh in intros a1 a2 H; prep H|lk] end
  | comb
  | match goal with |- LayBase.sim _ _ _ (match ?x1 with _ => _ end) (match ?x2 with _ => _ end) =>
      first [ constr_eq x1 x2; destruct x1
            | change x2 with x1; destruct x1
            | let L := fresh in assert (L : like x1 x2) by lk; first [is_var x1; is_var x2 | revert L; generalize x1 x2; intros ? ? L];
              lazymatch type of L with like ?u ?v => dd L u v end ] end ]
with comb := fail
with dd L u v :=
  lazymatch type of u with
  | option _ => prep L | prod _ _ => prep L | sum _ _ => prep L | token => prep L 
  | prop_key => destruct u, v; try discriminate L;
      try (let h1 := fresh in let h2 := fresh in pose proof (pk_like _ _ _ _ L) as [h1 h2]; subst)
  | bool => prep L
  | _ => destruct u, v; try discriminate L
  end.


Lemma y_get_context : sim get_context' get_context.
Proof. apply sim_gets. intros s1 s2 (h & _). exact h. Qed.
#[local] Hint Resolve y_get_context : sy.


Lemma y_modify_context : forall f, sim (modify_context' f) (modify_context f).
Proof.
  intros f. apply sim_modify; [reflexivity|reflexivity|]. intros s1 s2 (h1 & h2 & h3).
  split; [|split]; cbn; [rewrite h1; reflexivity|exact h2|exact h3].
Qed.
#[local] Hint Resolve y_modify_context : sy.

Lemma y_modify_context2 : forall f1 f2, (forall c, f1 c = f2 c) -> sim (modify_context' f1) (modify_context f2).
Proof.
  intros f1 f2 hf. apply sim_modify; [reflexivity|reflexivity|]. intros s1 s2 (h1 & h2 & h3).
  split; [|split]; cbn; [rewrite h1; apply hf|exact h2|exact h3].
Qed.


Lemma y_p_skip : sim (p_skip' V) (p_skip V).
Proof. apply (sim_skip V HV). Qed.
#[local] Hint Resolve y_p_skip : sy.


Lemma y_p_read : sim (p_read' V) (p_read V).
Proof. apply (sim_read V HV). Qed.
#[local] Hint Resolve y_p_read : sy.


Lemma y_p_read_op : sim (p_read_op' V) (p_read_op V).
Proof. apply (sim_read V HV). Qed.
#[local] Hint Resolve y_p_read_op : sy.


Lemma y_p_peek : sim (p_peek' V) (p_peek V).
Proof. apply (sim_peek V HV). Qed.
#[local] Hint Resolve y_p_peek : sy.


Lemma y_p_peek_op : sim (p_peek_op' V) (p_peek_op V).
Proof. apply (sim_peek V HV). Qed.
#[local] Hint Resolve y_p_peek_op : sy.


Lemma y_p_unread : forall t1 t2, like t1 t2 -> sim (p_unread' t1) (p_unread t2).
Proof. apply sim_unread. Qed.
#[local] Hint Resolve y_p_unread : sy.


Lemma y_p_reread_token : sim p_reread_token' p_reread_token.
Proof. apply sim_reread_token. Qed.
#[local] Hint Resolve y_p_reread_token : sy.


Lemma y_p_expect : forall (expected : token_data), sim (p_expect' V expected) (p_expect V expected).
Proof. intros; unfold p_expect', p_expect; sims. Qed.
#[local] Hint Resolve y_p_expect : sy.

Lemma y_p_matches_token : forall (expected : token_data), sim (p_matches_token' V expected) (p_matches_token V expected).
Proof. intros; unfold p_matches_token', p_matches_token; sims. Qed.
#[local] Hint Resolve y_p_matches_token : sy.

Lemma y_p_matches : forall (expected : token_data), sim (p_matches' V expected) (p_matches V expected).
Proof. intros; unfold p_matches', p_matches; sims. Qed.
#[local] Hint Resolve y_p_matches : sy.

Lemma y_p_matches_op : forall (expected : token_data), sim (p_matches_op' V expected) (p_matches_op V expected).
Proof. intros; unfold p_matches_op', p_matches_op; sims. Qed.
#[local] Hint Resolve y_p_matches_op : sy.

Lemma y_p_reread : forall (expected : token_data), sim (p_reread' expected) (p_reread expected).
Proof.
  intros d. unfold p_reread', p_reread. eapply sim_bind; [apply sim_repeek|]. intros [l1 n1 d1] [l2 n2 d2] H. apply token_like in H as [-> ->].
  change (is_t (Token l2 n2 d2) d) with (is_t (Token l1 n2 d2) d).
  destruct (is_t _ d); [apply sim_reread_token|apply sim_panic].
Qed.
#[local] Hint Resolve y_p_reread : sy.


Lemma y_p_has_arg_same_line : sim (p_has_arg_same_line' V) (p_has_arg_same_line V).
Proof. intros; unfold p_has_arg_same_line', p_has_arg_same_line; sims. Qed.
#[local] Hint Resolve y_p_has_arg_same_line : sy.

Lemma y_p_posn : sim p_posn' p_posn.
Proof. apply sim_gets. reflexivity. Qed.
#[local] Hint Resolve y_p_posn : sy.


Lemma y_p_vec_span : forall ls1 ls2, like ls1 ls2 -> sim (p_vec_span' ls1) (p_vec_span ls2).
Proof.
  intros ls1 ls2 h. unfold p_vec_span', p_vec_span. destruct ls1 as [|a1 l1], ls2 as [|a2 l2]; try discriminate h.
  - sims.
  - apply sim_ret. pose proof (like_cons _ _ _ _ h) as [h1 h2]. 
    assert (hl : forall l1 l2 (a1 a2 : loc), like l1 l2 -> like a1 a2 -> like (last l1 a1) (last l2 a2)).
    { clear. induction l1 as [|b1 l1 IH]; intros [|b2 l2] a1 a2 h ha; try discriminate h; [exact ha|].
      apply like_cons in h as [h1 h2]. destruct l1 as [|o l1], l2 as [|o0 l2]; try discriminate h2; [exact h1|].
      change (like (last (o :: l1) a1) (last (o0 :: l2) a2)). apply IH; assumption. }
    pose proof (hl _ _ a1 a2 h h1) as h3. lk1.
Qed.
#[local] Hint Resolve y_p_vec_span : sy.


Lemma y_p_span : forall {A : Type} {BA : Blank A} (set : A -> loc -> A) (parse' : C A) (parse : P A),
  (forall a1 a2 l1 l2, like a1 a2 -> like l1 l2 -> like (set a1 l1) (set a2 l2)) ->
  sim parse' parse -> sim (p_span' set parse') (p_span set parse).
Proof.
  intros A BA set p' p hs hp. unfold p_span', p_span. eapply sim_bind; [apply y_p_posn|]. intros b1 b2 _.
  eapply sim_bind; [exact hp|]. intros a1 a2 ha. eapply sim_bind; [apply y_p_posn|]. intros e1 e2 _.
  apply sim_ret. apply hs; [exact ha|reflexivity].
Qed.


Lemma y_end_with_auto_semi : forall {A : Type} {BA : Blank A} (set : A -> loc -> A) (start1 start2 : posn) (nl : newline)
    (cons1 cons2 : semi -> A),
  (forall a1 a2 l1 l2, like a1 a2 -> like l1 l2 -> like (set a1 l1) (set a2 l2)) ->
  (forall s1 s2, like s1 s2 -> like (cons1 s1) (cons2 s2)) ->
  sim (end_with_auto_semi' V set start1 nl cons1) (end_with_auto_semi V set start2 nl cons2).
Proof.
  intros A BA set st1 st2 nl c1 c2 hs hc. unfold end_with_auto_semi', end_with_auto_semi.
  eapply sim_bind; [apply y_p_posn|]. intros b1 b2 _. eapply sim_bind; [apply y_p_peek|]. intros [l1 n1 d1] [l2 n2 d2] H. apply token_like in H as [-> ->].
  change (is_t (Token l2 n2 d2)) with (is_t (Token l1 n2 d2)).
  cbn [tk_newline].
  destruct (is_t _ (TPunc T_Semi)).
  - eapply sim_bind; [apply y_p_reread|]. intros r1 r2 _. eapply sim_bind; [apply y_p_posn|]. intros e1 e2 _.
    apply sim_ret. apply hs; [apply hc; reflexivity|reflexivity].
  - destruct (_ || _); [apply sim_ret; apply hs; [apply hc; reflexivity|reflexivity]|].
    destruct (match nl with NL_Required => _ | NL_Optional => _ end).
    + eapply sim_bind; [apply y_p_read|]. intros r1 r2 hr. apply sim_err. lk1.
    + apply sim_ret; apply hs; [apply hc; reflexivity|reflexivity].
Qed.


Lemma y_p_allow_in : forall {A : Type} {BA : Blank A} (b : bool) (parse' : C A) (parse : P A),
  sim parse' parse -> sim (p_allow_in' b parse') (p_allow_in b parse).
Proof. intros; unfold p_allow_in', p_allow_in; sims. Qed.


Lemma y_with_labels : forall (ls1 ls2 : list id) (t : label_type) (op' : C stmt) (op : P stmt), like ls1 ls2 -> sim op' op ->
  sim (with_labels' ls1 t op') (with_labels ls2 t op).
Proof.
  intros ls1 ls2 t op' op h ho. unfold with_labels', with_labels.
  change (map id_blank ls1 = map id_blank ls2) in h.
  eapply sim_bind.
  { apply y_modify_context2. intros c. rewrite <- (bl_insert ls1), <- (bl_insert ls2), h. reflexivity. }
  intros u1 u2 _. eapply sim_bind; [exact ho|]. intros b1 b2 hb. eapply sim_bind.
  { apply y_modify_context2. intros c. rewrite <- (bl_remove ls1), <- (bl_remove ls2), h. reflexivity. }
  intros v1 v2 _. apply sim_ret. lk1.
Qed.


Lemma y_take_deferred : sim take_deferred' take_deferred.
Proof.
  unfold take_deferred', take_deferred. eapply sim_bind.
  { apply sim_gets. intros s1 s2 (_ & _ & h). exact h. }
  intros d1 d2 hd. eapply sim_bind; [|intros; apply sim_ret; exact hd].
  apply sim_modify; [reflexivity|reflexivity|]. intros s1 s2 (h1 & h2 & h3). split; [exact h1|]. split; [exact h2|reflexivity].
Qed.
#[local] Hint Resolve y_take_deferred : sy.


Lemma y_unexpected : forall {A : Type} {BA : Blank A}, sim (@unexpected' A) (@unexpected A).
Proof. intros A BA. unfold unexpected', unexpected. sims. Qed.
#[local] Hint Resolve y_unexpected : sy.


Lemma y_set_module : sim set_module' set_module.
Proof.
  unfold set_module', set_module. eapply sim_bind; [|intros; apply y_modify_context].
  apply sim_modify; [reflexivity|reflexivity|]. intros s1 s2 (h1 & h2 & h3). split; [exact h1|]. split; [reflexivity|exact h3].
Qed.
#[local] Hint Resolve y_set_module : sy.


Lemma y_add_deferred : forall k1 k2, like k1 k2 ->
  sim (cmodify (fun s => set_deferred (p_deferred s ++ [k1]) s)) (modify (fun s => set_deferred (p_deferred s ++ [k2]) s)).
Proof.
  intros k1 k2 hk. apply sim_modify; [reflexivity|reflexivity|]. intros s1 s2 (h1 & h2 & h3).
  split; [exact h1|]. split; [exact h2|]. cbn [set_deferred p_deferred]. apply like_app; [exact h3|].
  apply cons_like; [exact hk|reflexivity].
Qed.

Lemma y_strict_check : forall (f' : C (option check)) (f : P (option check)), sim f' f -> sim (strict_check' f') (strict_check f).
Proof.
  intros f' f hf. unfold strict_check', strict_check. eapply sim_bind; [apply y_get_context|].
  intros c1 c2 hc. prep hc. destruct (tri_eqb (cx_strict c1) No); [apply sim_ret; reflexivity|].
  eapply sim_bind; [exact hf|]. intros [c|] [c0|] hk; try discriminate hk; [apply some_like in hk|apply sim_ret; reflexivity].
  destruct c as [e|e], c0 as [e'|e']; try discriminate hk.
  - assert (he : like e e') by (unfold like, blank, b_check, check_blank in hk; injection hk as hk; exact hk).
    destruct (tri_eqb (cx_strict c1) Yes); [apply sim_err; exact he|]. apply y_add_deferred. exact hk.
  - assert (he : like e e') by (unfold like, blank, b_check, check_blank in hk; injection hk as hk; exact hk).
    eapply sim_bind; [apply sim_gets; intros s1 s2 (_ & h & _); exact h|]. intros g1 g2 hg. prep hg.
    destruct (goal_eqb g1 G_Module); [apply sim_err; exact he|].
    destruct (negb (goal_eqb g1 G_Script)); [|apply sim_ret; reflexivity]. apply y_add_deferred. exact hk.
Qed.


Ltac comb ::= first
  [ match goal with H : @like id _ ?a ?b |- LayBase.sim _ _ _ _ ?m => rewrite (id_like _ _ H); match m with context [id_name b] => idtac end end
  | match goal with |- LayBase.sim _ _ _ (p_span' _ _) _ => apply y_p_span; [intros ? ? ? ? ? ?; first [lk1|cbv beta; lk]|] end
  | match goal with |- LayBase.sim _ _ _ (p_allow_in' _ _) _ => apply y_p_allow_in end
  | match goal with |- LayBase.sim _ _ _ (with_labels' _ _ _) _ => apply y_with_labels; [lk|] end
  | match goal with |- LayBase.sim _ _ _ (strict_check' _) _ => apply y_strict_check end
  | match goal with |- LayBase.sim _ _ _ (end_with_auto_semi' _ _ _ _ _) _ =>
      apply y_end_with_auto_semi; [intros ? ? ? ? ? ?; first [lk1|cbv beta; lk]|intros ? ? ?; lk1] end ].


Lemma y_id_check : forall (binding : bool) (n : name) (location1 location2 : span), like location1 location2 -> sim (id_check' binding n location1) (id_check binding n location2).
Proof. intros; unfold id_check', id_check; sims. Qed.
#[local] Hint Resolve y_id_check : sy.

Lemma y_new_id : forall (binding : bool) (n : name) (location1 location2 : span), like location1 location2 -> sim (new_id' binding n location1) (new_id binding n location2).
Proof. intros; unfold new_id', new_id; sims. Qed.
#[local] Hint Resolve y_new_id : sy.

Lemma y_new_id_from_token : forall (binding : bool) (t1 t2 : token), like t1 t2 -> sim (new_id_from_token' binding t1) (new_id_from_token binding t2).
Proof. intros; unfold new_id_from_token', new_id_from_token; sims. Qed.
#[local] Hint Resolve y_new_id_from_token : sy.

Context (R' : recs') (R : recs).
Context (HA : sim (r_assign' R') (r_assign R)) (HI : forall d, sim (r_item' R' d) (r_item R d)).
Hint Resolve HA HI : sy.

Lemma y_more_comma : forall {A : Type} {BA : Blank A} (first1 first2 : A) (f' : C A) (f : P A), like first1 first2 -> sim f' f -> sim (more_comma' V R' first1 f') (more_comma V R first2 f).
Proof. intros; unfold more_comma', more_comma; sims. Qed.
#[local] Hint Resolve y_more_comma : sy.

Lemma y_comma_separated : forall {A : Type} {BA : Blank A} (f' : C A) (f : P A), sim f' f -> sim (comma_separated' V R' f') (comma_separated V R f).
Proof. intros; unfold comma_separated', comma_separated; sims. Qed.
#[local] Hint Resolve y_comma_separated : sy.

Lemma y_p_id : forall (binding : bool), sim (p_id' V binding) (p_id V binding).
Proof. intros; unfold p_id', p_id; sims. Qed.
#[local] Hint Resolve y_p_id : sy.

Lemma y_p_id_opt : forall (binding : bool), sim (p_id_opt' V binding) (p_id_opt V binding).
Proof. intros; unfold p_id_opt', p_id_opt; sims. Qed.
#[local] Hint Resolve y_p_id_opt : sy.

Lemma y_binding_pattern : sim (binding_pattern' V) (binding_pattern V).
Proof. intros; unfold binding_pattern', binding_pattern; sims. Qed.
#[local] Hint Resolve y_binding_pattern : sy.

Lemma y_pattern_ : sim (pattern_' V) (pattern_ V).
Proof. intros; unfold pattern_', pattern_; sims. Qed.
#[local] Hint Resolve y_pattern_ : sy.

Lemma y_more_expressions : forall (first1 first2 : expr), like first1 first2 -> sim (more_expressions' V R' first1) (more_expressions V R first2).
Proof. intros; unfold more_expressions', more_expressions; sims. Qed.
#[local] Hint Resolve y_more_expressions : sy.

Lemma y_expression : sim (expression' V R') (expression V R).
Proof. intros; unfold expression', expression; sims. Qed.
#[local] Hint Resolve y_expression : sy.

Lemma y_paren_expression : sim (paren_expression' V R') (paren_expression V R).
Proof. intros; unfold paren_expression', paren_expression; sims. Qed.
#[local] Hint Resolve y_paren_expression : sy.

Lemma y_formal_parameters : sim (formal_parameters' V R') (formal_parameters V R).
Proof. intros; unfold formal_parameters', formal_parameters; sims. Qed.
#[local] Hint Resolve y_formal_parameters : sy.

Lemma y_match_directive_opt : sim (match_directive_opt' V) (match_directive_opt V).
Proof. intros; unfold match_directive_opt', match_directive_opt; sims. Qed.
#[local] Hint Resolve y_match_directive_opt : sy.

Lemma y_apply_pragma : forall d1 d2, like d1 d2 -> sim (apply_pragma' d1) (apply_pragma d2).
Proof.
  intros d1 d2 h. unfold apply_pragma', apply_pragma.
  assert (E : dir_pragma d1 = dir_pragma d2) by exact (f_equal dir_pragma h). rewrite E. sims.
Qed.
#[local] Hint Resolve y_apply_pragma : sy.


Lemma y_body_directives : sim (body_directives' V R') (body_directives V R).
Proof. intros; unfold body_directives', body_directives; sims. Qed.
#[local] Hint Resolve y_body_directives : sy.

Lemma y_statement_list : sim (statement_list' V R') (statement_list V R).
Proof. intros; unfold statement_list', statement_list; sims. Qed.
#[local] Hint Resolve y_statement_list : sy.

Lemma y_script_body : sim (script_body' V R') (script_body V R).
Proof. intros; unfold script_body', script_body; sims. Qed.
#[local] Hint Resolve y_script_body : sy.

Lemma y_body_check : forall (b1 b2 : script) ps1 ps2, like b1 b2 -> like ps1 ps2 -> sim (body_check' b1 ps1) (body_check b2 ps2).
Proof.
  intros b1 b2 p1 p2 hb hp. unfold body_check', body_check. apply sim_ret.
  rewrite <- (bl_pragma (bo_dirs b1)), <- (bl_pragma (bo_dirs b2)).
  assert (E : map dir_blank (bo_dirs b1) = map dir_blank (bo_dirs b2)) by exact (f_equal bo_dirs hb). rewrite E.
  destruct (existsb _ _); [|reflexivity].
  pose proof (bl_first_compound p1) as e1. pose proof (bl_first_compound p2) as e2.
  change (map (patt_of_blank id_blank (cpatt_blank id_blank)) p1 = map (patt_of_blank id_blank (cpatt_blank id_blank)) p2) in hp.
  rewrite hp, <- e2 in e1. destruct (first_compound p1), (first_compound p2); try discriminate e1; [|reflexivity].
  cbn [option_map] in e1. injection e1 as e1. lk1.
Qed.
#[local] Hint Resolve y_body_check : sy.


Lemma y_function_body : forall (ps1 ps2 : list (patt id)), like ps1 ps2 -> sim (function_body' V R' ps1) (function_body V R ps2).
Proof. intros; unfold function_body', function_body; sims. Qed.
#[local] Hint Resolve y_function_body : sy.

Lemma y_function_ : forall {I : Type} {BI : Blank I} (get_id' : C I) (get_id : P I), sim get_id' get_id -> sim (function_' V R' get_id') (function_ V R get_id).
Proof. intros; unfold function_', function_; sims. Qed.
#[local] Hint Resolve y_function_ : sy.

Lemma y_function_declaration : sim (function_declaration' V R') (function_declaration V R).
Proof. intros; unfold function_declaration', function_declaration; sims. Qed.
#[local] Hint Resolve y_function_declaration : sy.

Lemma y_expr_list_item : sim (expr_list_item' V R') (expr_list_item V R).
Proof. intros; unfold expr_list_item', expr_list_item; sims. Qed.
#[local] Hint Resolve y_expr_list_item : sy.

Lemma y_array_element : sim (array_element' V R') (array_element V R).
Proof. intros; unfold array_element', array_element; sims. Qed.
#[local] Hint Resolve y_array_element : sy.

Lemma y_array_literal : forall (start1 start2 : token), like start1 start2 -> sim (array_literal' V R' start1) (array_literal V R start2).
Proof. intros; unfold array_literal', array_literal; sims. Qed.
#[local] Hint Resolve y_array_literal : sy.

Lemma y_more_prop_init : forall (key1 key2 : prop_key), like key1 key2 -> sim (more_prop_init' V R' key1) (more_prop_init V R key2).
Proof. intros; unfold more_prop_init', more_prop_init; sims. Qed.
#[local] Hint Resolve y_more_prop_init : sy.

Lemma y_property_key_opt : sim (property_key_opt' V) (property_key_opt V).
Proof. intros; unfold property_key_opt', property_key_opt; sims. Qed.
#[local] Hint Resolve y_property_key_opt : sy.

Lemma y_property_key : sim (property_key' V) (property_key V).
Proof. intros; unfold property_key', property_key; sims. Qed.
#[local] Hint Resolve y_property_key : sy.

Lemma y_object_property : sim (object_property' V R') (object_property V R).
Proof. intros; unfold object_property', object_property; sims. Qed.
#[local] Hint Resolve y_object_property : sy.

Lemma y_object_literal : forall (start1 start2 : token), like start1 start2 -> sim (object_literal' V R' start1) (object_literal V R start2).
Proof. intros; unfold object_literal', object_literal; sims. Qed.
#[local] Hint Resolve y_object_literal : sy.

Lemma y_primary_expression : sim (primary_expression' V R') (primary_expression V R).
Proof. intros; unfold primary_expression', primary_expression; sims. Qed.
#[local] Hint Resolve y_primary_expression : sy.

Lemma y_member_base_expression : sim (member_base_expression' V R') (member_base_expression V R).
Proof. intros; unfold member_base_expression', member_base_expression; sims. Qed.
#[local] Hint Resolve y_member_base_expression : sy.

Lemma y_arguments_ : sim (arguments_' V R') (arguments_ V R).
Proof. intros; unfold arguments_', arguments_; sims. Qed.
#[local] Hint Resolve y_arguments_ : sy.

Lemma y_deref_brack : sim (deref_brack' V R') (deref_brack V R).
Proof. intros; unfold deref_brack', deref_brack; sims. Qed.
#[local] Hint Resolve y_deref_brack : sy.

Lemma y_id_name_ : sim (id_name_' V) (id_name_ V).
Proof. intros; unfold id_name_', id_name_; sims. Qed.
#[local] Hint Resolve y_id_name_ : sy.

Lemma y_deref_dot : sim (deref_dot' V) (deref_dot V).
Proof. intros; unfold deref_dot', deref_dot; sims. Qed.
#[local] Hint Resolve y_deref_dot : sy.

Lemma y_deref_opt : sim (deref_opt' V R') (deref_opt V R).
Proof. intros; unfold deref_opt', deref_opt; sims. Qed.
#[local] Hint Resolve y_deref_opt : sy.

Lemma y_suffix_opt : sim (suffix_opt' V R') (suffix_opt V R).
Proof. intros; unfold suffix_opt', suffix_opt; sims. Qed.
#[local] Hint Resolve y_suffix_opt : sy.

Lemma y_more_suffixes : forall (result1 result2 : expr), like result1 result2 -> sim (more_suffixes' V R' result1) (more_suffixes V R result2).
Proof. intros; unfold more_suffixes', more_suffixes; sims. Qed.
#[local] Hint Resolve y_more_suffixes : sy.

Lemma y_apply_news : forall (has_args : bool) (news1 news2 : list token) (base1 base2 : expr),
  like news1 news2 -> like base1 base2 -> sim (apply_news' V R' has_args news1 base1) (apply_news V R has_args news2 base2).
Proof.
  intros b news1; revert b; induction news1 as [|n1 news1 IH]; intros b [|n2 news2] e1 e2 hn he; try discriminate hn;
    cbn [apply_news' apply_news]; [sims|]. apply like_cons in hn as [hn hn']. prep hn. sims.
Qed.
#[local] Hint Resolve y_apply_news : sy.


Lemma y_more_new_expression : forall (news1 news2 : list token) (base1 base2 : expr), like news1 news2 -> like base1 base2 -> sim (more_new_expression' V R' news1 base1) (more_new_expression V R news2 base2).
Proof. intros; unfold more_new_expression', more_new_expression; sims. Qed.
#[local] Hint Resolve y_more_new_expression : sy.

Lemma y_new_expression : forall (news1 news2 : list token), like news1 news2 -> sim (new_expression' V R' news1) (new_expression V R news2).
Proof. intros; unfold new_expression', new_expression; sims. Qed.
#[local] Hint Resolve y_new_expression : sy.

Lemma y_call_expression : sim (call_expression' V R') (call_expression V R).
Proof. intros; unfold call_expression', call_expression; sims. Qed.
#[local] Hint Resolve y_call_expression : sy.

Lemma y_read_news : sim (read_news' V R') (read_news V R).
Proof. intros; unfold read_news', read_news; sims. Qed.
#[local] Hint Resolve y_read_news : sy.

Lemma y_lhs_expression : sim (lhs_expression' V R') (lhs_expression V R).
Proof. intros; unfold lhs_expression', lhs_expression; sims. Qed.
#[local] Hint Resolve y_lhs_expression : sy.

Lemma y_match_unop : sim (match_unop' V) (match_unop V).
Proof. intros; unfold match_unop', match_unop; sims. Qed.
#[local] Hint Resolve y_match_unop : sy.

Lemma y_match_prefix : sim (match_prefix' V) (match_prefix V).
Proof. intros; unfold match_prefix', match_prefix; sims. Qed.
#[local] Hint Resolve y_match_prefix : sy.

Lemma y_match_postfix_operator_opt : sim (match_postfix_operator_opt' V) (match_postfix_operator_opt V).
Proof. intros; unfold match_postfix_operator_opt', match_postfix_operator_opt; sims. Qed.
#[local] Hint Resolve y_match_postfix_operator_opt : sy.

Lemma y_to_target : forall e1 e2, like e1 e2 -> sim (to_target' e1) (to_target e2).
Proof.
  intros e1 e2 h. unfold to_target', to_target.
  assert (E : cres_blank target_blank (into_assign_target e1) = cres_blank target_blank (into_assign_target e2))
    by (rewrite <- !bl_target; exact (f_equal into_assign_target h)).
  destruct (into_assign_target e1) as [c|c], (into_assign_target e2) as [c0|c0]; try discriminate E; cbn [cres_blank] in E; injection E as E.
  - apply sim_err. change (cover_error_blank c = cover_error_blank c0) in E. lk1.
  - apply sim_ret. exact E.
Qed.
#[local] Hint Resolve y_to_target : sy.


Lemma y_to_patt : forall e1 e2, like e1 e2 -> sim (to_patt' e1) (to_patt e2).
Proof.
  intros e1 e2 h. unfold to_patt', to_patt.
  assert (E : cres_blank pt_blank (into_assign_patt e1) = cres_blank pt_blank (into_assign_patt e2))
    by (rewrite <- !bl_patt; exact (f_equal into_assign_patt h)).
  destruct (into_assign_patt e1) as [c|c], (into_assign_patt e2) as [c0|c0]; try discriminate E; cbn [cres_blank] in E; injection E as E.
  - apply sim_err. change (cover_error_blank c = cover_error_blank c0) in E. lk1.
  - apply sim_ret. exact E.
Qed.
#[local] Hint Resolve y_to_patt : sy.


Lemma y_apply_postfix : forall (p1 p2 : postfix) (arg1 arg2 : expr), like p1 p2 -> like arg1 arg2 -> sim (apply_postfix' p1 arg1) (apply_postfix p2 arg2).
Proof.
  intros p1 p2 e1 e2 hp he. unfold apply_postfix', apply_postfix.
  eapply sim_bind; [apply y_to_target; exact he|]. intros t1 t2 ht. apply sim_ret.
  destruct p1, p2; try discriminate hp; clear hp; lk1.
Qed.
#[local] Hint Resolve y_apply_postfix : sy.


Lemma y_apply_prefixes : forall (ps1 ps2 : list PState.prefix) (arg1 arg2 : expr),
  like ps1 ps2 -> like arg1 arg2 -> sim (apply_prefixes' ps1 arg1) (apply_prefixes ps2 arg2).
Proof.
  intros ps1. induction ps1 as [|n1 ps1 IH]; intros [|n2 ps2] e1 e2 hn he; try discriminate hn;
    cbn [apply_prefixes' apply_prefixes]; [sims|]. apply like_cons in hn as [hn hn'].
  destruct n1 as [o1|s1|s1], n2 as [o2|s2|s2]; try discriminate hn.
  - assert (ho : like o1 o2) by exact (f_equal (fun p => match p with Pre_Unop o => o | _ => op_blank o1 end) hn).
    apply IH; [exact hn'|]. clear hn hn'. lk1.
  - eapply sim_bind; [apply y_to_target; exact he|]. intros t1 t2 ht. apply IH; [exact hn'|]. clear hn hn'. lk1.
  - eapply sim_bind; [apply y_to_target; exact he|]. intros t1 t2 ht. apply IH; [exact hn'|]. clear hn hn'. lk1.
Qed.
#[local] Hint Resolve y_apply_prefixes : sy.


Lemma y_read_prefixes : sim (read_prefixes' V R') (read_prefixes V R).
Proof. intros; unfold read_prefixes', read_prefixes; sims. Qed.
#[local] Hint Resolve y_read_prefixes : sy.

Lemma y_unary_expression : sim (unary_expression' V R') (unary_expression V R).
Proof. intros; unfold unary_expression', unary_expression; sims. Qed.
#[local] Hint Resolve y_unary_expression : sy.

Lemma y_match_infix : sim (match_infix' V) (match_infix V).
Proof. intros; unfold match_infix', match_infix; sims. Qed.
#[local] Hint Resolve y_match_infix : sy.

Lemma y_more_infix_expressions : forall (left1 left2 : expr), like left1 left2 -> sim (more_infix_expressions' V R' left1) (more_infix_expressions V R left2).
Proof. intros; unfold more_infix_expressions', more_infix_expressions; sims. Qed.
#[local] Hint Resolve y_more_infix_expressions : sy.

Lemma y_more_conditional : forall (left1 left2 : expr), like left1 left2 -> sim (more_conditional' V R' left1) (more_conditional V R left2).
Proof. intros; unfold more_conditional', more_conditional; sims. Qed.
#[local] Hint Resolve y_more_conditional : sy.

Lemma y_conditional_expression : sim (conditional_expression' V R') (conditional_expression V R).
Proof. intros; unfold conditional_expression', conditional_expression; sims. Qed.
#[local] Hint Resolve y_conditional_expression : sy.

Lemma y_more_assignment : forall (left1 left2 : expr), like left1 left2 -> sim (more_assignment' V R' left1) (more_assignment V R left2).
Proof. intros; unfold more_assignment', more_assignment; sims. Qed.
#[local] Hint Resolve y_more_assignment : sy.

Lemma y_assignment_expression : sim (assignment_expression' V R') (assignment_expression V R).
Proof. intros; unfold assignment_expression', assignment_expression; sims. Qed.
#[local] Hint Resolve y_assignment_expression : sy.

Lemma y_statement : sim (statement' R') (statement R).
Proof. intros; unfold statement', statement; sims. Qed.
#[local] Hint Resolve y_statement : sy.

Lemma y_more_labels : forall (first1 first2 : id), like first1 first2 -> sim (more_labels' V R' first1) (more_labels V R first2).
Proof. intros; unfold more_labels', more_labels; sims. Qed.
#[local] Hint Resolve y_more_labels : sy.

Lemma y_labelled_statement : forall (i1 i2 : id), like i1 i2 -> sim (labelled_statement' V R' i1) (labelled_statement V R i2).
Proof. intros; unfold labelled_statement', labelled_statement; sims. Qed.
#[local] Hint Resolve y_labelled_statement : sy.

Lemma y_expression_statement : sim (expression_statement' V R') (expression_statement V R).
Proof. intros; unfold expression_statement', expression_statement; sims. Qed.
#[local] Hint Resolve y_expression_statement : sy.

Lemma y_block_ : sim (block_' V R') (block_ V R).
Proof. intros; unfold block_', block_; sims. Qed.
#[local] Hint Resolve y_block_ : sy.

Lemma y_declarator : sim (declarator' V R') (declarator V R).
Proof. intros; unfold declarator', declarator; sims. Qed.
#[local] Hint Resolve y_declarator : sy.

Lemma y_const_declarator : sim (const_declarator' V R') (const_declarator V R).
Proof. intros; unfold const_declarator', const_declarator; sims. Qed.
#[local] Hint Resolve y_const_declarator : sy.

Lemma y_var_statement : sim (var_statement' V R') (var_statement V R).
Proof. intros; unfold var_statement', var_statement; sims. Qed.
#[local] Hint Resolve y_var_statement : sy.

Lemma y_let_declaration : forall (start1 start2 : posn), like start1 start2 -> sim (let_declaration' V R' start1) (let_declaration V R start2).
Proof. intros; unfold let_declaration', let_declaration; sims. Qed.
#[local] Hint Resolve y_let_declaration : sy.

Lemma y_const_declaration : sim (const_declaration' V R') (const_declaration V R).
Proof. intros; unfold const_declaration', const_declaration; sims. Qed.
#[local] Hint Resolve y_const_declaration : sy.

Lemma y_empty_statement : sim (empty_statement' V) (empty_statement V).
Proof. intros; unfold empty_statement', empty_statement; sims. Qed.
#[local] Hint Resolve y_empty_statement : sy.

Lemma y_if_statement : sim (if_statement' V R') (if_statement V R).
Proof. intros; unfold if_statement', if_statement; sims. Qed.
#[local] Hint Resolve y_if_statement : sy.

Lemma y_iteration_body : sim (iteration_body' R') (iteration_body R).
Proof. intros; unfold iteration_body', iteration_body; sims. Qed.
#[local] Hint Resolve y_iteration_body : sy.

Lemma y_do_statement : sim (do_statement' V R') (do_statement V R).
Proof. intros; unfold do_statement', do_statement; sims. Qed.
#[local] Hint Resolve y_do_statement : sy.

Lemma y_while_statement : sim (while_statement' V R') (while_statement V R).
Proof. intros; unfold while_statement', while_statement; sims. Qed.
#[local] Hint Resolve y_while_statement : sy.

Lemma y_expression_opt_semi : sim (expression_opt_semi' V R') (expression_opt_semi V R).
Proof. intros; unfold expression_opt_semi', expression_opt_semi; sims. Qed.
#[local] Hint Resolve y_expression_opt_semi : sy.

Lemma y_more_for : forall (head1 head2 : option for_head), like head1 head2 -> sim (more_for' V R' head1) (more_for V R head2).
Proof. intros; unfold more_for', more_for; sims. Qed.
#[local] Hint Resolve y_more_for : sy.

Lemma y_more_for_in : forall (head1 head2 : for_in_head), like head1 head2 -> sim (more_for_in' V R' head1) (more_for_in V R head2).
Proof. intros; unfold more_for_in', more_for_in; sims. Qed.
#[local] Hint Resolve y_more_for_in : sy.

Lemma y_more_for_of : forall (head1 head2 : for_of_head), like head1 head2 -> sim (more_for_of' V R' head1) (more_for_of V R head2).
Proof. intros; unfold more_for_of', more_for_of; sims. Qed.
#[local] Hint Resolve y_more_for_of : sy.

Lemma y_more_for_head : forall (start1 start2 : loc) (d1 d2 : dtor) (op : loc -> list dtor -> for_head), like start1 start2 -> like d1 d2 -> (forall l1 l2 ds1 ds2, like l1 l2 -> like ds1 ds2 -> like (op l1 ds1) (op l2 ds2)) -> sim (more_for_head' V R' start1 d1 op) (more_for_head V R start2 d2 op).
Proof. intros; unfold more_for_head', more_for_head; sims. Qed.
#[local] Hint Resolve y_more_for_head : sy.

Lemma y_for_expr : sim (for_expr' V R') (for_expr V R).
Proof. intros; unfold for_expr', for_expr; sims. Qed.
#[local] Hint Resolve y_for_expr : sy.

Lemma y_for_var : sim (for_var' V R') (for_var V R).
Proof. intros; unfold for_var', for_var; sims. Qed.
#[local] Hint Resolve y_for_var : sy.

Lemma y_for_let : sim (for_let' V R') (for_let V R).
Proof. intros; unfold for_let', for_let; sims. Qed.
#[local] Hint Resolve y_for_let : sy.

Lemma y_for_const : sim (for_const' V R') (for_const V R).
Proof. intros; unfold for_const', for_const; sims. Qed.
#[local] Hint Resolve y_for_const : sy.

Lemma y_for_statement : sim (for_statement' V R') (for_statement V R).
Proof. intros; unfold for_statement', for_statement; sims. Qed.
#[local] Hint Resolve y_for_statement : sy.

Lemma y_case_ : sim (case_' V R') (case_ V R).
Proof. intros; unfold case_', case_; sims. Qed.
#[local] Hint Resolve y_case_ : sy.

Lemma y_default_ : sim (default_' V R') (default_ V R).
Proof. intros; unfold default_', default_; sims. Qed.
#[local] Hint Resolve y_default_ : sy.

Lemma y_switch_cases : sim (switch_cases' V R') (switch_cases V R).
Proof. intros; unfold switch_cases', switch_cases; sims. Qed.
#[local] Hint Resolve y_switch_cases : sy.

Lemma y_switch_statement : sim (switch_statement' V R') (switch_statement V R).
Proof. intros; unfold switch_statement', switch_statement; sims. Qed.
#[local] Hint Resolve y_switch_statement : sy.

Lemma y_break_statement : sim (break_statement' V) (break_statement V).
Proof. intros; unfold break_statement', break_statement; sims. Qed.
#[local] Hint Resolve y_break_statement : sy.

Lemma y_continue_statement : sim (continue_statement' V) (continue_statement V).
Proof. intros; unfold continue_statement', continue_statement; sims. Qed.
#[local] Hint Resolve y_continue_statement : sy.

Lemma y_return_statement : sim (return_statement' V R') (return_statement V R).
Proof. intros; unfold return_statement', return_statement; sims. Qed.
#[local] Hint Resolve y_return_statement : sy.

Lemma y_with_statement : sim (with_statement' V R') (with_statement V R).
Proof. intros; unfold with_statement', with_statement; sims. Qed.
#[local] Hint Resolve y_with_statement : sy.

Lemma y_throw_statement : sim (throw_statement' V R') (throw_statement V R).
Proof. intros; unfold throw_statement', throw_statement; sims. Qed.
#[local] Hint Resolve y_throw_statement : sy.

Lemma y_catch_opt : sim (catch_opt' V R') (catch_opt V R).
Proof. intros; unfold catch_opt', catch_opt; sims. Qed.
#[local] Hint Resolve y_catch_opt : sy.

Lemma y_finally_opt : sim (finally_opt' V R') (finally_opt V R).
Proof. intros; unfold finally_opt', finally_opt; sims. Qed.
#[local] Hint Resolve y_finally_opt : sy.

Lemma y_try_statement : sim (try_statement' V R') (try_statement V R).
Proof. intros; unfold try_statement', try_statement; sims. Qed.
#[local] Hint Resolve y_try_statement : sy.

Lemma y_debugger_statement : sim (debugger_statement' V) (debugger_statement V).
Proof. intros; unfold debugger_statement', debugger_statement; sims. Qed.
#[local] Hint Resolve y_debugger_statement : sy.

Lemma y_ident_item : forall (allow_decl : bool), sim (ident_item' V R' allow_decl) (ident_item V R allow_decl).
Proof. intros; unfold ident_item', ident_item; sims. Qed.
#[local] Hint Resolve y_ident_item : sy.

Lemma y_stmt_list_item : forall (allow_decl : bool), sim (stmt_list_item' V R' allow_decl) (stmt_list_item V R allow_decl).
Proof. intros; unfold stmt_list_item', stmt_list_item; sims. Qed.
#[local] Hint Resolve y_stmt_list_item : sy.

Lemma y_more_module_items : forall (items1 items2 : list mod_item), like items1 items2 -> sim (more_module_items' V R' items1) (more_module_items V R items2).
Proof. intros; unfold more_module_items', more_module_items; sims. Qed.
#[local] Hint Resolve y_more_module_items : sy.

Lemma y_module_items : sim (module_items' V R') (module_items V R).
Proof. intros; unfold module_items', module_items; sims. Qed.
#[local] Hint Resolve y_module_items : sy.

Lemma y_force_deferred_module_validation : sim (force_deferred_module_validation') (force_deferred_module_validation).
Proof. intros; unfold force_deferred_module_validation', force_deferred_module_validation; sims. Qed.
#[local] Hint Resolve y_force_deferred_module_validation : sy.

Lemma y_program_items_ : sim (program_items_' V R') (program_items_ V R).
Proof. intros; unfold program_items_', program_items_; sims. Qed.
#[local] Hint Resolve y_program_items_ : sy.

Lemma y_assert_goal_unknown : sim assert_goal_unknown' assert_goal_unknown.
Proof.
  unfold assert_goal_unknown', assert_goal_unknown.
  eapply sim_bind; [apply sim_gets; intros s1 s2 (_ & h & _); exact h|]. intros g1 g2 hg. prep hg. sims.
Qed.
#[local] Hint Resolve y_assert_goal_unknown : sy.


Lemma y_module_ : sim (module_' V R') (module_ V R).
Proof. intros; unfold module_', module_; sims. Qed.
#[local] Hint Resolve y_module_ : sy.

Lemma y_program_ : sim (program_' V R') (program_ V R).
Proof. intros; unfold program_', program_; sims. Qed.
#[local] Hint Resolve y_program_ : sy.

Lemma y_script_ : forall (strict : bool), sim (script_' V R' strict) (script_ V R strict).
Proof.
  intros b. unfold script_', script_. eapply sim_bind; [apply y_assert_goal_unknown|intros _ _ _].
  eapply sim_bind; [|intros _ _ _; sims].
  apply sim_modify; [reflexivity|reflexivity|]. intros s1 s2 (h1 & h2 & h3). split; [exact h1|]. split; [reflexivity|exact h3].
Qed.
#[local] Hint Resolve y_script_ : sy.

End Methods.

Section Runs.
Context (V : env) (HV : ucd_ok V) (src1 src2 : str).
Notation sim := (LayBase.sim V src1 src2).

(** The recursion, on any two amounts of fuel. *)
Lemma y_rec : forall n1 n2, sim (r_assign' (parse_rec' V n1)) (r_assign (parse_rec V n2))
  /\ (forall d, sim (r_item' (parse_rec' V n1) d) (r_item (parse_rec V n2) d)).
Proof.
  induction n1 as [|n1 IH]; intros n2.
  - split; [|intros d]; intros ops F k s1 L T; destruct T.
  - assert (G : forall n, sim (r_assign' (parse_rec' V (Datatypes.S n1))) (r_assign (parse_rec V (Datatypes.S n)))
      /\ (forall d, sim (r_item' (parse_rec' V (Datatypes.S n1)) d) (r_item (parse_rec V (Datatypes.S n)) d))).
    { intros n. destruct (IH n) as [ha hi]. cbn [parse_rec' parse_rec r_assign r_assign' r_item r_item'].
      split; [|intros d]; eauto using y_assignment_expression, y_stmt_list_item. }
    destruct n2 as [|n2]; [|apply G]. destruct (G n1) as [ha hi]. split; [|intros d].
    + exact (sim_nofuel _ _ _ _ _ ha).
    + exact (sim_nofuel _ _ _ _ _ (hi d)).
Qed.

(** From the state of a fresh parser. *)
Lemma sim_run {A} {B : Blank A} (m1 : C A) (m2 : P A) : sim m1 m2 ->
  told (snd (crun m1 (parser_new src1))) ->
  exists ts1 k1, tiles V src1 (flags (fst (m1 (parser_new src1)))) true 0 ts1 k1
    /\ forall ts2 k2, tiles V src2 (flags (fst (m1 (parser_new src1)))) true 0 ts2 k2 ->
         map unplaced ts1 = map unplaced ts2 ->
         run m2 (parser_new src2) = NoFuel
         \/ result_blank blank (run m2 (parser_new src2)) = result_blank blank (snd (crun m1 (parser_new src1))).
Proof.
  intros h T.
  assert (L : forall src, read_to V src [] [] 0 (p_lexer (parser_new src))).
  { intros src. split; [constructor|]. split; [apply rd_at_new|reflexivity]. }
  unfold crun in T |- *. specialize (h [] [] 0 (parser_new src1) (L src1)). cbn [app] in h.
  destruct (m1 (parser_new src1)) as [c r] eqn:E. cbn [fst snd] in *.
  assert (T' : told r) by (destruct r as [[a s]| | |]; exact T).
  destruct (h T') as [(F & k & W & _) H]. exists F, k. split; [exact W|]. intros ts2 k2 T2 EQ.
  destruct (H (flags c) F k ts2 k2 (parser_new src2) W T2 EQ) as [N|Q].
  - exists []. rewrite app_nil_r. reflexivity.
  - split; [exists 0; exact (L src2)|]. split; [reflexivity|]. split; [reflexivity|]. split; reflexivity.
  - left. unfold run. rewrite N. reflexivity.
  - right. unfold run. destruct r as [[a s]|e|p|]; cbn [rrel] in Q.
    + destruct Q as (a2 & s2 & -> & la & _). cbn. f_equal. symmetry. exact la.
    + destruct Q as (e2 & -> & le). cbn. f_equal. symmetry. exact le.
    + rewrite Q. reflexivity.
    + destruct T'.
Qed.
End Runs.
