(** Forgetting the record of Cost.v gives the parser of Parser.v back. *)
From Coq Require Import String Ascii List NArith Bool.
From Verif Require Import Base Chars Word Token Reader Lexer Punc Ast Track Cover Stack PState Parser Api Cost.
Import ListNotations.
Local Open Scope nat_scope.

Definition erases {A} (m' : C A) (m : P A) : Prop := forall s, snd (m' s) = m s.

Lemma er_bind {A B} (m' : C A) m (k' : A -> C B) k :
  erases m' m -> (forall a, erases (k' a) (k a)) -> erases (cbind m' k') (bind m k).
Proof.
  intros h1 h2 s. unfold cbind, bind. rewrite <- (h1 s). destruct (m' s) as [c [[a s1]|e|p|]]; cbn [snd]; try reflexivity.
  rewrite <- (h2 a s1). destruct (k' a s1). reflexivity.
Qed.
Lemma er_ret {A} (a : A) : erases (cret a) (ret a). Proof. intros s. reflexivity. Qed.
Lemma er_err {A} e : erases (@cerr A e) (err e). Proof. intros s. reflexivity. Qed.
Lemma er_panic {A} k : erases (@cpanic A k) (panic_at k). Proof. intros s. reflexivity. Qed.
Lemma er_nofuel {A} : erases (@cnofuel A) nofuel. Proof. intros s. reflexivity. Qed.
Lemma er_gets {A} (f : pst -> A) : erases (cgets f) (gets f). Proof. intros s. reflexivity. Qed.
Lemma er_modify f : erases (cmodify f) (modify f). Proof. intros s. reflexivity. Qed.
Lemma er_lex {A} o (m : XM A) : erases (lex' o m) (lex m). Proof. intros s. reflexivity. Qed.
Lemma er_loop {A B} (b' : A -> C (A + B)) b : (forall a, erases (b' a) (b a)) ->
  forall n a, erases (cloop n b' a) (loopM n b a).
Proof.
  intros hb. induction n as [|n IH]; intros a; cbn [cloop loopM]; [apply er_nofuel|].
  apply er_bind; [apply hb|]. intros [a'|r]; [apply IH|apply er_ret].
Qed.

Create HintDb er.
#[global] Hint Resolve er_ret er_err er_panic er_nofuel er_gets er_modify er_lex : er.

Ltac ers :=
  repeat first
    [ solve [auto with er]
    | match goal with |- erases (cbind _ _) (bind _ _) => apply er_bind; [|intros ?] end
    | apply er_loop; intros ?
    | match goal with |- erases (let '(_, _) := ?x in _) _ => destruct x end
    | match goal with |- erases (match ?x with _ => _ end) _ => destruct x end
    | match goal with |- erases (let x := ?y in _) _ => cbv zeta end ].
Ltac er f' f := intros; unfold f', f; ers.


Section Methods.
Context (V : env).

Lemma er_get_context : erases (get_context') (get_context).
Proof. er @get_context' @get_context. Qed.
#[local] Hint Resolve er_get_context : er.

Lemma er_modify_context : forall (f : context -> context), erases (modify_context' f) (modify_context f).
Proof. er @modify_context' @modify_context. Qed.
#[local] Hint Resolve er_modify_context : er.

Lemma er_p_skip : erases (p_skip' V) (p_skip V).
Proof. er @p_skip' @p_skip. Qed.
#[local] Hint Resolve er_p_skip : er.

Lemma er_p_read : erases (p_read' V) (p_read V).
Proof. er @p_read' @p_read. Qed.
#[local] Hint Resolve er_p_read : er.

Lemma er_p_read_op : erases (p_read_op' V) (p_read_op V).
Proof. er @p_read_op' @p_read_op. Qed.
#[local] Hint Resolve er_p_read_op : er.

Lemma er_p_peek : erases (p_peek' V) (p_peek V).
Proof. er @p_peek' @p_peek. Qed.
#[local] Hint Resolve er_p_peek : er.

Lemma er_p_peek_op : erases (p_peek_op' V) (p_peek_op V).
Proof. er @p_peek_op' @p_peek_op. Qed.
#[local] Hint Resolve er_p_peek_op : er.

Lemma er_p_unread : forall (t : token), erases (p_unread' t) (p_unread t).
Proof. er @p_unread' @p_unread. Qed.
#[local] Hint Resolve er_p_unread : er.

Lemma er_p_reread_token : erases (p_reread_token') (p_reread_token).
Proof. er @p_reread_token' @p_reread_token. Qed.
#[local] Hint Resolve er_p_reread_token : er.

Lemma er_p_expect : forall (expected : token_data), erases (p_expect' V expected) (p_expect V expected).
Proof. er @p_expect' @p_expect. Qed.
#[local] Hint Resolve er_p_expect : er.

Lemma er_p_matches_token : forall (expected : token_data), erases (p_matches_token' V expected) (p_matches_token V expected).
Proof. er @p_matches_token' @p_matches_token. Qed.
#[local] Hint Resolve er_p_matches_token : er.

Lemma er_p_matches : forall (expected : token_data), erases (p_matches' V expected) (p_matches V expected).
Proof. er @p_matches' @p_matches. Qed.
#[local] Hint Resolve er_p_matches : er.

Lemma er_p_matches_op : forall (expected : token_data), erases (p_matches_op' V expected) (p_matches_op V expected).
Proof. er @p_matches_op' @p_matches_op. Qed.
#[local] Hint Resolve er_p_matches_op : er.

Lemma er_p_reread : forall (expected : token_data), erases (p_reread' expected) (p_reread expected).
Proof. er @p_reread' @p_reread. Qed.
#[local] Hint Resolve er_p_reread : er.

Lemma er_p_has_arg_same_line : erases (p_has_arg_same_line' V) (p_has_arg_same_line V).
Proof. er @p_has_arg_same_line' @p_has_arg_same_line. Qed.
#[local] Hint Resolve er_p_has_arg_same_line : er.

Lemma er_p_posn : erases (p_posn') (p_posn).
Proof. er @p_posn' @p_posn. Qed.
#[local] Hint Resolve er_p_posn : er.

Lemma er_p_vec_span : forall (ls : list loc), erases (p_vec_span' ls) (p_vec_span ls).
Proof. er @p_vec_span' @p_vec_span. Qed.
#[local] Hint Resolve er_p_vec_span : er.

Lemma er_p_span : forall {A : Type} (set : A -> loc -> A) (parse' : C A) (parse : P A), erases parse' parse -> erases (p_span' set parse') (p_span set parse).
Proof. er @p_span' @p_span. Qed.
#[local] Hint Resolve er_p_span : er.

Lemma er_end_with_auto_semi : forall {A : Type} (set : A -> loc -> A) (start : posn) (nl : newline) (cons : semi -> A), erases (end_with_auto_semi' V set start nl cons) (end_with_auto_semi V set start nl cons).
Proof. er @end_with_auto_semi' @end_with_auto_semi. Qed.
#[local] Hint Resolve er_end_with_auto_semi : er.

Lemma er_p_allow_in : forall {A : Type} (b : bool) (parse' : C A) (parse : P A), erases parse' parse -> erases (p_allow_in' b parse') (p_allow_in b parse).
Proof. er @p_allow_in' @p_allow_in. Qed.
#[local] Hint Resolve er_p_allow_in : er.

Lemma er_with_labels : forall (ls : list id) (t : label_type) (op' : C stmt) (op : P stmt), erases op' op -> erases (with_labels' ls t op') (with_labels ls t op).
Proof. er @with_labels' @with_labels. Qed.
#[local] Hint Resolve er_with_labels : er.

Lemma er_take_deferred : erases (take_deferred') (take_deferred).
Proof. er @take_deferred' @take_deferred. Qed.
#[local] Hint Resolve er_take_deferred : er.

Lemma er_unexpected : forall {A : Type}, erases (@unexpected' A) (@unexpected A).
Proof. er @unexpected' @unexpected. Qed.
#[local] Hint Resolve er_unexpected : er.

Lemma er_set_module : erases (set_module') (set_module).
Proof. er @set_module' @set_module. Qed.
#[local] Hint Resolve er_set_module : er.

Lemma er_strict_check : forall (f' : C (option check)) (f : P (option check)), erases f' f -> erases (strict_check' f') (strict_check f).
Proof. er @strict_check' @strict_check. Qed.
#[local] Hint Resolve er_strict_check : er.

Lemma er_id_check : forall (binding : bool) (n : name) (location : span), erases (id_check' binding n location) (id_check binding n location).
Proof. er @id_check' @id_check. Qed.
#[local] Hint Resolve er_id_check : er.

Lemma er_new_id : forall (binding : bool) (n : name) (location : span), erases (new_id' binding n location) (new_id binding n location).
Proof. er @new_id' @new_id. Qed.
#[local] Hint Resolve er_new_id : er.

Lemma er_new_id_from_token : forall (binding : bool) (t : token), erases (new_id_from_token' binding t) (new_id_from_token binding t).
Proof. er @new_id_from_token' @new_id_from_token. Qed.
#[local] Hint Resolve er_new_id_from_token : er.

Context (R' : recs') (R : recs).
Context (HA : erases (r_assign' R') (r_assign R)) (HI : forall d, erases (r_item' R' d) (r_item R d))
  (HF : r_fuel' R' = r_fuel R).
Hint Resolve HA HI : er.
Ltac ers ::=
  repeat first
    [ solve [auto with er]
    | match goal with |- erases (cbind _ _) (bind _ _) => apply er_bind; [|intros ?] end
    | apply er_p_span | apply er_p_allow_in | apply er_with_labels | apply er_strict_check
    | apply er_loop; intros ?
    | match goal with |- erases (let '(_, _) := ?x in _) _ => destruct x end
    | match goal with |- erases (match ?x with _ => _ end) _ => destruct x end
    | match goal with |- erases (let x := ?y in _) _ => cbv zeta end ].

Lemma er_more_comma : forall {A : Type} (first : A) (f' : C A) (f : P A), erases f' f -> erases (more_comma' V R' first f') (more_comma V R first f).
Proof. intros; unfold more_comma', more_comma; rewrite HF; ers. Qed.
#[local] Hint Resolve er_more_comma : er.

Lemma er_comma_separated : forall {A : Type} (f' : C A) (f : P A), erases f' f -> erases (comma_separated' V R' f') (comma_separated V R f).
Proof. er @comma_separated' @comma_separated. Qed.
#[local] Hint Resolve er_comma_separated : er.

Lemma er_p_id : forall (binding : bool), erases (p_id' V binding) (p_id V binding).
Proof. er @p_id' @p_id. Qed.
#[local] Hint Resolve er_p_id : er.

Lemma er_p_id_opt : forall (binding : bool), erases (p_id_opt' V binding) (p_id_opt V binding).
Proof. er @p_id_opt' @p_id_opt. Qed.
#[local] Hint Resolve er_p_id_opt : er.

Lemma er_binding_pattern : erases (binding_pattern' V) (binding_pattern V).
Proof. er @binding_pattern' @binding_pattern. Qed.
#[local] Hint Resolve er_binding_pattern : er.

Lemma er_pattern_ : erases (pattern_' V) (pattern_ V).
Proof. er @pattern_' @pattern_. Qed.
#[local] Hint Resolve er_pattern_ : er.

Lemma er_more_expressions : forall (first : expr), erases (more_expressions' V R' first) (more_expressions V R first).
Proof. er @more_expressions' @more_expressions. Qed.
#[local] Hint Resolve er_more_expressions : er.

Lemma er_expression : erases (expression' V R') (expression V R).
Proof. er @expression' @expression. Qed.
#[local] Hint Resolve er_expression : er.

Lemma er_paren_expression : erases (paren_expression' V R') (paren_expression V R).
Proof. er @paren_expression' @paren_expression. Qed.
#[local] Hint Resolve er_paren_expression : er.

Lemma er_formal_parameters : erases (formal_parameters' V R') (formal_parameters V R).
Proof. intros; unfold formal_parameters', formal_parameters; rewrite HF; ers. Qed.
#[local] Hint Resolve er_formal_parameters : er.

Lemma er_match_directive_opt : erases (match_directive_opt' V) (match_directive_opt V).
Proof. er @match_directive_opt' @match_directive_opt. Qed.
#[local] Hint Resolve er_match_directive_opt : er.

Lemma er_apply_pragma : forall (d : dir), erases (apply_pragma' d) (apply_pragma d).
Proof. er @apply_pragma' @apply_pragma. Qed.
#[local] Hint Resolve er_apply_pragma : er.

Lemma er_body_directives : erases (body_directives' V R') (body_directives V R).
Proof. intros; unfold body_directives', body_directives; rewrite HF; ers. Qed.
#[local] Hint Resolve er_body_directives : er.

Lemma er_statement_list : erases (statement_list' V R') (statement_list V R).
Proof. intros; unfold statement_list', statement_list; rewrite HF; ers. Qed.
#[local] Hint Resolve er_statement_list : er.

Lemma er_script_body : erases (script_body' V R') (script_body V R).
Proof. er @script_body' @script_body. Qed.
#[local] Hint Resolve er_script_body : er.

Lemma er_body_check : forall (b : script) (ps : list (patt id)), erases (body_check' b ps) (body_check b ps).
Proof. er @body_check' @body_check. Qed.
#[local] Hint Resolve er_body_check : er.

Lemma er_function_body : forall (ps : list (patt id)), erases (function_body' V R' ps) (function_body V R ps).
Proof. er @function_body' @function_body. Qed.
#[local] Hint Resolve er_function_body : er.

Lemma er_function_ : forall {I : Type} (get_id' : C I) (get_id : P I), erases get_id' get_id -> erases (function_' V R' get_id') (function_ V R get_id).
Proof. er @function_' @function_. Qed.
#[local] Hint Resolve er_function_ : er.

Lemma er_function_declaration : erases (function_declaration' V R') (function_declaration V R).
Proof. er @function_declaration' @function_declaration. Qed.
#[local] Hint Resolve er_function_declaration : er.

Lemma er_expr_list_item : erases (expr_list_item' V R') (expr_list_item V R).
Proof. er @expr_list_item' @expr_list_item. Qed.
#[local] Hint Resolve er_expr_list_item : er.

Lemma er_array_element : erases (array_element' V R') (array_element V R).
Proof. er @array_element' @array_element. Qed.
#[local] Hint Resolve er_array_element : er.

Lemma er_array_literal : forall (start : token), erases (array_literal' V R' start) (array_literal V R start).
Proof. intros; unfold array_literal', array_literal; rewrite HF; ers. Qed.
#[local] Hint Resolve er_array_literal : er.

Lemma er_more_prop_init : forall (key : prop_key), erases (more_prop_init' V R' key) (more_prop_init V R key).
Proof. er @more_prop_init' @more_prop_init. Qed.
#[local] Hint Resolve er_more_prop_init : er.

Lemma er_property_key_opt : erases (property_key_opt' V) (property_key_opt V).
Proof. er @property_key_opt' @property_key_opt. Qed.
#[local] Hint Resolve er_property_key_opt : er.

Lemma er_property_key : erases (property_key' V) (property_key V).
Proof. er @property_key' @property_key. Qed.
#[local] Hint Resolve er_property_key : er.

Lemma er_object_property : erases (object_property' V R') (object_property V R).
Proof. er @object_property' @object_property. Qed.
#[local] Hint Resolve er_object_property : er.

Lemma er_object_literal : forall (start : token), erases (object_literal' V R' start) (object_literal V R start).
Proof. intros; unfold object_literal', object_literal; rewrite HF; ers. Qed.
#[local] Hint Resolve er_object_literal : er.

Lemma er_primary_expression : erases (primary_expression' V R') (primary_expression V R).
Proof. er @primary_expression' @primary_expression. Qed.
#[local] Hint Resolve er_primary_expression : er.

Lemma er_member_base_expression : erases (member_base_expression' V R') (member_base_expression V R).
Proof. er @member_base_expression' @member_base_expression. Qed.
#[local] Hint Resolve er_member_base_expression : er.

Lemma er_arguments_ : erases (arguments_' V R') (arguments_ V R).
Proof. intros; unfold arguments_', arguments_; rewrite HF; ers. Qed.
#[local] Hint Resolve er_arguments_ : er.

Lemma er_deref_brack : erases (deref_brack' V R') (deref_brack V R).
Proof. er @deref_brack' @deref_brack. Qed.
#[local] Hint Resolve er_deref_brack : er.

Lemma er_id_name_ : erases (id_name_' V) (id_name_ V).
Proof. er @id_name_' @id_name_. Qed.
#[local] Hint Resolve er_id_name_ : er.

Lemma er_deref_dot : erases (deref_dot' V) (deref_dot V).
Proof. er @deref_dot' @deref_dot. Qed.
#[local] Hint Resolve er_deref_dot : er.

Lemma er_deref_opt : erases (deref_opt' V R') (deref_opt V R).
Proof. er @deref_opt' @deref_opt. Qed.
#[local] Hint Resolve er_deref_opt : er.

Lemma er_suffix_opt : erases (suffix_opt' V R') (suffix_opt V R).
Proof. er @suffix_opt' @suffix_opt. Qed.
#[local] Hint Resolve er_suffix_opt : er.

Lemma er_more_suffixes : forall (result : expr), erases (more_suffixes' V R' result) (more_suffixes V R result).
Proof. intros; unfold more_suffixes', more_suffixes; rewrite HF; ers. Qed.
#[local] Hint Resolve er_more_suffixes : er.

Lemma er_apply_news : forall (has_args : bool) (news : list token) (base : expr), erases (apply_news' V R' has_args news base) (apply_news V R has_args news base).
Proof.
  intros b news; revert b; induction news as [|n news IH]; intros; cbn [apply_news' apply_news]; ers.
Qed.
#[local] Hint Resolve er_apply_news : er.

Lemma er_more_new_expression : forall (news : list token) (base : expr), erases (more_new_expression' V R' news base) (more_new_expression V R news base).
Proof. intros; unfold more_new_expression', more_new_expression; rewrite HF; ers. Qed.
#[local] Hint Resolve er_more_new_expression : er.

Lemma er_new_expression : forall (news : list token), erases (new_expression' V R' news) (new_expression V R news).
Proof. er @new_expression' @new_expression. Qed.
#[local] Hint Resolve er_new_expression : er.

Lemma er_call_expression : erases (call_expression' V R') (call_expression V R).
Proof. er @call_expression' @call_expression. Qed.
#[local] Hint Resolve er_call_expression : er.

Lemma er_read_news : erases (read_news' V R') (read_news V R).
Proof. intros; unfold read_news', read_news; rewrite HF; ers. Qed.
#[local] Hint Resolve er_read_news : er.

Lemma er_lhs_expression : erases (lhs_expression' V R') (lhs_expression V R).
Proof. er @lhs_expression' @lhs_expression. Qed.
#[local] Hint Resolve er_lhs_expression : er.

Lemma er_match_unop : erases (match_unop' V) (match_unop V).
Proof. er @match_unop' @match_unop. Qed.
#[local] Hint Resolve er_match_unop : er.

Lemma er_match_prefix : erases (match_prefix' V) (match_prefix V).
Proof. er @match_prefix' @match_prefix. Qed.
#[local] Hint Resolve er_match_prefix : er.

Lemma er_match_postfix_operator_opt : erases (match_postfix_operator_opt' V) (match_postfix_operator_opt V).
Proof. er @match_postfix_operator_opt' @match_postfix_operator_opt. Qed.
#[local] Hint Resolve er_match_postfix_operator_opt : er.

Lemma er_to_target : forall (e : expr), erases (to_target' e) (to_target e).
Proof. er @to_target' @to_target. Qed.
#[local] Hint Resolve er_to_target : er.

Lemma er_to_patt : forall (e : expr), erases (to_patt' e) (to_patt e).
Proof. er @to_patt' @to_patt. Qed.
#[local] Hint Resolve er_to_patt : er.

Lemma er_apply_postfix : forall (p : postfix) (arg : expr), erases (apply_postfix' p arg) (apply_postfix p arg).
Proof. er @apply_postfix' @apply_postfix. Qed.
#[local] Hint Resolve er_apply_postfix : er.

Lemma er_apply_prefixes : forall (ps : list prefix) (arg : expr), erases (apply_prefixes' ps arg) (apply_prefixes ps arg).
Proof.
  intros news; induction news as [|n news IH]; intros; cbn [apply_prefixes' apply_prefixes]; ers.
Qed.
#[local] Hint Resolve er_apply_prefixes : er.

Lemma er_read_prefixes : erases (read_prefixes' V R') (read_prefixes V R).
Proof. intros; unfold read_prefixes', read_prefixes; rewrite HF; ers. Qed.
#[local] Hint Resolve er_read_prefixes : er.

Lemma er_unary_expression : erases (unary_expression' V R') (unary_expression V R).
Proof. er @unary_expression' @unary_expression. Qed.
#[local] Hint Resolve er_unary_expression : er.

Lemma er_match_infix : erases (match_infix' V) (match_infix V).
Proof. er @match_infix' @match_infix. Qed.
#[local] Hint Resolve er_match_infix : er.

Lemma er_more_infix_expressions : forall (left : expr), erases (more_infix_expressions' V R' left) (more_infix_expressions V R left).
Proof. intros; unfold more_infix_expressions', more_infix_expressions; rewrite HF; ers. Qed.
#[local] Hint Resolve er_more_infix_expressions : er.

Lemma er_more_conditional : forall (left : expr), erases (more_conditional' V R' left) (more_conditional V R left).
Proof. er @more_conditional' @more_conditional. Qed.
#[local] Hint Resolve er_more_conditional : er.

Lemma er_conditional_expression : erases (conditional_expression' V R') (conditional_expression V R).
Proof. er @conditional_expression' @conditional_expression. Qed.
#[local] Hint Resolve er_conditional_expression : er.

Lemma er_more_assignment : forall (left : expr), erases (more_assignment' V R' left) (more_assignment V R left).
Proof. er @more_assignment' @more_assignment. Qed.
#[local] Hint Resolve er_more_assignment : er.

Lemma er_assignment_expression : erases (assignment_expression' V R') (assignment_expression V R).
Proof. er @assignment_expression' @assignment_expression. Qed.
#[local] Hint Resolve er_assignment_expression : er.

Lemma er_statement : erases (statement' R') (statement R).
Proof. er @statement' @statement. Qed.
#[local] Hint Resolve er_statement : er.

Lemma er_more_labels : forall (first : id), erases (more_labels' V R' first) (more_labels V R first).
Proof. intros; unfold more_labels', more_labels; rewrite HF; ers. Qed.
#[local] Hint Resolve er_more_labels : er.

Lemma er_labelled_statement : forall (i : id), erases (labelled_statement' V R' i) (labelled_statement V R i).
Proof. er @labelled_statement' @labelled_statement. Qed.
#[local] Hint Resolve er_labelled_statement : er.

Lemma er_expression_statement : erases (expression_statement' V R') (expression_statement V R).
Proof. er @expression_statement' @expression_statement. Qed.
#[local] Hint Resolve er_expression_statement : er.

Lemma er_block_ : erases (block_' V R') (block_ V R).
Proof. er @block_' @block_. Qed.
#[local] Hint Resolve er_block_ : er.

Lemma er_declarator : erases (declarator' V R') (declarator V R).
Proof. er @declarator' @declarator. Qed.
#[local] Hint Resolve er_declarator : er.

Lemma er_const_declarator : erases (const_declarator' V R') (const_declarator V R).
Proof. er @const_declarator' @const_declarator. Qed.
#[local] Hint Resolve er_const_declarator : er.

Lemma er_var_statement : erases (var_statement' V R') (var_statement V R).
Proof. er @var_statement' @var_statement. Qed.
#[local] Hint Resolve er_var_statement : er.

Lemma er_let_declaration : forall (start : posn), erases (let_declaration' V R' start) (let_declaration V R start).
Proof. er @let_declaration' @let_declaration. Qed.
#[local] Hint Resolve er_let_declaration : er.

Lemma er_const_declaration : erases (const_declaration' V R') (const_declaration V R).
Proof. er @const_declaration' @const_declaration. Qed.
#[local] Hint Resolve er_const_declaration : er.

Lemma er_empty_statement : erases (empty_statement' V) (empty_statement V).
Proof. er @empty_statement' @empty_statement. Qed.
#[local] Hint Resolve er_empty_statement : er.

Lemma er_if_statement : erases (if_statement' V R') (if_statement V R).
Proof. er @if_statement' @if_statement. Qed.
#[local] Hint Resolve er_if_statement : er.

Lemma er_iteration_body : erases (iteration_body' R') (iteration_body R).
Proof. er @iteration_body' @iteration_body. Qed.
#[local] Hint Resolve er_iteration_body : er.

Lemma er_do_statement : erases (do_statement' V R') (do_statement V R).
Proof. er @do_statement' @do_statement. Qed.
#[local] Hint Resolve er_do_statement : er.

Lemma er_while_statement : erases (while_statement' V R') (while_statement V R).
Proof. er @while_statement' @while_statement. Qed.
#[local] Hint Resolve er_while_statement : er.

Lemma er_expression_opt_semi : erases (expression_opt_semi' V R') (expression_opt_semi V R).
Proof. er @expression_opt_semi' @expression_opt_semi. Qed.
#[local] Hint Resolve er_expression_opt_semi : er.

Lemma er_more_for : forall (head : option for_head), erases (more_for' V R' head) (more_for V R head).
Proof. er @more_for' @more_for. Qed.
#[local] Hint Resolve er_more_for : er.

Lemma er_more_for_in : forall (head : for_in_head), erases (more_for_in' V R' head) (more_for_in V R head).
Proof. er @more_for_in' @more_for_in. Qed.
#[local] Hint Resolve er_more_for_in : er.

Lemma er_more_for_of : forall (head : for_of_head), erases (more_for_of' V R' head) (more_for_of V R head).
Proof. er @more_for_of' @more_for_of. Qed.
#[local] Hint Resolve er_more_for_of : er.

Lemma er_more_for_head : forall (start : loc) (d : dtor) (op : loc -> list dtor -> for_head), erases (more_for_head' V R' start d op) (more_for_head V R start d op).
Proof. er @more_for_head' @more_for_head. Qed.
#[local] Hint Resolve er_more_for_head : er.

Lemma er_for_expr : erases (for_expr' V R') (for_expr V R).
Proof. er @for_expr' @for_expr. Qed.
#[local] Hint Resolve er_for_expr : er.

Lemma er_for_var : erases (for_var' V R') (for_var V R).
Proof. er @for_var' @for_var. Qed.
#[local] Hint Resolve er_for_var : er.

Lemma er_for_let : erases (for_let' V R') (for_let V R).
Proof. er @for_let' @for_let. Qed.
#[local] Hint Resolve er_for_let : er.

Lemma er_for_const : erases (for_const' V R') (for_const V R).
Proof. er @for_const' @for_const. Qed.
#[local] Hint Resolve er_for_const : er.

Lemma er_for_statement : erases (for_statement' V R') (for_statement V R).
Proof. er @for_statement' @for_statement. Qed.
#[local] Hint Resolve er_for_statement : er.

Lemma er_case_ : erases (case_' V R') (case_ V R).
Proof. er @case_' @case_. Qed.
#[local] Hint Resolve er_case_ : er.

Lemma er_default_ : erases (default_' V R') (default_ V R).
Proof. er @default_' @default_. Qed.
#[local] Hint Resolve er_default_ : er.

Lemma er_switch_cases : erases (switch_cases' V R') (switch_cases V R).
Proof. intros; unfold switch_cases', switch_cases; rewrite HF; ers. Qed.
#[local] Hint Resolve er_switch_cases : er.

Lemma er_switch_statement : erases (switch_statement' V R') (switch_statement V R).
Proof. er @switch_statement' @switch_statement. Qed.
#[local] Hint Resolve er_switch_statement : er.

Lemma er_break_statement : erases (break_statement' V) (break_statement V).
Proof. er @break_statement' @break_statement. Qed.
#[local] Hint Resolve er_break_statement : er.

Lemma er_continue_statement : erases (continue_statement' V) (continue_statement V).
Proof. er @continue_statement' @continue_statement. Qed.
#[local] Hint Resolve er_continue_statement : er.

Lemma er_return_statement : erases (return_statement' V R') (return_statement V R).
Proof. er @return_statement' @return_statement. Qed.
#[local] Hint Resolve er_return_statement : er.

Lemma er_with_statement : erases (with_statement' V R') (with_statement V R).
Proof. er @with_statement' @with_statement. Qed.
#[local] Hint Resolve er_with_statement : er.

Lemma er_throw_statement : erases (throw_statement' V R') (throw_statement V R).
Proof. er @throw_statement' @throw_statement. Qed.
#[local] Hint Resolve er_throw_statement : er.

Lemma er_catch_opt : erases (catch_opt' V R') (catch_opt V R).
Proof. er @catch_opt' @catch_opt. Qed.
#[local] Hint Resolve er_catch_opt : er.

Lemma er_finally_opt : erases (finally_opt' V R') (finally_opt V R).
Proof. er @finally_opt' @finally_opt. Qed.
#[local] Hint Resolve er_finally_opt : er.

Lemma er_try_statement : erases (try_statement' V R') (try_statement V R).
Proof. er @try_statement' @try_statement. Qed.
#[local] Hint Resolve er_try_statement : er.

Lemma er_debugger_statement : erases (debugger_statement' V) (debugger_statement V).
Proof. er @debugger_statement' @debugger_statement. Qed.
#[local] Hint Resolve er_debugger_statement : er.

Lemma er_ident_item : forall (allow_decl : bool), erases (ident_item' V R' allow_decl) (ident_item V R allow_decl).
Proof. er @ident_item' @ident_item. Qed.
#[local] Hint Resolve er_ident_item : er.

Lemma er_stmt_list_item : forall (allow_decl : bool), erases (stmt_list_item' V R' allow_decl) (stmt_list_item V R allow_decl).
Proof. er @stmt_list_item' @stmt_list_item. Qed.
#[local] Hint Resolve er_stmt_list_item : er.

Lemma er_more_module_items : forall (items : list mod_item), erases (more_module_items' V R' items) (more_module_items V R items).
Proof. intros; unfold more_module_items', more_module_items; rewrite HF; ers. Qed.
#[local] Hint Resolve er_more_module_items : er.

Lemma er_module_items : erases (module_items' V R') (module_items V R).
Proof. er @module_items' @module_items. Qed.
#[local] Hint Resolve er_module_items : er.

Lemma er_force_deferred_module_validation : erases (force_deferred_module_validation') (force_deferred_module_validation).
Proof. er @force_deferred_module_validation' @force_deferred_module_validation. Qed.
#[local] Hint Resolve er_force_deferred_module_validation : er.

Lemma er_program_items_ : erases (program_items_' V R') (program_items_ V R).
Proof. intros; unfold program_items_', program_items_; rewrite HF; ers. Qed.
#[local] Hint Resolve er_program_items_ : er.

Lemma er_assert_goal_unknown : erases (assert_goal_unknown') (assert_goal_unknown).
Proof. er @assert_goal_unknown' @assert_goal_unknown. Qed.
#[local] Hint Resolve er_assert_goal_unknown : er.

Lemma er_module_ : erases (module_' V R') (module_ V R).
Proof. er @module_' @module_. Qed.
#[local] Hint Resolve er_module_ : er.

Lemma er_program_ : erases (program_' V R') (program_ V R).
Proof. er @program_' @program_. Qed.
#[local] Hint Resolve er_program_ : er.

Lemma er_script_ : forall (strict : bool), erases (script_' V R' strict) (script_ V R strict).
Proof. er @script_' @script_. Qed.
#[local] Hint Resolve er_script_ : er.

End Methods.

Lemma er_rec V n : erases (r_assign' (parse_rec' V n)) (r_assign (parse_rec V n))
  /\ (forall d, erases (r_item' (parse_rec' V n) d) (r_item (parse_rec V n) d))
  /\ r_fuel' (parse_rec' V n) = r_fuel (parse_rec V n).
Proof.
  induction n as [|n (IA & II & IF)]; cbn [parse_rec' parse_rec r_assign' r_assign r_item' r_item r_fuel' r_fuel].
  - split; [apply er_nofuel|]. split; [intros; apply er_nofuel|reflexivity].
  - split; [apply er_assignment_expression; assumption|].
    split; [intros; apply er_stmt_list_item; assumption|reflexivity].
Qed.

Lemma er_run {A} (m' : C A) m s : erases m' m -> snd (crun m' s) = run m s.
Proof.
  intros h. unfold crun, run. rewrite <- (h s). destruct (m' s) as [n [[a s']|e|k|]]; reflexivity.
Qed.

Lemma er_script_of V src : snd (script_of' V src) = script_of V src.
Proof.
  destruct (er_rec V (fuel_for src)) as (h1 & h2 & h3). apply er_run. apply er_script_; assumption.
Qed.
Lemma er_strict_of V src : snd (strict_of' V src) = strict_of V src.
Proof.
  destruct (er_rec V (fuel_for src)) as (h1 & h2 & h3). apply er_run. apply er_script_; assumption.
Qed.
Lemma er_module_of V src : snd (module_of' V src) = module_of V src.
Proof.
  destruct (er_rec V (fuel_for src)) as (h1 & h2 & h3). apply er_run. apply er_module_; assumption.
Qed.
Lemma er_program_of V src : snd (program_of' V src) = program_of V src.
Proof.
  destruct (er_rec V (fuel_for src)) as (h1 & h2 & h3). apply er_run. apply er_program_; assumption.
Qed.
