(** Every method of the parser leaves the flags of the context as it found them, in
    whatever state it is called. *)
From Coq Require Import String Ascii List NArith Bool.
From Verif Require Import Base Chars Word Token Reader Lexer Punc Ast Track Cover Stack PState Parser.
Import ListNotations.
Local Open Scope nat_scope.

(** The flags of the context: everything but the labels. *)
Definition flags (s : pst) : tri * bool * bool * bool * bool :=
  let c := p_context s in (cx_strict c, cx_function c, cx_iteration c, cx_switch c, cx_allow_in c).

Definition keeps {A} (m : P A) : Prop := forall s a s', m s = Ok (a, s') -> flags s' = flags s.

Lemma bind_ok {A B} (m : P A) (k : A -> P B) s b s' : bind m k s = Ok (b, s') ->
  exists a s1, m s = Ok (a, s1) /\ k a s1 = Ok (b, s').
Proof. unfold bind. destruct (m s) as [[a s1]|e|p|]; try discriminate. eauto. Qed.

Lemma keeps_bind {A B} (m : P A) (k : A -> P B) : keeps m -> (forall a, keeps (k a)) -> keeps (bind m k).
Proof.
  intros h1 h2 s b s' h. apply bind_ok in h as (a & s1 & e1 & e2).
  rewrite (h2 _ _ _ _ e2). exact (h1 _ _ _ e1).
Qed.
Lemma keeps_ret {A} (a : A) : keeps (ret a).
Proof. intros s b s' h. injection h as _ <-. reflexivity. Qed.
Lemma keeps_err {A} e : keeps (@err _ _ A e).
Proof. discriminate. Qed.
Lemma keeps_panic {A} k : keeps (@panic_at _ _ A k).
Proof. discriminate. Qed.
Lemma keeps_nofuel {A} : keeps (@nofuel _ _ A).
Proof. discriminate. Qed.
Lemma keeps_lex {A} (m : XM A) : keeps (lex m).
Proof.
  intros s a s'. unfold lex. destruct (m (p_lexer s)) as [[b x]|e|p|]; try discriminate.
  intros h. injection h as _ <-. reflexivity.
Qed.
Lemma keeps_gets {A} (f : pst -> A) : keeps (gets f).
Proof. intros s a s' h. injection h as _ <-. reflexivity. Qed.
Lemma keeps_modify f : (forall s, flags (f s) = flags s) -> keeps (modify f).
Proof. intros hf s a s' h. injection h as _ <-. apply hf. Qed.
Lemma keeps_loop {A B} (body : A -> P (A + B)) : (forall a, keeps (body a)) ->
  forall n a, keeps (loopM n body a).
Proof.
  intros hb. induction n as [|n IH]; intros a; cbn [loopM]; [apply keeps_nofuel|].
  apply keeps_bind; [apply hb|]. intros [a'|b]; [apply IH|apply keeps_ret].
Qed.
Lemma keeps_span {A} set (m : P A) : keeps m -> keeps (p_span set m).
Proof.
  intros h. unfold p_span, p_posn.
  repeat (apply keeps_bind; [solve [apply keeps_gets | exact h]|intros ?]). apply keeps_ret.
Qed.
Lemma keeps_allow_in {A} b (m : P A) : keeps m -> keeps (p_allow_in b m).
Proof.
  intros h s a s' e. unfold p_allow_in in e. apply bind_ok in e as (c & s1 & e1 & e).
  injection e1 as <- <-. apply bind_ok in e as (u & s1 & e1 & e). injection e1 as _ <-.
  apply bind_ok in e as (r & s2 & e1 & e). apply h in e1. apply bind_ok in e as (u' & s3 & e2 & e).
  injection e2 as _ <-. injection e as _ <-. unfold flags in *. cbn in *. congruence.
Qed.

Create HintDb keeps.
#[global] Hint Resolve keeps_ret keeps_err keeps_panic keeps_nofuel keeps_lex keeps_gets : keeps.

Ltac kps :=
  repeat first
    [ solve [auto with keeps]
    | match goal with |- keeps (bind _ _) => apply keeps_bind; [|intros ?] end
    | apply keeps_span
    | apply keeps_allow_in
    | apply keeps_loop; intros ?
    | match goal with |- keeps (let '(_, _) := ?x in _) => destruct x end
    | match goal with |- keeps (match ?x with _ => _ end) => destruct x end
    | match goal with |- keeps (let x := ?y in _) => cbv zeta end
    | apply keeps_modify; intros ?; reflexivity ].
(** Unfold one method and go through it. *)
Ltac kp f := intros; unfold f; kps.

Section Methods.
Context (V : env).

Lemma keeps_skip : keeps (p_skip V). Proof. apply keeps_lex. Qed.
Lemma keeps_read : keeps (p_read V). Proof. apply keeps_lex. Qed.
Lemma keeps_read_op : keeps (p_read_op V). Proof. apply keeps_lex. Qed.
Lemma keeps_peek : keeps (p_peek V). Proof. apply keeps_lex. Qed.
Lemma keeps_peek_op : keeps (p_peek_op V). Proof. apply keeps_lex. Qed.
Lemma keeps_unread t : keeps (p_unread t). Proof. apply keeps_lex. Qed.
Lemma keeps_reread_token : keeps p_reread_token. Proof. apply keeps_lex. Qed.
Lemma keeps_posn : keeps p_posn. Proof. apply keeps_gets. Qed.
Lemma keeps_get_context : keeps get_context. Proof. apply keeps_gets. Qed.
Hint Resolve keeps_skip keeps_read keeps_read_op keeps_peek keeps_peek_op keeps_unread keeps_reread_token
  keeps_posn keeps_get_context : keeps.
Lemma keeps_expect d : keeps (p_expect V d). Proof. kp @p_expect. Qed.
Lemma keeps_matches_token d : keeps (p_matches_token V d). Proof. kp @p_matches_token. Qed.
Lemma keeps_matches d : keeps (p_matches V d). Proof. kp @p_matches. Qed.
Lemma keeps_matches_op d : keeps (p_matches_op V d). Proof. kp @p_matches_op. Qed.
Lemma keeps_reread d : keeps (p_reread d). Proof. kp @p_reread. Qed.
Lemma keeps_arg : keeps (p_has_arg_same_line V). Proof. kp @p_has_arg_same_line. Qed.
Lemma keeps_vec_span ls : keeps (p_vec_span ls). Proof. kp @p_vec_span. Qed.
Hint Resolve keeps_expect keeps_matches_token keeps_matches keeps_matches_op keeps_reread keeps_arg
  keeps_vec_span : keeps.
Lemma keeps_semi {A} set start nl (f : semi -> A) : keeps (end_with_auto_semi V set start nl f).
Proof. kp @end_with_auto_semi. Qed.
Lemma keeps_unexpected {A} : keeps (@unexpected A). Proof. kp @unexpected. Qed.
Lemma keeps_strict_check f : keeps f -> keeps (strict_check f). Proof. kp strict_check. Qed.
Lemma keeps_id_check b n l : keeps (id_check b n l). Proof. kp id_check. Qed.
Hint Resolve keeps_semi keeps_unexpected keeps_strict_check keeps_id_check : keeps.
Lemma keeps_new_id b n l : keeps (new_id b n l). Proof. kp new_id. Qed.
Hint Resolve keeps_new_id : keeps.
Lemma keeps_new_id_from_token b t : keeps (new_id_from_token b t). Proof. kp new_id_from_token. Qed.
Lemma keeps_directive : keeps (match_directive_opt V). Proof. kp match_directive_opt. Qed.
Lemma keeps_id b : keeps (p_id V b). Proof. kp p_id. Qed.
Lemma keeps_id_opt b : keeps (p_id_opt V b). Proof. kp p_id_opt. Qed.
Lemma keeps_binding : keeps (binding_pattern V). Proof. kp binding_pattern. Qed.
Hint Resolve keeps_new_id_from_token keeps_directive keeps_id keeps_id_opt keeps_binding : keeps.
Lemma keeps_pattern : keeps (pattern_ V). Proof. kp pattern_. Qed.
Hint Resolve keeps_pattern : keeps.

Context (R : recs).
Context (HA : keeps (r_assign R)) (HI : forall d, keeps (r_item R d)).
Hint Resolve HA HI : keeps.

Lemma keeps_more_comma {A} (x : A) f : keeps f -> keeps (more_comma V R x f). Proof. kp @more_comma. Qed.
Hint Resolve keeps_more_comma : keeps.
Lemma keeps_comma_separated {A} (f : P A) : keeps f -> keeps (comma_separated V R f).
Proof. kp @comma_separated. Qed.
Lemma keeps_more_expressions e : keeps (more_expressions V R e). Proof. kp more_expressions. Qed.
Hint Resolve keeps_comma_separated keeps_more_expressions : keeps.
Lemma keeps_expression : keeps (expression V R). Proof. kp expression. Qed.
Hint Resolve keeps_expression : keeps.
Lemma keeps_paren : keeps (paren_expression V R). Proof. kp paren_expression. Qed.
Lemma keeps_formals : keeps (formal_parameters V R). Proof. kp formal_parameters. Qed.
Lemma keeps_statement_list : keeps (statement_list V R). Proof. kp statement_list. Qed.
Hint Resolve keeps_paren keeps_formals keeps_statement_list : keeps.
Lemma keeps_function_body ps : keeps (function_body V R ps).
Proof.
  intros s a s' e. unfold function_body in e. apply bind_ok in e as (c & s1 & e1 & e). injection e1 as <- <-.
  do 5 (apply bind_ok in e as (? & ? & _ & e)). apply bind_ok in e as (u & s2 & e1 & e).
  injection e1 as _ <-. injection e as _ <-. reflexivity.
Qed.
Hint Resolve keeps_function_body : keeps.
Lemma keeps_function {I} (g : P I) : keeps g -> keeps (function_ V R g). Proof. kp @function_. Qed.
Hint Resolve keeps_function : keeps.
Lemma keeps_function_declaration : keeps (function_declaration V R). Proof. kp function_declaration. Qed.
Lemma keeps_list_item : keeps (expr_list_item V R). Proof. kp expr_list_item. Qed.
Hint Resolve keeps_function_declaration keeps_list_item : keeps.
Lemma keeps_element : keeps (array_element V R). Proof. kp array_element. Qed.
Hint Resolve keeps_element : keeps.
Lemma keeps_array t : keeps (array_literal V R t). Proof. kp array_literal. Qed.
Lemma keeps_more_prop_init k : keeps (more_prop_init V R k). Proof. kp more_prop_init. Qed.
Lemma keeps_key_opt : keeps (property_key_opt V). Proof. kp property_key_opt. Qed.
Hint Resolve keeps_array keeps_more_prop_init keeps_key_opt : keeps.
Lemma keeps_key : keeps (property_key V). Proof. kp property_key. Qed.
Hint Resolve keeps_key : keeps.
Lemma keeps_property : keeps (object_property V R). Proof. kp object_property. Qed.
Hint Resolve keeps_property : keeps.
Lemma keeps_object t : keeps (object_literal V R t). Proof. kp object_literal. Qed.
Hint Resolve keeps_object : keeps.
Lemma keeps_primary : keeps (primary_expression V R). Proof. kp primary_expression. Qed.
Hint Resolve keeps_primary : keeps.
Lemma keeps_member_base : keeps (member_base_expression V R). Proof. kp member_base_expression. Qed.
Lemma keeps_arguments : keeps (arguments_ V R). Proof. kp arguments_. Qed.
Lemma keeps_deref_brack : keeps (deref_brack V R). Proof. kp deref_brack. Qed.
Lemma keeps_id_name : keeps (id_name_ V). Proof. kp id_name_. Qed.
Hint Resolve keeps_member_base keeps_arguments keeps_deref_brack keeps_id_name : keeps.
Lemma keeps_deref_dot : keeps (deref_dot V). Proof. kp deref_dot. Qed.
Hint Resolve keeps_deref_dot : keeps.
Lemma keeps_deref_opt : keeps (deref_opt V R). Proof. kp deref_opt. Qed.
Lemma keeps_suffix_opt : keeps (suffix_opt V R). Proof. kp suffix_opt. Qed.
Hint Resolve keeps_deref_opt keeps_suffix_opt : keeps.
Lemma keeps_more_suffixes e : keeps (more_suffixes V R e). Proof. kp more_suffixes. Qed.
Hint Resolve keeps_more_suffixes : keeps.
Lemma keeps_apply_news news : forall b e, keeps (apply_news V R b news e).
Proof. induction news as [|n news IH]; intros b e; cbn [apply_news]; kps. Qed.
Hint Resolve keeps_apply_news : keeps.
Lemma keeps_more_new news e : keeps (more_new_expression V R news e). Proof. kp more_new_expression. Qed.
Hint Resolve keeps_more_new : keeps.
Lemma keeps_new news : keeps (new_expression V R news). Proof. kp new_expression. Qed.
Lemma keeps_call : keeps (call_expression V R). Proof. kp call_expression. Qed.
Lemma keeps_read_news : keeps (read_news V R). Proof. kp read_news. Qed.
Hint Resolve keeps_new keeps_call keeps_read_news : keeps.
Lemma keeps_lhs : keeps (lhs_expression V R). Proof. kp lhs_expression. Qed.
Lemma keeps_match_unop : keeps (match_unop V). Proof. kp match_unop. Qed.
Hint Resolve keeps_lhs keeps_match_unop : keeps.
Lemma keeps_match_prefix : keeps (match_prefix V). Proof. kp match_prefix. Qed.
Lemma keeps_match_postfix : keeps (match_postfix_operator_opt V). Proof. kp match_postfix_operator_opt. Qed.
Lemma keeps_to_target e : keeps (to_target e). Proof. kp to_target. Qed.
Lemma keeps_to_patt e : keeps (to_patt e). Proof. kp to_patt. Qed.
Hint Resolve keeps_match_prefix keeps_match_postfix keeps_to_target keeps_to_patt : keeps.
Lemma keeps_apply_postfix p e : keeps (apply_postfix p e). Proof. kp apply_postfix. Qed.
Lemma keeps_apply_prefixes ps : forall e, keeps (apply_prefixes ps e).
Proof. induction ps as [|p ps IH]; intros e; cbn [apply_prefixes]; kps. Qed.
Lemma keeps_read_prefixes : keeps (read_prefixes V R). Proof. kp read_prefixes. Qed.
Hint Resolve keeps_apply_postfix keeps_apply_prefixes keeps_read_prefixes : keeps.
Lemma keeps_unary : keeps (unary_expression V R). Proof. kp unary_expression. Qed.
Lemma keeps_match_infix : keeps (match_infix V). Proof. kp match_infix. Qed.
Hint Resolve keeps_unary keeps_match_infix : keeps.
Lemma keeps_more_infix e : keeps (more_infix_expressions V R e). Proof. kp more_infix_expressions. Qed.
Lemma keeps_more_conditional e : keeps (more_conditional V R e). Proof. kp more_conditional. Qed.
Hint Resolve keeps_more_infix keeps_more_conditional : keeps.
Lemma keeps_conditional : keeps (conditional_expression V R). Proof. kp conditional_expression. Qed.
Lemma keeps_more_assignment e : keeps (more_assignment V R e). Proof. kp more_assignment. Qed.
Hint Resolve keeps_conditional keeps_more_assignment : keeps.
Lemma keeps_assignment : keeps (assignment_expression V R). Proof. kp assignment_expression. Qed.
Lemma keeps_statement : keeps (statement R). Proof. kp statement. Qed.
Lemma keeps_more_labels i : keeps (more_labels V R i). Proof. kp more_labels. Qed.
Lemma keeps_with_labels ls t m : keeps m -> keeps (with_labels ls t m).
Proof. intros h. unfold with_labels, modify_context. kps. Qed.
Hint Resolve keeps_assignment keeps_statement keeps_more_labels keeps_with_labels : keeps.
Lemma keeps_labelled i : keeps (labelled_statement V R i). Proof. kp labelled_statement. Qed.
Lemma keeps_expression_statement : keeps (expression_statement V R). Proof. kp expression_statement. Qed.
Lemma keeps_block : keeps (block_ V R). Proof. kp block_. Qed.
Lemma keeps_declarator : keeps (declarator V R). Proof. kp declarator. Qed.
Lemma keeps_const_declarator : keeps (const_declarator V R). Proof. kp const_declarator. Qed.
Hint Resolve keeps_labelled keeps_expression_statement keeps_block keeps_declarator keeps_const_declarator : keeps.
Lemma keeps_var : keeps (var_statement V R). Proof. kp var_statement. Qed.
Lemma keeps_let p : keeps (let_declaration V R p). Proof. kp let_declaration. Qed.
Lemma keeps_const : keeps (const_declaration V R). Proof. kp const_declaration. Qed.
Lemma keeps_empty : keeps (empty_statement V). Proof. kp empty_statement. Qed.
Lemma keeps_if : keeps (if_statement V R). Proof. kp if_statement. Qed.
Lemma keeps_iteration_body : keeps (iteration_body R).
Proof.
  intros s a s' e. unfold iteration_body in e. apply bind_ok in e as (c & s1 & e1 & e). injection e1 as <- <-.
  apply bind_ok in e as (u & s1 & e1 & e). injection e1 as _ <-. apply bind_ok in e as (r & s2 & e1 & e).
  apply keeps_statement in e1. apply bind_ok in e as (u' & s3 & e2 & e). injection e2 as _ <-.
  injection e as _ <-. unfold flags in *. cbn in *. congruence.
Qed.
Hint Resolve keeps_var keeps_let keeps_const keeps_empty keeps_if keeps_iteration_body : keeps.
Lemma keeps_do : keeps (do_statement V R). Proof. kp do_statement. Qed.
Lemma keeps_while : keeps (while_statement V R). Proof. kp while_statement. Qed.
Lemma keeps_expression_opt_semi : keeps (expression_opt_semi V R). Proof. kp expression_opt_semi. Qed.
Hint Resolve keeps_do keeps_while keeps_expression_opt_semi : keeps.
Lemma keeps_more_for h : keeps (more_for V R h). Proof. kp more_for. Qed.
Lemma keeps_more_for_in h : keeps (more_for_in V R h). Proof. kp more_for_in. Qed.
Lemma keeps_more_for_of h : keeps (more_for_of V R h). Proof. kp more_for_of. Qed.
Hint Resolve keeps_more_for keeps_more_for_in keeps_more_for_of : keeps.
Lemma keeps_more_for_head l d f : keeps (more_for_head V R l d f). Proof. kp more_for_head. Qed.
Lemma keeps_for_expr : keeps (for_expr V R). Proof. kp for_expr. Qed.
Hint Resolve keeps_more_for_head keeps_for_expr : keeps.
Lemma keeps_for_var : keeps (for_var V R). Proof. kp for_var. Qed.
Lemma keeps_for_let : keeps (for_let V R). Proof. kp for_let. Qed.
Lemma keeps_for_const : keeps (for_const V R). Proof. kp for_const. Qed.
Hint Resolve keeps_for_var keeps_for_let keeps_for_const : keeps.
Lemma keeps_for : keeps (for_statement V R). Proof. kp for_statement. Qed.
Lemma keeps_case : keeps (case_ V R). Proof. kp case_. Qed.
Lemma keeps_default : keeps (default_ V R). Proof. kp default_. Qed.
Hint Resolve keeps_for keeps_case keeps_default : keeps.
Lemma keeps_cases : keeps (switch_cases V R). Proof. kp switch_cases. Qed.
Lemma keeps_switch : keeps (switch_statement V R).
Proof.
  unfold switch_statement. apply keeps_span. apply keeps_bind; [auto with keeps|intros _].
  apply keeps_bind; [auto with keeps|intros e s a s' h].
  apply bind_ok in h as (c & s1 & e1 & h). injection e1 as <- <-.
  apply bind_ok in h as (u & s1 & e1 & h). injection e1 as _ <-. apply bind_ok in h as (r & s2 & e1 & h).
  apply keeps_cases in e1. apply bind_ok in h as (u' & s3 & e2 & h). injection e2 as _ <-.
  injection h as _ <-. unfold flags in *. cbn in *. congruence.
Qed.
Lemma keeps_break : keeps (break_statement V). Proof. kp break_statement. Qed.
Lemma keeps_continue : keeps (continue_statement V). Proof. kp continue_statement. Qed.
Lemma keeps_return : keeps (return_statement V R). Proof. kp return_statement. Qed.
Lemma keeps_with : keeps (with_statement V R). Proof. kp with_statement. Qed.
Lemma keeps_throw : keeps (throw_statement V R). Proof. kp throw_statement. Qed.
Lemma keeps_catch : keeps (catch_opt V R). Proof. kp catch_opt. Qed.
Lemma keeps_finally : keeps (finally_opt V R). Proof. kp finally_opt. Qed.
Hint Resolve keeps_switch keeps_break keeps_continue keeps_return keeps_with keeps_throw keeps_catch
  keeps_finally : keeps.
Lemma keeps_try : keeps (try_statement V R). Proof. kp try_statement. Qed.
Lemma keeps_debugger : keeps (debugger_statement V). Proof. kp debugger_statement. Qed.
Lemma keeps_ident_item d : keeps (ident_item V R d). Proof. kp ident_item. Qed.
Hint Resolve keeps_try keeps_debugger keeps_ident_item : keeps.
Lemma keeps_item d : keeps (stmt_list_item V R d). Proof. kp stmt_list_item. Qed.
End Methods.

Lemma keeps_rec V n : keeps (r_assign (parse_rec V n)) /\ forall d, keeps (r_item (parse_rec V n) d).
Proof.
  induction n as [|n [h1 h2]]; cbn [parse_rec r_assign r_item].
  - split; [|intros d]; apply keeps_nofuel.
  - split; [apply keeps_assignment|intros d; apply keeps_item]; assumption.
Qed.
