(** Completeness of the parser, part 6: every derivation of the grammar (with
    [sure = true]) is found. *)
From Coq Require Import String Ascii List NArith Arith Bool Lia.
From Verif Require Import Base Chars F64 Word Token Reader Lexer Punc Ast Track Cover Stack PState Parser Wp
  SpecReader SpecLexer SpecStack SpecTree StackProofs CoverProofs SpecGrammar LexWp LexTheorems ParserWp ParserOps
  ParserStmt GrammarProps CompBase CompTok CompExpr CompFun CompStmt.
Import ListNotations.
Local Open Scope nat_scope.

Section Claims.
Context (V : env) (src : str).
Context (HV : ucd_ok V).
Context (gl : goal) (tr : tri) (md : mode).
Context (Hmode : (md = Sloppy -> tr <> Yes /\ gl <> G_Module) /\ (md = Strict -> gl <> G_Module)).

Fixpoint claim {A} (g : place) (n : nt A) {struct n} : tokens -> tokens -> A -> Prop :=
  match n in nt T return tokens -> tokens -> T -> Prop with
  | Commas n => sep (fun i o a => GX true g n i o a /\ claim g n i o a)
  | CommaList n => csep (fun i o a => GX true g n i o a /\ claim g n i o a)
  | Name_ b => cName b g
  | Pattern => cPattern g
  | ParamList => cParamList V src gl tr md g
  | Parameters => cParameters V src gl tr md g
  | Directive => cDirective V src gl tr md g
  | Directives => cDirectives V src gl tr md g
  | Items => cItems V src gl tr md g
  | Script => cScript V src gl tr md g
  | FunctionBody => cFBody V src gl tr md g
  | FunctionRest => cFRest V src gl tr md g
  | FunctionExpr => cFunExpr V src gl tr md g
  | FunctionDecl => cFunDecl V src gl tr md g
  | ListItem => cListItem V src gl tr md g
  | Elements => cElements V src gl tr md g
  | Arguments => cArguments V src gl tr md g
  | Key => cKey
  | DotName => cDotName
  | Property => cProp V src gl tr md g
  | Primary => cPrimary V src gl tr md g
  | Base_ => cBase V src gl tr md g
  | Member => cBase V src gl tr md g
  | NewArgs => cNew V src gl tr md true g
  | NewBare => cNew V src gl tr md false g
  | Lhs => cLhs V src gl tr md g
  | Postfix => cPostfix V src gl tr md g
  | Unary => cUnary V src gl tr md g
  | Infix n => cInfix V src gl tr md n g
  | Conditional => cCond V src gl tr md g
  | Assignment => cAssign V src gl tr md g
  | Expression => cExpr V src gl tr md g
  | Declarator => cDtor V src gl tr md g
  | ConstDeclarator => cCdtor V src gl tr md g
  | BlockOf => cBlock V src gl tr md g
  | ForRest => cForRest V src gl tr md g
  | Catch_ => cCatch V src gl tr md g
  | Case_ => cCase V src gl tr md g
  | Cases => cCases V src gl tr md g
  | Statement => fun i o x => cS V src gl tr md g i o x /\ cL V src gl tr md g i o x
  | Declaration => cDecl V src gl tr md g
  | Item d => cItem V src gl tr md d g
  end.

Lemma both g i o x : GX true g Statement i o x -> (forall l y z, x <> S_Label l y z) -> cS V src gl tr md g i o x ->
  cS V src gl tr md g i o x /\ cL V src gl tr md g i o x.
Proof. intros D Hx H. split; [exact H|]. eapply c_plain; eassumption. Qed.
Lemma sep_dtors g i o ds : sep (fun i o a => GX true g Declarator i o a /\ cDtor V src gl tr md g i o a) i o ds ->
  sep (cDtor V src gl tr md g) i o ds.
Proof. apply sep_imp. intros ? ? ? [_ H]. exact H. Qed.
Lemma sep_cdtors g i o ds : sep (fun i o a => GX true g ConstDeclarator i o a /\ cCdtor V src gl tr md g i o a) i o ds ->
  sep (cCdtor V src gl tr md g) i o ds.
Proof. apply sep_imp. intros ? ? ? [_ H]. exact H. Qed.

Ltac fin := solve [ eassumption | split; eassumption | apply sep_dtors; eassumption | apply sep_cdtors; eassumption | eauto ].
Ltac go lem := eapply lem; try exact HV; try exact Hmode; fin.
Ltac stm con lem := apply both; [eapply con; eassumption|intros; discriminate|go lem].

Theorem found A g (n : nt A) i o a : GX true g n i o a -> claim g n i o a.
Proof.
  induction 1; cbn [claim] in *; repeat match goal with H : _ /\ cL _ _ _ _ _ _ _ _ _ |- _ => destruct H end.
  - apply sep_one. fin.
  - eapply sep_more; fin.
  - apply cs_nil.
  - apply cs_last. fin.
  - eapply cs_cons; fin.
  - exists t, n. auto.
  - exists x. auto.
  - go c_pl_nil.
  - go c_pl_rest.
  - go c_pl_last.
  - go c_pl_cons.
  - go c_params.
  - go c_directive.
  - go c_dirs_nil.
  - go c_dirs_cons.
  - go c_items_nil.
  - go c_items_cons.
  - go c_script.
  - go c_function_body.
  - go c_function_rest.
  - go c_function_anon.
  - go c_function_named.
  - go c_generator_anon.
  - go c_generator_named.
  - go c_function_decl.
  - go c_generator_decl.
  - go c_item_expr.
  - go c_item_spread.
  - go c_elts_nil.
  - go c_elts_hole.
  - go c_elts_last.
  - go c_elts_cons.
  - go c_args_nil.
  - go c_args.
  - go c_key_ident.
  - go c_key_reserved.
  - go c_key_string.
  - go c_key_number.
  - exists t. split; [reflexivity|]. left. eauto.
  - exists t. split; [reflexivity|]. right. eauto.
  - go c_prop_init.
  - go c_prop_method.
  - go c_prop_generator.
  - go c_prop_get.
  - go c_prop_set.
  - go c_prop_shorthand.
  - go c_id.
  - eapply c_token; try exact HV; try exact Hmode. unfold token_literal. rewrite H. reflexivity.
  - eapply c_token; try exact HV; try exact Hmode. unfold token_literal. rewrite H. reflexivity.
  - eapply c_token; try exact HV; try exact Hmode. unfold token_literal. rewrite H. reflexivity.
  - eapply c_token; try exact HV; try exact Hmode. unfold token_literal. rewrite H. reflexivity.
  - eapply c_token; try exact HV; try exact Hmode. unfold token_literal. rewrite H. reflexivity.
  - eapply c_token; try exact HV; try exact Hmode. unfold token_literal. rewrite H. reflexivity.
  - eapply c_token; try exact HV; try exact Hmode. unfold token_literal. rewrite H. reflexivity.
  - go c_array.
  - go c_object.
  - go c_function.
  - go c_paren.
  - go c_base.
  - go c_new_target.
  - assumption.
  - go c_member_dot.
  - go c_member_brack.
  - go c_new_base.
  - go c_new_args.
  - go c_new_some.
  - go c_new_bare.
  - go c_lhs_new.
  - go c_lhs_base.
  - go c_lhs_dot.
  - go c_lhs_brack.
  - go c_lhs_call.
  - go c_postfix_none.
  - go c_postfix_inc.
  - go c_postfix_dec.
  - go c_unary_none.
  - go c_unary_op.
  - go c_unary_inc.
  - go c_unary_dec.
  - go c_infix_unary.
  - go c_infix_up.
  - go c_infix_op.
  - go c_cond_none.
  - go c_cond.
  - go c_assign_none.
  - go c_assign.
  - go c_assign_op.
  - go c_expr.
  - go c_seq.
  - left. eauto.
  - right. exists l, x, e, i1, i2. repeat split; assumption.
  - exists l, p, e, i1, i2. repeat split; assumption.
  - go c_let.
  - go c_const.
  - go c_fun_decl.
  - go c_block_of.
  - stm g_block c_block.
  - stm g_empty c_empty.
  - stm g_var c_var.
  - stm g_expr_stmt c_expr_stmt.
  - stm g_if c_if.
  - stm g_if_else c_if_else.
  - split; [go c_label_s|go c_label_l].
  - stm g_break c_break.
  - stm g_break_to c_break_to.
  - stm g_continue c_continue.
  - stm g_continue_to c_continue_to.
  - stm g_return c_return.
  - stm g_return_value c_return_value.
  - stm g_throw c_throw.
  - stm g_debugger c_debugger.
  - stm g_with c_with.
  - go c_case.
  - go c_default.
  - go c_cases_nil.
  - go c_cases_cons.
  - stm g_switch c_switch.
  - go c_catch.
  - stm g_try_catch c_try_catch.
  - stm g_try_finally c_try_finally.
  - stm g_try_both c_try_both.
  - stm g_while c_while.
  - stm g_do c_do.
  - go c_for_rest_00.
  - go c_for_rest_10.
  - go c_for_rest_01.
  - go c_for_rest_11.
  - stm g_for c_for.
  - stm g_for_expr c_for_expr.
  - stm g_for_var c_for_var.
  - stm g_for_let c_for_let.
  - stm g_for_const c_for_const.
  - stm g_for_in c_for_in.
  - stm g_for_of c_for_of.
  - stm g_for_in_init c_for_in_init.
  - stm g_for_in_var c_for_in_var.
  - stm g_for_of_var c_for_of_var.
  - go c_item_stmt.
  - go c_item_decl.
Qed.
End Claims.
