(** Two parses of the same input that differ only in what they know about strictness
    proceed in step. *)
From Coq Require Import String Ascii List NArith Bool.
From Verif Require Import Base Chars Word Token Reader Lexer Punc Ast Track Cover Stack PState Parser KeepProofs.
Import ListNotations.
Local Open Scope nat_scope.

(** What a check comes to in a parse with strictness [a] and goal [g]. *)
Inductive outcome : Type := Skip | Fail (e : perror) | Defer.
Definition outcome_of (a : tri) (g : goal) (c : check) : outcome :=
  match a, c with
  | No, _ => Skip
  | Yes, Ck_Strict e => Fail e
  | Unknown, Ck_Strict e => Defer
  | _, Ck_Module e => match g with G_Module => Fail e | G_Script => Skip | G_Unknown => Defer end
  end.

(** A pair of parses to compare: which strictness and which goals may face each other,
    and what the checks deferred by the first parse come to in the second. *)
Record variant : Type := Variant {
  v_strict : tri -> tri -> Prop;
  v_goal : goal -> goal -> Prop;
  v_check : list check -> option perror }.
Record variant_ok (v : variant) : Prop := {
  vo_no : forall a b, v_strict v a b -> a <> No;
  vo_yes : v_strict v Yes Yes;
  vo_module : v_goal v G_Module G_Module;
  vo_more : forall d d' e, v_check v d = Some e -> v_check v (d ++ d') = Some e;
  vo_outcome : forall a b g h d c, v_strict v a b -> v_goal v g h -> v_check v d = None ->
    match outcome_of a g c, outcome_of b h c with
    | Fail _, _ => True
    | Skip, Skip => True
    | Defer, Skip => v_check v (d ++ [c]) = None
    | Defer, Fail e => v_check v (d ++ [c]) = Some e
    | Skip, Fail _ | Skip, Defer | Defer, Defer => False
    end }.

Section Sim.
Context (v : variant) (VO : variant_ok v).

Record same_context (c1 c2 : context) : Prop := {
  sc_strict : v_strict v (cx_strict c1) (cx_strict c2);
  sc_function : cx_function c2 = cx_function c1;
  sc_iteration : cx_iteration c2 = cx_iteration c1;
  sc_switch : cx_switch c2 = cx_switch c1;
  sc_allow_in : cx_allow_in c2 = cx_allow_in c1;
  sc_labels : cx_labels c2 = cx_labels c1 }.
Record rel (s1 s2 : pst) : Prop := {
  rl_lexer : p_lexer s2 = p_lexer s1;
  rl_context : same_context (p_context s1) (p_context s2);
  rl_goal : v_goal v (p_goal s1) (p_goal s2);
  rl_none : v_check v (p_deferred s1) = None }.

(** If [m1] succeeds so does [m2] with the same result, unless a check deferred by [m1]
    is the error of [m2]. *)
Definition follows {A} (r1 r2 : res perror (A * pst)) : Prop :=
  match r1 with
  | Ok (a, s1') => (exists s2', r2 = Ok (a, s2') /\ rel s1' s2')
                   \/ (exists e, r2 = Err e /\ v_check v (p_deferred s1') = Some e)
  | _ => True
  end.
Definition grows {A} (m : P A) : Prop := forall s a s', m s = Ok (a, s') ->
  exists d, p_deferred s' = p_deferred s ++ d.
Definition sim {A} (m1 m2 : P A) : Prop :=
  grows m1 /\ forall s1 s2, rel s1 s2 -> follows (m1 s1) (m2 s2).

Lemma grows_bind {A B} (m : P A) (k : A -> P B) : grows m -> (forall a, grows (k a)) -> grows (bind m k).
Proof.
  intros h1 h2 s b s' h. apply bind_ok in h as (a & s1 & e1 & e2).
  apply h1 in e1 as (d1 & e1). apply h2 in e2 as (d2 & e2). exists (d1 ++ d2).
  rewrite e2, e1, app_assoc. reflexivity.
Qed.
Lemma grows_stable {A} (m : P A) s a s' e : grows m -> m s = Ok (a, s') ->
  v_check v (p_deferred s) = Some e -> v_check v (p_deferred s') = Some e.
Proof. intros h E hc. apply h in E as (d & ->). apply (vo_more _ VO). exact hc. Qed.

Lemma follows_bind {A B} (m1 m2 : P A) (k1 k2 : A -> P B) s1 s2 :
  follows (m1 s1) (m2 s2) -> (forall a, grows (k1 a)) ->
  (forall a s1' s2', m1 s1 = Ok (a, s1') -> rel s1' s2' -> follows (k1 a s1') (k2 a s2')) ->
  follows (bind m1 k1 s1) (bind m2 k2 s2).
Proof.
  unfold bind. intros h g hk. unfold follows in h at 1. destruct (m1 s1) as [[a s1']|e|p|] eqn:E1; try exact Logic.I.
  destruct h as [(s2' & -> & r)|(e & -> & hc)].
  - apply hk; auto.
  - unfold follows. destruct (k1 a s1') as [[b s1'']|e'|p|] eqn:E2; try exact Logic.I.
    right. exists e. split; [reflexivity|]. eapply grows_stable; [apply g|exact E2|exact hc].
Qed.
Lemma sim_bind {A B} (m1 m2 : P A) (k1 k2 : A -> P B) :
  sim m1 m2 -> (forall a, sim (k1 a) (k2 a)) -> sim (bind m1 k1) (bind m2 k2).
Proof.
  intros h hk. split.
  - apply grows_bind; [apply h|]. intros a. apply hk.
  - intros s1 s2 r. apply follows_bind; [apply h, r| |].
    + intros a. apply hk.
    + intros a s1' s2' _ r'. apply hk, r'.
Qed.
Lemma grows_same {A} (m : P A) : (forall s a s', m s = Ok (a, s') -> p_deferred s' = p_deferred s) -> grows m.
Proof. intros h s a s' E. exists []. rewrite app_nil_r. eapply h, E. Qed.
Lemma sim_ret {A} (a : A) : sim (ret a) (ret a).
Proof.
  split.
  - apply grows_same. intros s b s' E. injection E as _ <-. reflexivity.
  - intros s1 s2 r. left. exists s2. split; [reflexivity|exact r].
Qed.
Lemma sim_err {A} e m : sim (@err _ _ A e) m.
Proof. split; [discriminate|]. intros s1 s2 r. exact Logic.I. Qed.
Lemma sim_panic {A} k m : sim (@panic_at _ _ A k) m.
Proof. split; [discriminate|]. intros s1 s2 r. exact Logic.I. Qed.
Lemma sim_nofuel {A} m : sim (@nofuel _ _ A) m.
Proof. split; [discriminate|]. intros s1 s2 r. exact Logic.I. Qed.
Lemma sim_lex {A} (m : XM A) : sim (lex m) (lex m).
Proof.
  split.
  - apply grows_same. intros s a s' E. unfold lex in E.
    destruct (m (p_lexer s)) as [[b x]|e|p|]; try discriminate. injection E as _ <-. reflexivity.
  - intros s1 s2 [r1 r2 r3 r4]. unfold lex. rewrite r1.
    destruct (m (p_lexer s1)) as [[b x]|e|p|]; cbn [follows]; auto.
    left. eexists. split; [reflexivity|]. split; auto.
Qed.
Lemma sim_posn : sim p_posn p_posn.
Proof.
  split.
  - apply grows_same. intros s b s' E. injection E as _ <-. reflexivity.
  - intros s1 s2 r. left. exists s2. cbv beta. unfold p_posn, gets. rewrite (rl_lexer _ _ r).
    split; [reflexivity|exact r].
Qed.
Lemma sim_get {A} (k1 k2 : context -> P A) :
  (forall c1 c2, same_context c1 c2 -> sim (k1 c1) (k2 c2)) -> (forall c, grows (k1 c)) ->
  sim (bind get_context k1) (bind get_context k2).
Proof.
  intros h g. split.
  - apply grows_bind; [|exact g]. apply grows_same. intros s b s' E. injection E as _ <-. reflexivity.
  - intros s1 s2 r. exact (proj2 (h (p_context s1) (p_context s2) (rl_context _ _ r)) s1 s2 r).
Qed.
Lemma grows_modify f : (forall s, p_deferred (f s) = p_deferred s) -> grows (modify f).
Proof. intros h. apply grows_same. intros s a s' E. injection E as _ <-. apply h. Qed.
Lemma sim_modify_context f1 f2 : (forall c1 c2, same_context c1 c2 -> same_context (f1 c1) (f2 c2)) ->
  sim (modify_context f1) (modify_context f2).
Proof.
  intros h. split.
  - apply grows_modify. reflexivity.
  - intros s1 s2 [r1 r2 r3 r4]. left. eexists. split; [reflexivity|]. split; cbn; auto.
Qed.
Lemma sim_loop {A B} (body1 body2 : A -> P (A + B)) : (forall a, sim (body1 a) (body2 a)) ->
  forall n a, sim (loopM n body1 a) (loopM n body2 a).
Proof.
  intros hb. induction n as [|n IH]; intros a; cbn [loopM]; [apply sim_nofuel|].
  apply sim_bind; [apply hb|]. intros [a'|b]; [apply IH|apply sim_ret].
Qed.
Lemma sim_span {A} set (m1 m2 : P A) : sim m1 m2 -> sim (p_span set m1) (p_span set m2).
Proof.
  intros h. unfold p_span.
  repeat (apply sim_bind; [solve [apply sim_posn | exact h]|intros ?]). apply sim_ret.
Qed.
Lemma grows_ret {A} (a : A) : grows (ret a). Proof. apply sim_ret. Qed.
Lemma grows_get : grows get_context.
Proof. apply grows_same. intros s b s' E. injection E as _ <-. reflexivity. Qed.
Lemma grows_modify_context f : grows (modify_context f).
Proof. apply grows_modify. reflexivity. Qed.
Lemma grows_sim {A} (m1 m2 : P A) : sim m1 m2 -> grows m1. Proof. intros h. apply h. Qed.
Lemma grows_self {A} (m : P A) : sim m m -> grows m. Proof. intros h. apply h. Qed.
Ltac gr := repeat first [apply grows_ret | apply grows_get | apply grows_modify_context
  | solve [eapply grows_sim; eassumption] | apply grows_bind; [|intros ?]].
Lemma sim_allow_in {A} b (m1 m2 : P A) : sim m1 m2 -> sim (p_allow_in b m1) (p_allow_in b m2).
Proof.
  intros h. unfold p_allow_in. apply sim_get; [|intros; gr].
  intros c1 c2 [h1 h2 h3 h4 h5 h6]. rewrite h5.
  apply sim_bind; [apply sim_modify_context; intros ? ? []; split; auto|intros _].
  apply sim_bind; [exact h|intros x].
  apply sim_bind; [apply sim_modify_context; intros ? ? []; split; auto|intros _]. apply sim_ret.
Qed.

(** A check that does not look at the state. *)
Inductive plain : P (option check) -> Prop :=
| plain_ret : forall o, plain (ret o)
| plain_panic : forall k, plain (panic_at k).
Lemma sim_strict_check f : plain f -> sim (strict_check f) (strict_check f).
Proof.
  intros hf. split.
  - destruct hf as [o|k]; unfold strict_check; intros s a s' E; apply bind_ok in E as (c & s1 & e1 & E);
      injection e1 as <- <-; destruct (tri_eqb (cx_strict (p_context s)) No);
      try (injection E as _ <-; exists []; rewrite app_nil_r; reflexivity); [|discriminate E].
    cbn in E. destruct o as [[e|e]|]; cbn in E.
    + destruct (tri_eqb (cx_strict (p_context s)) Yes); [discriminate E|]. injection E as _ <-. eexists; reflexivity.
    + unfold bind in E. cbn in E. destruct (goal_eqb (p_goal s) G_Module); [discriminate E|].
      destruct (negb (goal_eqb (p_goal s) G_Script)); injection E as _ <-;
        [eexists; reflexivity|exists []; rewrite app_nil_r; reflexivity].
    + injection E as _ <-. exists []; rewrite app_nil_r; reflexivity.
  - intros [g1 d1 x1 [st1 fu1 it1 sw1 ai1 la1]] [g2 d2 x2 [st2 fu2 it2 sw2 ai2 la2]] r.
    pose proof (rl_goal _ _ r) as hg. pose proof (rl_none _ _ r) as hn. pose proof (rl_context _ _ r) as hc.
    pose proof (rl_lexer _ _ r) as hx. pose proof (sc_strict _ _ hc) as hs. cbn in hg, hn, hs, hx.
    pose proof (vo_no _ VO _ _ hs) as hno.
    destruct hf as [[c|]|k].
    + pose proof (vo_outcome _ VO _ _ _ _ _ c hs hg hn) as ho.
      unfold strict_check, bind, get_context, gets, ret, modify. cbn [p_context cx_strict].
      destruct c as [e|e], st1, st2; try congruence; cbn in ho; cbn;
        try exact Logic.I; try contradiction;
        try (destruct g1, g2; cbn in ho; cbn; try exact Logic.I; try contradiction);
        first
          [ left; eexists; split; [reflexivity|]; split; cbn; auto; fail
          | right; eexists; split; [reflexivity|]; exact ho ].
    + unfold strict_check, bind, get_context, gets, ret. cbn [p_context cx_strict].
      destruct st1, st2; try congruence; cbn; left; eexists; (split; [reflexivity|]; exact r).
    + unfold strict_check, bind, get_context, gets, ret. cbn [p_context cx_strict].
      destruct st1; try congruence; exact Logic.I.
Qed.
Lemma plain_id_check b n l : plain (id_check b n l).
Proof.
  unfold id_check. destruct (b && name_illegal_strict_binding n), (name_strict_reserved n), (name_atom n);
    constructor.
Qed.
Lemma sim_set_module : sim set_module set_module.
Proof.
  unfold set_module. split.
  - apply grows_bind; [apply grows_modify; reflexivity|intros _; apply grows_modify_context].
  - intros s1 s2 [r1 [c1 c2 c3 c4 c5 c6] r3 r4]. left. eexists. split; [reflexivity|].
    split; cbn; auto using vo_module.
    split; cbn; auto using vo_yes.
Qed.
Lemma sim_pragma d : sim (apply_pragma d) (apply_pragma d).
Proof.
  unfold apply_pragma. destruct (str_eqb (dir_pragma d) (lit "use strict")).
  - apply sim_modify_context. intros ? ? []; split; cbn; auto using vo_yes.
  - destruct (str_eqb (dir_pragma d) (lit "use module")); [|apply sim_ret].
    apply sim_get.
    + intros c1 c2 []. rewrite sc_function0. destruct (negb (cx_function c1)); [apply sim_set_module|apply sim_ret].
    + intros c. destruct (negb (cx_function c)); [apply sim_set_module|apply grows_ret].
Qed.

Create HintDb sim.
Hint Resolve sim_ret sim_err sim_panic sim_nofuel sim_lex sim_posn sim_pragma : sim.

Ltac sms :=
  repeat first
    [ solve [auto with sim]
    | match goal with |- sim (bind get_context _) _ => fail 2 end
    | match goal with |- sim (bind _ _) _ => apply sim_bind; [|intros ?] end
    | apply sim_span
    | apply sim_allow_in
    | apply sim_loop; intros ?
    | match goal with |- sim (let '(_, _) := ?x in _) _ => destruct x end
    | match goal with |- sim (match ?x with _ => _ end) _ => destruct x end ].
Ltac sm f := intros; unfold f; sms.

Section Methods.
Context (V : env).

Lemma sim_skip : sim (p_skip V) (p_skip V). Proof. apply sim_lex. Qed.
Lemma sim_read : sim (p_read V) (p_read V). Proof. apply sim_lex. Qed.
Lemma sim_read_op : sim (p_read_op V) (p_read_op V). Proof. apply sim_lex. Qed.
Lemma sim_peek : sim (p_peek V) (p_peek V). Proof. apply sim_lex. Qed.
Lemma sim_peek_op : sim (p_peek_op V) (p_peek_op V). Proof. apply sim_lex. Qed.
Lemma sim_unread t : sim (p_unread t) (p_unread t). Proof. apply sim_lex. Qed.
Lemma sim_reread_token : sim p_reread_token p_reread_token. Proof. apply sim_lex. Qed.
Hint Resolve sim_skip sim_read sim_read_op sim_peek sim_peek_op sim_unread sim_reread_token : sim.
Lemma sim_expect d : sim (p_expect V d) (p_expect V d). Proof. sm @p_expect. Qed.
Lemma sim_matches_token d : sim (p_matches_token V d) (p_matches_token V d). Proof. sm @p_matches_token. Qed.
Lemma sim_matches d : sim (p_matches V d) (p_matches V d). Proof. sm @p_matches. Qed.
Lemma sim_matches_op d : sim (p_matches_op V d) (p_matches_op V d). Proof. sm @p_matches_op. Qed.
Lemma sim_reread d : sim (p_reread d) (p_reread d). Proof. sm @p_reread. Qed.
Lemma sim_arg : sim (p_has_arg_same_line V) (p_has_arg_same_line V). Proof. sm @p_has_arg_same_line. Qed.
Lemma sim_vec_span ls : sim (p_vec_span ls) (p_vec_span ls). Proof. sm @p_vec_span. Qed.
Hint Resolve sim_expect sim_matches_token sim_matches sim_matches_op sim_reread sim_arg
  sim_vec_span : sim.
Lemma sim_semi {A} set start nl (f : semi -> A) : sim (end_with_auto_semi V set start nl f) (end_with_auto_semi V set start nl f).
Proof. sm @end_with_auto_semi. Qed.
Lemma sim_unexpected {A} : sim (@unexpected A) (@unexpected A). Proof. sm @unexpected. Qed.
Hint Resolve sim_semi sim_unexpected sim_strict_check plain_id_check plain_ret : sim.
Lemma sim_new_id b n l : sim (new_id b n l) (new_id b n l). Proof. sm new_id. Qed.
Hint Resolve sim_new_id : sim.
Lemma sim_new_id_from_token b t : sim (new_id_from_token b t) (new_id_from_token b t). Proof. sm new_id_from_token. Qed.
Lemma sim_directive : sim (match_directive_opt V) (match_directive_opt V). Proof. sm match_directive_opt. Qed.
Lemma sim_id b : sim (p_id V b) (p_id V b). Proof. sm p_id. Qed.
Lemma sim_id_opt b : sim (p_id_opt V b) (p_id_opt V b). Proof. sm p_id_opt. Qed.
Lemma sim_binding : sim (binding_pattern V) (binding_pattern V). Proof. sm binding_pattern. Qed.
Hint Resolve sim_new_id_from_token sim_directive sim_id sim_id_opt sim_binding : sim.
Lemma sim_pattern : sim (pattern_ V) (pattern_ V). Proof. sm pattern_. Qed.
Hint Resolve sim_pattern : sim.

Context (R : recs).
Context (HA : sim (r_assign R) (r_assign R)) (HI : forall d, sim (r_item R d) (r_item R d)).
Hint Resolve HA HI : sim.

Lemma sim_more_comma {A} (x : A) f : sim f f -> sim (more_comma V R x f) (more_comma V R x f). Proof. sm @more_comma. Qed.
Hint Resolve sim_more_comma : sim.
Lemma sim_comma_separated {A} (f : P A) : sim f f -> sim (comma_separated V R f) (comma_separated V R f).
Proof. sm @comma_separated. Qed.
Lemma sim_more_expressions e : sim (more_expressions V R e) (more_expressions V R e). Proof. sm more_expressions. Qed.
Hint Resolve sim_comma_separated sim_more_expressions : sim.
Lemma sim_expression : sim (expression V R) (expression V R). Proof. sm expression. Qed.
Hint Resolve sim_expression : sim.
Lemma sim_paren : sim (paren_expression V R) (paren_expression V R). Proof. sm paren_expression. Qed.
Lemma sim_formals : sim (formal_parameters V R) (formal_parameters V R). Proof. sm formal_parameters. Qed.
Lemma sim_statement_list : sim (statement_list V R) (statement_list V R). Proof. sm statement_list. Qed.
Hint Resolve sim_paren sim_formals sim_statement_list : sim.
Lemma sim_directives : sim (body_directives V R) (body_directives V R).
Proof. sm body_directives. Qed.
Hint Resolve sim_directives : sim.
Lemma sim_script_body : sim (script_body V R) (script_body V R). Proof. sm script_body. Qed.
Hint Resolve sim_script_body : sim.
Lemma plain_body_check b ps : plain (body_check b ps). Proof. constructor. Qed.
Hint Resolve plain_body_check : sim.
Lemma sim_function_body ps : sim (function_body V R ps) (function_body V R ps).
Proof.
  unfold function_body. apply sim_get.
  - intros c1 c2 h.
    apply sim_bind; [apply sim_modify_context; intros ? ? []; split; auto|intros _].
    do 4 (apply sim_bind; [auto with sim|intros ?]).
    apply sim_bind; [apply sim_modify_context; auto|intros ?]. apply sim_ret.
  - intros c. apply grows_bind; [apply grows_modify_context|intros _].
    do 4 (apply grows_bind; [apply grows_self; auto with sim|intros ?]). gr.
Qed.
Hint Resolve sim_function_body : sim.
Lemma sim_function {I} (g : P I) : sim g g -> sim (function_ V R g) (function_ V R g). Proof. sm @function_. Qed.
Hint Resolve sim_function : sim.
Lemma sim_function_declaration : sim (function_declaration V R) (function_declaration V R). Proof. sm function_declaration. Qed.
Lemma sim_list_item : sim (expr_list_item V R) (expr_list_item V R). Proof. sm expr_list_item. Qed.
Hint Resolve sim_function_declaration sim_list_item : sim.
Lemma sim_element : sim (array_element V R) (array_element V R). Proof. sm array_element. Qed.
Hint Resolve sim_element : sim.
Lemma sim_array t : sim (array_literal V R t) (array_literal V R t). Proof. sm array_literal. Qed.
Lemma sim_more_prop_init k : sim (more_prop_init V R k) (more_prop_init V R k). Proof. sm more_prop_init. Qed.
Lemma sim_key_opt : sim (property_key_opt V) (property_key_opt V). Proof. sm property_key_opt. Qed.
Hint Resolve sim_array sim_more_prop_init sim_key_opt : sim.
Lemma sim_key : sim (property_key V) (property_key V). Proof. sm property_key. Qed.
Hint Resolve sim_key : sim.
Lemma sim_property : sim (object_property V R) (object_property V R). Proof. sm object_property. Qed.
Hint Resolve sim_property : sim.
Lemma sim_object t : sim (object_literal V R t) (object_literal V R t). Proof. sm object_literal. Qed.
Hint Resolve sim_object : sim.
Lemma sim_primary : sim (primary_expression V R) (primary_expression V R). Proof. sm primary_expression. Qed.
Hint Resolve sim_primary : sim.
Lemma sim_member_base : sim (member_base_expression V R) (member_base_expression V R). Proof. sm member_base_expression. Qed.
Lemma sim_arguments : sim (arguments_ V R) (arguments_ V R). Proof. sm arguments_. Qed.
Lemma sim_deref_brack : sim (deref_brack V R) (deref_brack V R). Proof. sm deref_brack. Qed.
Lemma sim_id_name : sim (id_name_ V) (id_name_ V). Proof. sm id_name_. Qed.
Hint Resolve sim_member_base sim_arguments sim_deref_brack sim_id_name : sim.
Lemma sim_deref_dot : sim (deref_dot V) (deref_dot V). Proof. sm deref_dot. Qed.
Hint Resolve sim_deref_dot : sim.
Lemma sim_deref_opt : sim (deref_opt V R) (deref_opt V R). Proof. sm deref_opt. Qed.
Lemma sim_suffix_opt : sim (suffix_opt V R) (suffix_opt V R). Proof. sm suffix_opt. Qed.
Hint Resolve sim_deref_opt sim_suffix_opt : sim.
Lemma sim_more_suffixes e : sim (more_suffixes V R e) (more_suffixes V R e). Proof. sm more_suffixes. Qed.
Hint Resolve sim_more_suffixes : sim.
Lemma sim_apply_news news : forall b e, sim (apply_news V R b news e) (apply_news V R b news e).
Proof. induction news as [|n news IH]; intros b e; cbn [apply_news]; sms. Qed.
Hint Resolve sim_apply_news : sim.
Lemma sim_more_new news e : sim (more_new_expression V R news e) (more_new_expression V R news e). Proof. sm more_new_expression. Qed.
Hint Resolve sim_more_new : sim.
Lemma sim_new news : sim (new_expression V R news) (new_expression V R news). Proof. sm new_expression. Qed.
Lemma sim_call : sim (call_expression V R) (call_expression V R). Proof. sm call_expression. Qed.
Lemma sim_read_news : sim (read_news V R) (read_news V R). Proof. sm read_news. Qed.
Hint Resolve sim_new sim_call sim_read_news : sim.
Lemma sim_lhs : sim (lhs_expression V R) (lhs_expression V R). Proof. sm lhs_expression. Qed.
Lemma sim_match_unop : sim (match_unop V) (match_unop V). Proof. sm match_unop. Qed.
Hint Resolve sim_lhs sim_match_unop : sim.
Lemma sim_match_prefix : sim (match_prefix V) (match_prefix V). Proof. sm match_prefix. Qed.
Lemma sim_match_postfix : sim (match_postfix_operator_opt V) (match_postfix_operator_opt V). Proof. sm match_postfix_operator_opt. Qed.
Lemma sim_to_target e : sim (to_target e) (to_target e). Proof. sm to_target. Qed.
Lemma sim_to_patt e : sim (to_patt e) (to_patt e). Proof. sm to_patt. Qed.
Hint Resolve sim_match_prefix sim_match_postfix sim_to_target sim_to_patt : sim.
Lemma sim_apply_postfix p e : sim (apply_postfix p e) (apply_postfix p e). Proof. sm apply_postfix. Qed.
Lemma sim_apply_prefixes ps : forall e, sim (apply_prefixes ps e) (apply_prefixes ps e).
Proof. induction ps as [|p ps IH]; intros e; cbn [apply_prefixes]; sms. Qed.
Lemma sim_read_prefixes : sim (read_prefixes V R) (read_prefixes V R). Proof. sm read_prefixes. Qed.
Hint Resolve sim_apply_postfix sim_apply_prefixes sim_read_prefixes : sim.
Lemma sim_unary : sim (unary_expression V R) (unary_expression V R). Proof. sm unary_expression. Qed.
Lemma sim_match_infix : sim (match_infix V) (match_infix V).
Proof.
  unfold match_infix. apply sim_bind; [auto with sim|intros t].
  apply sim_get.
  - intros c1 c2 []. rewrite sc_allow_in0. sms.
  - intros c. apply grows_self. sms.
Qed.
Hint Resolve sim_unary sim_match_infix : sim.
Lemma sim_more_infix e : sim (more_infix_expressions V R e) (more_infix_expressions V R e). Proof. sm more_infix_expressions. Qed.
Lemma sim_more_conditional e : sim (more_conditional V R e) (more_conditional V R e). Proof. sm more_conditional. Qed.
Hint Resolve sim_more_infix sim_more_conditional : sim.
Lemma sim_conditional : sim (conditional_expression V R) (conditional_expression V R). Proof. sm conditional_expression. Qed.
Lemma sim_more_assignment e : sim (more_assignment V R e) (more_assignment V R e). Proof. sm more_assignment. Qed.
Hint Resolve sim_conditional sim_more_assignment : sim.
Lemma sim_assignment : sim (assignment_expression V R) (assignment_expression V R). Proof. sm assignment_expression. Qed.
Lemma sim_statement : sim (statement R) (statement R). Proof. sm statement. Qed.
Lemma sim_more_labels i : sim (more_labels V R i) (more_labels V R i). Proof. sm more_labels. Qed.
Lemma sim_with_labels ls t m : sim m m -> sim (with_labels ls t m) (with_labels ls t m).
Proof.
  intros h. unfold with_labels.
  apply sim_bind; [apply sim_modify_context; intros ? ? []; split; cbn; congruence|intros _].
  apply sim_bind; [exact h|intros ?].
  apply sim_bind; [apply sim_modify_context; intros ? ? []; split; cbn; congruence|intros _]. apply sim_ret.
Qed.
Hint Resolve sim_assignment sim_statement sim_more_labels sim_with_labels : sim.
Lemma sim_labelled i : sim (labelled_statement V R i) (labelled_statement V R i). Proof. sm labelled_statement. Qed.
Lemma sim_expression_statement : sim (expression_statement V R) (expression_statement V R). Proof. sm expression_statement. Qed.
Lemma sim_block : sim (block_ V R) (block_ V R). Proof. sm block_. Qed.
Lemma sim_declarator : sim (declarator V R) (declarator V R). Proof. sm declarator. Qed.
Lemma sim_const_declarator : sim (const_declarator V R) (const_declarator V R). Proof. sm const_declarator. Qed.
Hint Resolve sim_labelled sim_expression_statement sim_block sim_declarator sim_const_declarator : sim.
Lemma sim_var : sim (var_statement V R) (var_statement V R). Proof. sm var_statement. Qed.
Lemma sim_let p : sim (let_declaration V R p) (let_declaration V R p). Proof. sm let_declaration. Qed.
Lemma sim_const : sim (const_declaration V R) (const_declaration V R). Proof. sm const_declaration. Qed.
Lemma sim_empty : sim (empty_statement V) (empty_statement V). Proof. sm empty_statement. Qed.
Lemma sim_if : sim (if_statement V R) (if_statement V R). Proof. sm if_statement. Qed.
Lemma sim_iteration_body : sim (iteration_body R) (iteration_body R).
Proof.
  unfold iteration_body. pose proof sim_statement as hs. apply sim_get; [|intros; gr].
  intros c1 c2 []. rewrite sc_iteration0.
  apply sim_bind; [apply sim_modify_context; intros ? ? []; split; auto|intros _].
  apply sim_bind; [exact hs|intros x].
  apply sim_bind; [apply sim_modify_context; intros ? ? []; split; auto|intros _]. apply sim_ret.
Qed.
Hint Resolve sim_var sim_let sim_const sim_empty sim_if sim_iteration_body : sim.
Lemma sim_do : sim (do_statement V R) (do_statement V R). Proof. sm do_statement. Qed.
Lemma sim_while : sim (while_statement V R) (while_statement V R). Proof. sm while_statement. Qed.
Lemma sim_expression_opt_semi : sim (expression_opt_semi V R) (expression_opt_semi V R). Proof. sm expression_opt_semi. Qed.
Hint Resolve sim_do sim_while sim_expression_opt_semi : sim.
Lemma sim_more_for h : sim (more_for V R h) (more_for V R h). Proof. sm more_for. Qed.
Lemma sim_more_for_in h : sim (more_for_in V R h) (more_for_in V R h). Proof. sm more_for_in. Qed.
Lemma sim_more_for_of h : sim (more_for_of V R h) (more_for_of V R h). Proof. sm more_for_of. Qed.
Hint Resolve sim_more_for sim_more_for_in sim_more_for_of : sim.
Lemma sim_more_for_head l d f : sim (more_for_head V R l d f) (more_for_head V R l d f). Proof. sm more_for_head. Qed.
Lemma sim_for_expr : sim (for_expr V R) (for_expr V R). Proof. sm for_expr. Qed.
Hint Resolve sim_more_for_head sim_for_expr : sim.
Lemma sim_for_var : sim (for_var V R) (for_var V R). Proof. sm for_var. Qed.
Lemma sim_for_let : sim (for_let V R) (for_let V R). Proof. sm for_let. Qed.
Lemma sim_for_const : sim (for_const V R) (for_const V R). Proof. sm for_const. Qed.
Hint Resolve sim_for_var sim_for_let sim_for_const : sim.
Lemma sim_for : sim (for_statement V R) (for_statement V R). Proof. sm for_statement. Qed.
Lemma sim_case : sim (case_ V R) (case_ V R). Proof. sm case_. Qed.
Lemma sim_default : sim (default_ V R) (default_ V R). Proof. sm default_. Qed.
Hint Resolve sim_for sim_case sim_default : sim.
Lemma sim_cases : sim (switch_cases V R) (switch_cases V R). Proof. sm switch_cases. Qed.
Lemma sim_switch : sim (switch_statement V R) (switch_statement V R).
Proof.
  unfold switch_statement. apply sim_span. apply sim_bind; [auto with sim|intros _].
  apply sim_bind; [auto with sim|intros e]. pose proof sim_cases as hs. apply sim_get; [|intros; gr].
  intros c1 c2 []. rewrite sc_switch0.
  apply sim_bind; [apply sim_modify_context; intros ? ? []; split; auto|intros _].
  apply sim_bind; [exact hs|intros x].
  apply sim_bind; [apply sim_modify_context; intros ? ? []; split; auto|intros _]. apply sim_ret.
Qed.
Ltac ctx := match goal with |- sim (bind get_context _) _ => apply sim_get;
  [intros ? ? []; repeat match goal with E : _ _ = _ |- _ => rewrite E end|intros ?; apply grows_self] end; sms.
Lemma sim_break : sim (break_statement V) (break_statement V). Proof. sm break_statement; ctx. Qed.
Lemma sim_continue : sim (continue_statement V) (continue_statement V). Proof. sm continue_statement; ctx. Qed.
Lemma sim_return : sim (return_statement V R) (return_statement V R). Proof. sm return_statement; ctx. Qed.
Lemma sim_with : sim (with_statement V R) (with_statement V R). Proof. sm with_statement. Qed.
Lemma sim_throw : sim (throw_statement V R) (throw_statement V R). Proof. sm throw_statement. Qed.
Lemma sim_catch : sim (catch_opt V R) (catch_opt V R). Proof. sm catch_opt. Qed.
Lemma sim_finally : sim (finally_opt V R) (finally_opt V R). Proof. sm finally_opt. Qed.
Hint Resolve sim_switch sim_break sim_continue sim_return sim_with sim_throw sim_catch
  sim_finally : sim.
Lemma sim_try : sim (try_statement V R) (try_statement V R). Proof. sm try_statement. Qed.
Lemma sim_debugger : sim (debugger_statement V) (debugger_statement V). Proof. sm debugger_statement. Qed.
Lemma sim_ident_item d : sim (ident_item V R d) (ident_item V R d). Proof. sm ident_item. Qed.
Hint Resolve sim_try sim_debugger sim_ident_item : sim.
Lemma sim_item d : sim (stmt_list_item V R d) (stmt_list_item V R d). Proof. sm stmt_list_item. Qed.
End Methods.

Lemma sim_rec V n : sim (r_assign (parse_rec V n)) (r_assign (parse_rec V n)) /\ forall d, sim (r_item (parse_rec V n) d) (r_item (parse_rec V n) d).
Proof.
  induction n as [|n [h1 h2]]; cbn [parse_rec r_assign r_item].
  - split; [|intros d]; apply sim_nofuel.
  - split; [apply sim_assignment|intros d; apply sim_item]; assumption.
Qed.
End Sim.

(** ** Items do not start where statement lists end *)

Definition fails {A} (r : res perror (A * pst)) : Prop := match r with Ok _ => False | _ => True end.
Lemma fails_bind {A B} (m : P A) (k : A -> P B) s : fails (m s) -> fails (bind m k s).
Proof. unfold bind, fails. destruct (m s) as [[a s']|e|p|]; tauto. Qed.
Lemma fails_next {A B} (m : P A) (k : A -> P B) s a s' : m s = Ok (a, s') -> fails (k a s') -> fails (bind m k s).
Proof. unfold bind. intros ->. auto. Qed.
Lemma bind_next {A B} (m : P A) (k : A -> P B) s a s' r : m s = Ok (a, s') -> k a s' = r -> bind m k s = r.
Proof. unfold bind. intros ->. auto. Qed.
Lemma fails_span {A} set (m : P A) s : fails (m s) -> fails (p_span set m s).
Proof. intros h. unfold p_span. eapply fails_next; [reflexivity|]. apply fails_bind, h. Qed.

Section Stops.
Context (V : env).
Notation at_ g d r t la el c := (PSt g d (Lexer r (t :: la) el) c).
Definition stops (d : token_data) : Prop :=
  d = TReserved R_Case \/ d = TReserved R_Default \/ d = TPunc T_RBrace.

Lemma peek_at op s t s' : lex (peek_token V op) s = Ok (t, s') ->
  exists g d r la el c, s' = at_ g d r t la el c.
Proof.
  unfold lex, peek_token, bind, gets. destruct s as [g d [r la el] c]. cbn [p_lexer lx_ahead].
  destruct la as [|t0 la].
  - destruct (read_next_token V op (Lexer r [] el)) as [[t1 x]|e|p|]; try discriminate.
    cbn. intros h. injection h as <- <-. repeat eexists.
  - cbn. intros h. injection h as <- <-. repeat eexists.
Qed.
Lemma unread_at t g d r la el c :
  p_unread t (PSt g d (Lexer r la el) c) = Panic P_buffer_full
  \/ p_unread t (PSt g d (Lexer r la el) c) = Ok (tt, at_ g d r t la el c).
Proof.
  unfold p_unread, lex, unread_token, bind, gets. cbn [p_lexer lx_ahead].
  destruct (Nat.ltb (length la) lookahead_capacity); cbn; auto.
Qed.

Context (R : recs) (t : token) (Ht : stops (tk_value t)).

Lemma is_not x : x <> TReserved R_Case -> x <> TReserved R_Default -> x <> TPunc T_RBrace -> is_t t x = false.
Proof.
  intros h1 h2 h3. unfold is_t. destruct Ht as [H|[H|H]]; rewrite H;
    (destruct x as [r|p|s|n|l|i]; try reflexivity; first [destruct r|destruct p]; try reflexivity; congruence).
Qed.
Lemma no_primary g d r la el c : fails (primary_expression V R (at_ g d r t la el c)).
Proof.
  unfold primary_expression. eapply fails_next; [reflexivity|].
  assert (as_ident t = None) as -> by (unfold as_ident; destruct Ht as [H|[H|H]]; rewrite H; reflexivity).
  assert (token_literal t = None) as -> by (unfold token_literal; destruct Ht as [H|[H|H]]; rewrite H; reflexivity).
  rewrite !is_not by discriminate. exact Logic.I.
Qed.
Lemma no_lhs g d r la el c : fails (lhs_expression V R (at_ g d r t la el c)).
Proof.
  unfold lhs_expression, read_news. destruct (r_fuel R) as [|n]; [exact Logic.I|]. cbn [loopM].
  eapply fails_next.
  - eapply bind_next; [eapply bind_next; [reflexivity|]|].
    + rewrite is_not by discriminate. reflexivity.
    + reflexivity.
  - cbn [rev]. unfold call_expression. apply fails_bind, no_primary.
Qed.
Lemma no_unary g d r la el c : fails (unary_expression V R (at_ g d r t la el c)).
Proof.
  unfold unary_expression, read_prefixes. destruct (r_fuel R) as [|n]; [exact Logic.I|]. cbn [loopM].
  destruct (unread_at t g d r la el c) as [E|E].
  - do 3 apply fails_bind. unfold match_prefix. eapply fails_next; [reflexivity|].
    rewrite !is_not by discriminate. apply fails_bind.
    change (fails (p_unread t (PSt g d (Lexer r la el) c))). rewrite E. exact Logic.I.
  - eapply fails_next; [eapply bind_next; [eapply bind_next|]|].
    + unfold match_prefix. eapply bind_next; [reflexivity|]. rewrite !is_not by discriminate.
      eapply bind_next; [exact E|]. eapply bind_next.
      * unfold match_unop. eapply bind_next; [reflexivity|].
        assert (token_unop t = None) as -> by (unfold token_unop; destruct Ht as [H|[H|H]]; rewrite H; reflexivity).
        eapply bind_next; [exact E|]. reflexivity.
      * reflexivity.
    + reflexivity.
    + reflexivity.
    + apply fails_bind, no_lhs.
Qed.
Lemma no_assign g d r la el c : fails (assignment_expression V R (at_ g d r t la el c)).
Proof. do 2 apply fails_bind. apply no_unary. Qed.
End Stops.

Lemma no_item V n t g d r la el c b : stops (tk_value t) ->
  fails (r_item (parse_rec V n) b (PSt g d (Lexer r (t :: la) el) c)).
Proof.
  intros Ht. destruct n as [|n]; [exact Logic.I|]. cbn [parse_rec r_item]. unfold stmt_list_item.
  eapply fails_next; [reflexivity|]. rewrite !(is_not t Ht) by discriminate.
  assert (as_ident t = None) as -> by (unfold as_ident; destruct Ht as [H|[H|H]]; rewrite H; reflexivity).
  apply fails_bind. unfold expression_statement. eapply fails_next; [reflexivity|]. apply fails_bind.
  unfold p_allow_in. do 2 (eapply fails_next; [reflexivity|]). do 2 apply fails_bind.
  destruct n as [|n]; [exact Logic.I|]. cbn [parse_rec r_assign]. apply no_assign, Ht.
Qed.

Lemma stops_or_eof t : follow_statement_list t = true -> is_t t (TPunc T_EOF) = false -> stops (tk_value t).
Proof.
  unfold follow_statement_list, is_t, stops. destruct (tk_value t) as [r|p| | | | ]; try discriminate;
    [destruct r|destruct p]; auto; discriminate.
Qed.
