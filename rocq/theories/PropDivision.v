(** C56: what happens to a text whose first two tokens are a string literal and a
    division operator.  The operator is never parsed as one: no entry point returns a
    tree unless the operator begins a new line, and then the string is a directive, so
    that the tree is that of another text. *)
From Coq Require Import String Ascii List NArith Bool Lia.
From Verif Require Import Base Chars Token Lexer Reader Punc Ast Track Cover Stack PState Parser Api.
From Verif Require Import LexClient SpecLexer Wp LexWp LexerProofs LexTheorems LexLayout.
Import ListNotations.
Open Scope N_scope.

(** A division operator, as the lexer reports one in operator mode. *)
Definition division (t : token) : Prop :=
  tk_value t = TPunc T_Slash \/ tk_value t = TPunc T_SlashAssign.

(** The text begins with the string literal [t1], of value [s], and the division
    operator [t2] (trivia may surround them). *)
Definition string_then_division (V : env) (src : str) (t1 t2 : token) (s : string_literal) : Prop :=
  (exists k, tiles V src [false; true] true 0 [t1; t2] k)
  /\ tk_value t1 = TString s /\ division t2.

(** What every entry point can still return: the operator stands on a new line, and the
    string alone is the first directive. *)
Definition cut_off (t2 : token) (s : string_literal) (dirs : list dir) : Prop :=
  tk_newline t2 = true /\ exists d ds, dirs = d :: ds /\ dir_string d = s.

Lemma regexp_value V r t r' : lx_read_regexp V r = Ok (t, r') -> exists e, tk_value t = TRegExp e.
Proof.
  unfold lx_read_regexp, bind. intros H.
  repeat match type of H with
  | match ?m with _ => _ end = _ => destruct m as [[? ?]| | |]; [|discriminate H..]
  end.
  unfold lx_end, bind in H.
  destruct (lx_posn _) as [[? ?]| | |]; [|discriminate H..].
  injection H as <- <-. cbn. eauto.
Qed.

Lemma slash_regexp V x t x1 : ucd_ok V -> read_next_token V true x = Ok (t, x1) -> division t ->
  forall t' x2, read_next_token V false x = Ok (t', x2) ->
  tk_newline t' = tk_newline t /\ (exists e, tk_value t' = TRegExp e) /\ lx_ahead x2 = lx_ahead x.
Proof.
  intros HV H Hd t' x2. revert H. unfold read_next_token, bind, gets, lift_rd, modify.
  destruct (lx_trivia _ _) as [[[nl b] r]| | |]; try discriminate. cbn [lx_rd lx_ahead lx_empty_line].
  destruct (lx_read_token_at V true r) as [[u r1]| | |] eqn:E; try discriminate.
  unfold ret. intros [= <- <-]. unfold division in Hd. cbn [tk_value] in Hd.
  pose proof (read_token_at_spec V true r (ucd_start_part V HV)) as S. unfold wp in S. rewrite E in S.
  destruct S as (d & w & (T & Hu) & Hl).
  assert (exists l, rest r = chr "/" :: l) as [l Hr].
  { rewrite (took_rest _ _ _ T). rewrite Hu in Hd. cbn in Hd.
    destruct Hd as [-> | ->]; inversion Hl; subst; eexists; reflexivity. }
  destruct r as [rs rp]. cbn [rest] in Hr. subst rs.
  change (lx_read_token_at V false (Rd (chr "/" :: l) rp)) with (lx_read_regexp V (Rd (chr "/" :: l) rp)).
  destruct (lx_read_regexp V _) as [[v r2]| | |] eqn:Ev; try discriminate.
  intros [= <- <-]. cbn. split; [reflexivity|]. split; [|reflexivity]. exact (regexp_value _ _ _ _ Ev).
Qed.

Lemma more_directives V n : forall acc s dirs s',
  loopM n (fun dirs =>
          o <- match_directive_opt V ;;
          match o with
          | Some d => apply_pragma d ;;; ret (inl (dirs ++ [d]))
          | None => ret (inr dirs)
          end) acc s = Ok (dirs, s') ->
  exists more, dirs = acc ++ more.
Proof.
  induction n as [|n IH]; intros acc s dirs s'; cbn [loopM]; [discriminate|].
  unfold bind at 1. unfold bind at 1.
  destruct (match_directive_opt V s) as [[[d|] s1]| | |]; try discriminate.
  - unfold bind. destruct (apply_pragma d s1) as [[u s2]| | |]; try discriminate.
    unfold ret at 1. intros H. destruct (IH _ _ _ _ H) as [more ->].
    exists (d :: more). rewrite <- app_assoc. reflexivity.
  - unfold ret. intros [= <- <-]. exists []. rewrite app_nil_r. reflexivity.
Qed.

Lemma directives_cut V src t1 t2 s R st dirs st' : ucd_ok V ->
  string_then_division V src t1 t2 s -> p_lexer st = lexer_new src ->
  body_directives V R st = Ok (dirs, st') -> cut_off t2 s dirs.
Proof.
  intros HV ((k & Ht) & H1 & H2) Hst.
  inversion Ht as [|? ? ? ? ? k1 ? ? N1 Ht1]; subst. inversion Ht1 as [|? ? ? ? ? k2 ? ? N2 Ht2]; subst.
  destruct (next_token_read V src false (lexer_new src) 0 t1 k1 HV (rd_at_new src) eq_refl N1)
    as (x1 & R1 & A1 & L1 & E1).
  rewrite <- E1 in N2. destruct (next_token_read V src true x1 k1 t2 k2 HV A1 L1 N2) as (x2 & R2 & _).
  rewrite (read_token_empty V true x1 L1) in R2.
  pose proof (slash_regexp V x1 t2 x2 HV R2 H2) as Hre.
  unfold body_directives. destruct (r_fuel R) as [|n]; cbn [loopM]; [discriminate|].
  unfold bind at 1. unfold bind at 1.
  destruct (match_directive_opt V st) as [[o s1]| | |] eqn:E; try discriminate.
  revert E. unfold match_directive_opt, bind at 1. unfold p_posn at 1. unfold gets at 1.
  unfold bind at 1. unfold p_read at 1. unfold lex at 1. rewrite Hst, R1, H1.
  unfold bind at 1. unfold p_peek at 1. unfold lex at 1. cbn [p_lexer set_lexer].
  unfold peek_token at 1. unfold bind at 1. unfold gets at 1. rewrite L1. unfold bind at 1.
  destruct (read_next_token V false x1) as [[t' x3]| | |] eqn:E3; try discriminate.
  destruct (Hre t' x3 eq_refl) as (Hnl & (e & He) & _).
  unfold bind at 1. unfold modify at 1. unfold ret at 1.
  unfold expression_continuation. rewrite He. cbn [negb].
  unfold bind at 1. unfold end_with_auto_semi. unfold bind at 1. unfold p_posn at 1. unfold gets at 1.
  unfold bind at 1. unfold p_peek at 1. unfold lex at 1. cbn [p_lexer set_lexer].
  unfold peek_token at 1. unfold bind at 1. unfold gets at 1. cbn [lx_ahead]. unfold ret at 1.
  unfold is_t. rewrite He. cbn [td_eqb orb].
  destruct (tk_newline t') eqn:Hn; cbn [negb].
  2:{ unfold bind at 1. destruct (p_read V _) as [[? ?]| | |]; discriminate. }
  unfold ret at 1 2. intros [= <- <-].
  unfold bind. destruct (apply_pragma _ _) as [[u s2]| | |]; try discriminate.
  unfold ret at 1. intros H. destruct (more_directives V n _ _ _ _ H) as [more ->].
  split; [congruence|]. eexists _, more. split; reflexivity.
Qed.

(** Whatever the text goes on to, the division is not parsed. *)
Theorem C56_never_a_division : forall V src t1 t2 s, ucd_ok V ->
  string_then_division V src t1 t2 s ->
  (forall u, script_of V src = Ok u -> cut_off t2 s (bo_dirs u))
  /\ (forall u, strict_of V src = Ok u -> cut_off t2 s (bo_dirs u))
  /\ (forall m, module_of V src = Ok m -> cut_off t2 s (bo_dirs m))
  /\ (forall cs u, program_of V src = Ok (Pg_Ambiguous cs u) -> cut_off t2 s (bo_dirs u))
  /\ (forall m, program_of V src = Ok (Pg_Module m) -> cut_off t2 s (bo_dirs m)).
Proof.
  intros V src t1 t2 s HV Hs.
  assert (forall b u st', script_ V (parse_rec V (fuel_for src)) b (parser_new src) = Ok (u, st') ->
            cut_off t2 s (bo_dirs u)) as Hb.
  { intros b u st'. unfold script_, bind at 1. cbn [assert_goal_unknown]. unfold assert_goal_unknown, bind at 1, gets at 1.
    cbn [parser_new p_goal goal_eqb]. unfold ret at 1. unfold bind at 1, modify at 1. unfold bind at 1.
    destruct (modify_context _ _) as [[v s1]| | |] eqn:E; try discriminate.
    assert (p_lexer s1 = lexer_new src) as E1.
    { revert E. unfold modify_context, modify. intros [= <- <-]. reflexivity. }
    unfold script_body, p_span, bind at 1, p_posn at 1, gets at 1. unfold bind at 1. unfold bind at 1.
    destruct (body_directives _ _ s1) as [[dirs s2]| | |] eqn:E2; try discriminate.
    unfold bind at 1. destruct (statement_list _ _ s2) as [[items s3]| | |]; try discriminate.
    unfold ret at 1. unfold bind, p_posn, gets, ret. intros [= <- <-]. cbn.
    exact (directives_cut V src t1 t2 s _ s1 dirs s2 HV Hs E1 E2). }
  assert (forall p st', program_ V (parse_rec V (fuel_for src)) (parser_new src) = Ok (p, st') ->
            match p with Pg_Ambiguous _ u => cut_off t2 s (bo_dirs u) | Pg_Module m => cut_off t2 s (bo_dirs m) end) as Hp.
  { intros p st'. unfold program_, bind at 1. unfold assert_goal_unknown, bind at 1, gets at 1.
    cbn [parser_new p_goal goal_eqb]. unfold ret at 1.
    unfold p_span, bind at 1, p_posn at 1, gets at 1. unfold bind at 1. unfold bind at 1.
    destruct (body_directives _ _ _) as [[dirs s2]| | |] eqn:E2; try discriminate.
    pose proof (directives_cut V src t1 t2 s _ (parser_new src) dirs s2 HV Hs eq_refl E2) as Hc.
    unfold bind at 1. destruct (program_items_ _ _ s2) as [[[items|items] s3]| | |]; try discriminate.
    - unfold bind at 1. destruct (take_deferred s3) as [[cs s4]| | |]; try discriminate.
      unfold bind, p_posn, gets, ret. intros [= <- <-]. exact Hc.
    - unfold bind, p_posn, gets, ret. intros [= <- <-]. exact Hc. }
  assert (forall m st', module_ V (parse_rec V (fuel_for src)) (parser_new src) = Ok (m, st') ->
            cut_off t2 s (bo_dirs m)) as Hm.
  { intros m st'. unfold module_, bind at 1. unfold assert_goal_unknown, bind at 1, gets at 1.
    cbn [parser_new p_goal goal_eqb]. unfold ret at 1. unfold bind at 1.
    destruct (set_module _) as [[v s1]| | |] eqn:E; try discriminate.
    assert (p_lexer s1 = lexer_new src) as E1.
    { revert E. unfold set_module, modify_context, modify, bind. intros [= <- <-]. reflexivity. }
    unfold p_span, bind at 1, p_posn at 1, gets at 1. unfold bind at 1. unfold bind at 1.
    destruct (body_directives _ _ s1) as [[dirs s2]| | |] eqn:E2; try discriminate.
    unfold bind at 1. destruct (module_items _ _ s2) as [[items s3]| | |]; try discriminate.
    unfold ret at 1. unfold bind, p_posn, gets, ret. intros [= <- <-]. cbn.
    exact (directives_cut V src t1 t2 s _ s1 dirs s2 HV Hs E1 E2). }
  split; [|split; [|split; [|split]]].
  - intros u. unfold script_of, run. specialize (Hb false).
    destruct (script_ _ _ _ _) as [[v s1]| | |]; try discriminate. intros [= <-]. exact (Hb _ _ eq_refl).
  - intros u. unfold strict_of, run. specialize (Hb true).
    destruct (script_ _ _ _ _) as [[v s1]| | |]; try discriminate. intros [= <-]. exact (Hb _ _ eq_refl).
  - intros m. unfold module_of, run.
    destruct (module_ _ _ _) as [[v s1]| | |]; try discriminate. intros [= <-]. exact (Hm _ _ eq_refl).
  - intros cs u. unfold program_of, run.
    destruct (program_ _ _ _) as [[v s1]| | |] eqn:E; try discriminate. intros [= ->]. exact (Hp _ _ eq_refl).
  - intros m. unfold program_of, run.
    destruct (program_ _ _ _) as [[v s1]| | |] eqn:E; try discriminate. intros [= ->]. exact (Hp _ _ eq_refl).
Qed.
Print Assumptions C56_never_a_division.

(** On one line the text is refused by all four entry points. *)
Theorem C56_refused_on_one_line : forall V src t1 t2 s, ucd_ok V ->
  string_then_division V src t1 t2 s -> tk_newline t2 = false ->
  (forall u, script_of V src <> Ok u) /\ (forall u, strict_of V src <> Ok u)
  /\ (forall m, module_of V src <> Ok m) /\ (forall p, program_of V src <> Ok p).
Proof.
  intros V src t1 t2 s HV Hs Hn.
  destruct (C56_never_a_division V src t1 t2 s HV Hs) as (A & B & C & D & E).
  assert (forall ds, ~ cut_off t2 s ds) as Hc by (intros ds [H _]; congruence).
  split; [intros u H; exact (Hc _ (A u H))|]. split; [intros u H; exact (Hc _ (B u H))|].
  split; [intros m H; exact (Hc _ (C m H))|].
  intros [cs u|m] H; [exact (Hc _ (D cs u H))|exact (Hc _ (E m H))].
Qed.
Print Assumptions C56_refused_on_one_line.

(** Both cases occur: on one line, and with the operator on a line of its own, where a
    tree is returned whose first statement is the regular expression [/ y /]. *)
Lemma starts V src t1 t2 s x : ucd_ok V -> read_tokens V [false; true] (lexer_new src) = Ok ([t1; t2], x) ->
  tk_value t1 = TString s -> division t2 -> string_then_division V src t1 t2 s.
Proof. intros HV H H1 H2. split; [apply (read_exact V src _ _ HV); eauto|split; assumption]. Qed.

Example C56_cases :
  (exists t1 t2 s, string_then_division env_ascii (lit "'x' / y / z;") t1 t2 s /\ tk_newline t2 = false)
  /\ (exists t1 t2 s u, string_then_division env_ascii (lit "'x'" ++ [10] ++ lit "/ y /z;") t1 t2 s
        /\ tk_newline t2 = true /\ script_of env_ascii (lit "'x'" ++ [10] ++ lit "/ y /z;") = Ok u
        /\ length (bo_items u) = 1%nat).
Proof.
  split.
  - eexists _, _, _. split; [eapply starts; [exact ucd_ok_ascii|vm_compute; reflexivity|reflexivity|left; reflexivity]|reflexivity].
  - eexists _, _, _, _. split; [eapply starts; [exact ucd_ok_ascii|vm_compute; reflexivity|reflexivity|left; reflexivity]|].
    split; [reflexivity|]. split; [vm_compute; reflexivity|reflexivity].
Qed.
