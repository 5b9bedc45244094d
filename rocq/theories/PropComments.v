(** C72 for texts with comments: the parser accepts exactly the grammar on every text
    none of whose tokens is a division or a regular expression. *)
From Coq Require Import String Ascii List NArith Arith Bool Lia.
From Verif Require Import Base Chars Word Token Reader Lexer LexClient Punc Ast Track PState Parser Api Node SpecStack
  SpecTree SpecLexer SpecGrammar SpecParser SpecPlace SpecEntry SpecExact GrammarProps Wp LexWp LexerProofs LexTheorems
  LexLayout ExactProofs PropLayout PropParser PropComplete PropExact EndProofs EndText PropEnd PropDivision.
Import ListNotations.
Local Open Scope nat_scope.

(** The text can be read to its end, and no token is a division operator or a regular
    expression.  Slashes may stand in comments, strings and nowhere else. *)
Definition slashless (V : env) (src : str) : Prop :=
  exists ts e k, reads V src (ts ++ [e]) k /\ at_eof e /\ Forall (fun t => ~ regexp t /\ ~ slash t) ts.

Lemma same_read V op op' x t x1 : ucd_ok V -> read_next_token V op x = Ok (t, x1) -> ~ regexp t -> ~ slash t ->
  read_next_token V op' x = Ok (t, x1).
Proof.
  intros HV. unfold read_next_token, bind, gets, lift_rd, modify.
  destruct (lx_trivia _ _) as [[[nl b] r]| | |]; try discriminate. cbn [lx_rd lx_ahead lx_empty_line].
  destruct (lx_read_token_at V op r) as [[u r1]| | |] eqn:E; try discriminate.
  unfold ret. intros [= <- <-] Hr Hs.
  assert (lx_read_token_at V op' r = Ok (u, r1)) as ->; [|reflexivity].
  rewrite <- E. pose proof (read_token_at_spec V op r (ucd_start_part V HV)) as S. unfold wp in S. rewrite E in S.
  destruct S as (d & w & (T & Hu) & Hl). destruct r as [[|c l] p]; [reflexivity|].
  destruct (N.eqb_spec c (chr "/")) as [->|Hc].
  - exfalso. destruct op.
    + revert E. change (lx_read_token_at V true (Rd (chr "/" :: l) p)) with
        ((if is_c (nth_error (chr "/" :: l) 1) (chr "=") then lx_read_punc_n 2 T_SlashAssign else lx_read_punc_n 1 T_Slash)
           (Rd (chr "/" :: l) p)).
      assert (forall n q y, lx_read_punc_n n q y = Ok (u, r1) -> tk_value u = TPunc q) as Hp.
      { intros n q y. unfold lx_read_punc_n, bind, lx_end. unfold lx_posn, gets.
        destruct (lx_skip_n n y) as [[? ?]| | |]; try discriminate. unfold ret. intros [= <- _]. reflexivity. }
      intros E. apply Hs. destruct (is_c _ _); apply Hp in E; unfold slash; cbn; rewrite E; cbn; tauto.
    + revert E. change (lx_read_token_at V false (Rd (chr "/" :: l) p)) with (lx_read_regexp V (Rd (chr "/" :: l) p)).
      intros E. destruct (regexp_value _ _ _ _ E) as (e & He). apply Hr. exists e. exact He.
  - unfold lx_read_token_at, bind, lx_peek, lx_peek_at, gets. cbn [rest hd_error].
    apply N.eqb_neq in Hc. rewrite Hc. reflexivity.
Qed.

(** All ways to read such a text give its tokens, and ends behind them. *)
Lemma after_end V src : ucd_ok V -> forall ops b ts k', tiles V src ops b (length src) ts k' ->
  Forall (fun t => ~ regexp t /\ ~ slash t) ts.
Proof.
  intros HV. induction ops as [|op ops IH]; intros b ts k' H; inversion H as [|? ? ? ? t k1 ts' ? Hn Ht]; subst; constructor.
  - destruct Hn as (ws & w & l & hs & -> & _ & hl & _). rewrite skipn_all in hs.
    destruct ws; [|discriminate]. destruct w; [|discriminate]. destruct l; [|discriminate].
    split; intros K; apply (lexeme_slash _ _ _ _ _ hl); auto.
  - assert (k1 = length src) as ->; [|exact (IH _ _ _ Ht)].
    destruct Hn as (ws & w & l & hs & -> & _). rewrite skipn_all in hs.
    destruct ws; [|discriminate]. destruct w; [|discriminate]. cbn. lia.
Qed.

Lemma same_tokens V src : ucd_ok V -> forall ops x k ts e k1, rd_at src k (lx_rd x) -> lx_ahead x = [] ->
  tiles V src ops (lx_empty_line x) k (ts ++ [e]) k1 -> at_eof e -> Forall (fun t => ~ regexp t /\ ~ slash t) ts ->
  forall ops' ts' k2, tiles V src ops' (lx_empty_line x) k ts' k2 -> Forall (fun t => ~ regexp t /\ ~ slash t) ts'.
Proof.
  intros HV. induction ops as [|op ops IH]; intros x k ts e k1 Hat Hla H He F ops' ts' k2 H'.
  { inversion H. destruct ts; discriminate. }
  inversion H' as [|op' ops'' ? ? t' k' ts'' ? Hn' Ht']; subst; [constructor|].
  destruct ts as [|t ts]; cbn [app] in H; inversion H as [|? ? ? ? ? k0 ? ? Hn Ht]; subst.
  - destruct (next_token_read V src op x k e k0 HV Hat Hla Hn) as (y & R & A & L & E).
    rewrite (read_token_empty V op x Hla) in R.
    assert (~ regexp e /\ ~ slash e) as [N1 N2].
    { unfold at_eof in He. split; [intros (r & K); congruence|]. intros K. unfold slash in K. rewrite He in K.
      cbn in K. decompose sum K; discriminate. }
    pose proof (same_read V op op' x e y HV R N1 N2) as R'. rewrite <- (read_token_empty V op' x Hla) in R'.
    destruct (next_token_read V src op' x k t' k' HV Hat Hla Hn') as (y' & R'' & A' & L' & E').
    rewrite R' in R''. injection R'' as <- <-. constructor; [auto|].
    assert (k' = length src) as ->; [|exact (after_end V src HV _ _ _ _ Ht')].
    eapply eof_reached; [exact Hn'|exact (proj1 Hat)|exact He].
  - destruct (next_token_read V src op x k t k0 HV Hat Hla Hn) as (y & R & A & L & E).
    rewrite (read_token_empty V op x Hla) in R. pose proof (Forall_inv F) as [N1 N2].
    pose proof (same_read V op op' x t y HV R N1 N2) as R'. rewrite <- (read_token_empty V op' x Hla) in R'.
    destruct (next_token_read V src op' x k t' k' HV Hat Hla Hn') as (y' & R'' & A' & L' & E').
    rewrite R' in R''. injection R'' as <- <-. constructor; [auto|].
    assert (k' = k0) as ->.
    { destruct A as (L1 & _ & P1), A' as (L2 & _ & P2). rewrite P1 in P2.
      apply (f_equal offset) in P2. cbn in P2. lia. }
    rewrite <- E in Ht, Ht'. exact (IH y k0 ts e k1 A L Ht He (Forall_inv_tail F) _ _ _ Ht').
Qed.

Lemma slashless_calm V src ts k : ucd_ok V -> slashless V src -> reads V src ts k -> calm ts.
Proof.
  intros HV (ts0 & e & k0 & (ops0 & H0) & He & F0) (ops & H).
  pose proof (same_tokens V src HV ops0 (lexer_new src) 0 ts0 e k0 (rd_at_new src) eq_refl H0 He F0 ops ts k H) as F.
  intros before t t' after ->.
  apply Forall_app in F as [_ F]. apply Forall_inv_tail, Forall_inv in F as [F1 F2]. split; intros K; contradiction.
Qed.

Theorem C72_script_comments : forall V src t, ucd_ok V -> slashless V src -> labels_differ (N_body t) ->
  ((exists u, script_of V src = Ok u /\ script_untrack u = script_untrack t)
   <-> exists u, begins_with V src Sloppy u /\ script_untrack u = script_untrack t).
Proof.
  intros V src t HV Hn Hl. split.
  - intros (u & E & Eu). exists u. split; [|exact Eu]. exact (C44_script V src u HV E).
  - intros (u & (ts & rest & k & Hr & D) & Eu).
    destruct (proj1 (C72_found V src ts rest k u HV Hr (slashless_calm _ _ _ _ HV Hn Hr)
      ltac:(eapply labels_untrack; [|exact Hl]; cbn; f_equal; symmetry; exact Eu)) D) as (u' & E & Eu').
    exists u'. split; [exact E|congruence].
Qed.
Print Assumptions C72_script_comments.

Theorem C72_strict_comments : forall V src t, ucd_ok V -> slashless V src -> labels_differ (N_body t) ->
  ((exists u, strict_of V src = Ok u /\ script_untrack u = script_untrack t)
   <-> exists u, begins_with V src Strict u /\ script_untrack u = script_untrack t).
Proof.
  intros V src t HV Hn Hl. split.
  - intros (u & E & Eu). exists u. split; [|exact Eu]. exact (C44_strict V src u HV E).
  - intros (u & (ts & rest & k & Hr & D) & Eu).
    destruct (proj2 (C72_found V src ts rest k u HV Hr (slashless_calm _ _ _ _ HV Hn Hr)
      ltac:(eapply labels_untrack; [|exact Hl]; cbn; f_equal; symmetry; exact Eu)) D) as (u' & E & Eu').
    exists u'. split; [exact E|congruence].
Qed.
Print Assumptions C72_strict_comments.

Theorem C72_program_comments : forall V src t, ucd_ok V -> slashless V src -> labels_differ (N_body t) ->
  ((exists cs u, program_of V src = Ok (Pg_Ambiguous cs u) /\ script_untrack u = script_untrack t)
   <-> exists u, consists_of V src Sloppy u /\ script_untrack u = script_untrack t).
Proof.
  intros V src t HV Hn Hl. split.
  - intros (cs & u & E & Eu). exists u. split; [|exact Eu].
    destruct (C31_program_whole V src _ HV E) as (cs' & l & ds & is & ts & e & rest & X & He & Hr & Ht).
    injection X as _ ->. exists ts, e, rest, (length src). split; [exact Hr|]. split; [exact He|].
    exact (script_of_top _ _ _ _ _ _ _ Ht He).
  - intros (u & (ts & e & rest & k & Hr & He & D) & Eu).
    apply sure_script in D;
      [|exact (slashless_calm _ _ _ _ HV Hn Hr)|eapply labels_untrack; [|exact Hl]; cbn; f_equal; symmetry; exact Eu].
    destruct (C67_program _ _ _ _ _ _ _ HV Hr He D) as (cs & u' & E & Eu'). exists cs, u'. split; [exact E|congruence].
Qed.
Print Assumptions C72_program_comments.

Theorem C72_module_comments : forall V src t, ucd_ok V -> slashless V src -> labels_differ (N_body t) ->
  ((exists u, module_of V src = Ok u /\ module_untrack u = module_untrack (as_module t))
   <-> exists u, consists_of V src Module_ u /\ script_untrack u = script_untrack t).
Proof.
  intros V src t HV Hn Hl. split.
  - intros (u & E & Eu).
    destruct (C31_module_whole V src _ HV E) as (l & ds & is & ts & e & rest & -> & He & Hr & Ht).
    exists (Body l ds is). split.
    + exists ts, e, rest, (length src). split; [exact Hr|]. split; [exact He|].
      exact (script_of_top _ _ _ _ _ _ _ Ht He).
    + destruct t as [l' ds' is']. unfold as_module in Eu. cbn in Eu |- *. injection Eu as E1 E2.
      unfold script_untrack, body_untrack; cbn. f_equal; [exact E1|].
      rewrite !map_map in E2. clear -E2. revert is' E2. induction is as [|a is IH]; intros [|b is'] E2; try discriminate; [reflexivity|].
      cbn in E2 |- *. injection E2 as E2 E3. f_equal; [exact E2|]. exact (IH _ E3).
  - intros (u & (ts & e & rest & k & Hr & He & D) & Eu).
    apply sure_script in D;
      [|exact (slashless_calm _ _ _ _ HV Hn Hr)|eapply labels_untrack; [|exact Hl]; cbn; f_equal; symmetry; exact Eu].
    destruct u as [l ds is].
    destruct (C67_module _ _ _ _ _ _ _ _ _ HV Hr He D) as (u' & E & Eu'). exists u'. split; [exact E|].
    rewrite Eu'. destruct t as [l' ds' is']. unfold as_module; cbn in Eu |- *. injection Eu as E1 E2.
    unfold module_untrack, body_untrack; cbn. f_equal; [exact E1|].
    rewrite !map_map. clear -E2. revert is' E2. induction is as [|a is IH]; intros [|b is'] E2; try discriminate; [reflexivity|].
    cbn in E2 |- *. injection E2 as E2 E3. f_equal; [f_equal; exact E2|]. exact (IH _ E3).
Qed.
Print Assumptions C72_module_comments.

(** C40, too, holds of texts with comments. *)
Lemma slashless_snoc V src c : ucd_ok V -> line_terminator c -> slashless V src -> slashless V (src ++ [c]).
Proof.
  intros HV hc (ts & e & k & (ops & T) & He & F).
  destruct (tiles_snoc _ _ _ _ _ _ _ c HV hc T ltac:(lia)) as (ts' & k' & T' & R).
  apply Forall2_app_inv_l in R as (a & r & Ra & R & ->). inversion R as [|? e' ? ? u R1]; subst. inversion R1; subst.
  exists a, e', k'. split; [exists ops; exact T'|]. apply up_eqv, up_value in u || apply up_value in u.
  split; [unfold at_eof in *; congruence|]. clear -Ra F. induction Ra as [|x y l l' v _ IH]; constructor.
  - apply Forall_inv in F as [F1 F2]. apply up_eqv, up_value in v || apply up_value in v. unfold regexp, slash in *.
    rewrite v in *. auto.
  - exact (IH (Forall_inv_tail F)).
Qed.
Lemma slashless_more V src nl : ucd_ok V -> Forall line_terminator nl -> slashless V src -> slashless V (src ++ nl).
Proof.
  intros HV F. revert src. induction F as [|c nl hc F IH]; intros src h; [rewrite app_nil_r; exact h|].
  change (c :: nl) with ([c] ++ nl). rewrite app_assoc. apply IH, slashless_snoc; assumption.
Qed.

(** Line terminators behind an accepted text, also behind [break] and the like. *)
Theorem C40_more_comments_partial : forall V src nl t, ucd_ok V -> Forall line_terminator nl -> slashless V src ->
  labels_differ (N_body t) ->
  (script_of V src = Ok t -> exists u, script_of V (src ++ nl) = Ok u /\ script_untrack u = script_untrack t)
  /\ (strict_of V src = Ok t -> exists u, strict_of V (src ++ nl) = Ok u /\ script_untrack u = script_untrack t)
  /\ (forall cs, program_of V src = Ok (Pg_Ambiguous cs t) ->
        exists cs' u, program_of V (src ++ nl) = Ok (Pg_Ambiguous cs' u) /\ script_untrack u = script_untrack t)
  /\ (module_of V src = Ok (as_module t) ->
        exists u, module_of V (src ++ nl) = Ok u /\ module_untrack u = module_untrack (as_module t)).
Proof.
  intros V src nl t HV F Hn Hl. pose proof (slashless_more _ _ _ HV F Hn) as Hn'. split; [|split; [|split]].
  - intros E. apply (C72_script_comments V (src ++ nl) t HV Hn' Hl).
    exists t. split; [|reflexivity]. apply begins_more; [exact HV|exact F|]. exact (C44_script V src t HV E).
  - intros E. apply (C72_strict_comments V (src ++ nl) t HV Hn' Hl).
    exists t. split; [|reflexivity]. apply begins_more; [exact HV|exact F|]. exact (C44_strict V src t HV E).
  - intros cs E. apply (C72_program_comments V (src ++ nl) t HV Hn' Hl).
    destruct (proj1 (C72_program_comments V src t HV Hn Hl) ltac:(exists cs, t; split; [exact E|reflexivity])) as (u & Hu & Eu).
    exists u. split; [|exact Eu]. apply consists_more; assumption.
  - intros E. apply (C72_module_comments V (src ++ nl) t HV Hn' Hl).
    destruct (proj1 (C72_module_comments V src t HV Hn Hl) ltac:(exists (as_module t); split; [exact E|reflexivity])) as (u & Hu & Eu).
    exists u. split; [|exact Eu]. apply consists_more; assumption.
Qed.
Print Assumptions C40_more_comments_partial.

Theorem C40_final_newline_comments_partial : forall V src nl t, ucd_ok V -> Forall line_terminator nl -> slashless V src ->
  labels_differ (N_body t) -> ~ open_ended V src ->
  ((exists u, script_of V (src ++ nl) = Ok u /\ script_untrack u = script_untrack t)
   <-> exists u, script_of V src = Ok u /\ script_untrack u = script_untrack t)
  /\ ((exists u, strict_of V (src ++ nl) = Ok u /\ script_untrack u = script_untrack t)
   <-> exists u, strict_of V src = Ok u /\ script_untrack u = script_untrack t)
  /\ ((exists cs u, program_of V (src ++ nl) = Ok (Pg_Ambiguous cs u) /\ script_untrack u = script_untrack t)
   <-> exists cs u, program_of V src = Ok (Pg_Ambiguous cs u) /\ script_untrack u = script_untrack t)
  /\ ((exists u, module_of V (src ++ nl) = Ok u /\ module_untrack u = module_untrack (as_module t))
   <-> exists u, module_of V src = Ok u /\ module_untrack u = module_untrack (as_module t)).
Proof.
  intros V src nl t HV F Hn Hl Hq. pose proof (slashless_more _ _ _ HV F Hn) as Hn'.
  rewrite !(C72_script_comments V _ t HV) by assumption. rewrite !(C72_strict_comments V _ t HV) by assumption.
  rewrite !(C72_program_comments V _ t HV) by assumption. rewrite !(C72_module_comments V _ t HV) by assumption.
  split; [|split; [|split]]; split; intros (u & h & E); exists u; (split; [|exact E]);
    first [exact (begins_less _ _ _ _ HV F _ Hq h) | exact (consists_less _ _ _ _ HV F _ Hq h)
          | exact (begins_more _ _ _ _ HV F _ h) | exact (consists_more _ _ _ _ HV F _ h)].
Qed.
Print Assumptions C40_final_newline_comments_partial.

(** Texts without any slash are among these texts. *)
Lemma no_slash_slashless V src ts e k : ~ In (N_of_ascii "/") src -> reads V src (ts ++ [e]) k -> at_eof e -> slashless V src.
Proof.
  intros Hn (ops & T) He. exists ts, e, k. split; [exists ops; exact T|]. split; [exact He|].
  pose proof (tiles_no_slash _ _ _ _ _ _ _ T Hn) as F. apply Forall_app in F as [F _]. exact F.
Qed.

(** Texts with comments, in which the exactness above applies and that of [PropExact]
    does not. *)
Definition commented : str := lit "a = b /* c */ - '/';" ++ [10%N] ++ lit "// d" ++ [10%N] ++ lit "e".
Example C72_comments_example : slashless env_ascii commented /\ In (N_of_ascii "/") commented
  /\ ~ open_ended env_ascii commented
  /\ exists t, script_of env_ascii commented = Ok t /\ length (bo_items t) = 2 /\ labels_differ (N_body t).
Proof.
  split; [|split; [vm_compute; tauto|split; [apply not_open; vm_compute; reflexivity|]]].
  2:{ eexists. split; [vm_compute; reflexivity|]. split; [reflexivity|].
      match goal with |- labels_differ ?n => assert (h : L nothing n); [labels|destruct h as [h]; exact h] end. }
  assert (exists ts x, read_tokens env_ascii (repeat false 8) (lexer_new commented) = Ok (ts, x)
    /\ exists a e, ts = a ++ [e] /\ at_eof e /\ Forall (fun t => ~ regexp t /\ ~ slash t) a) as (ts & x & H & a & e & -> & He & F).
  { eexists _, _. split; [vm_compute; reflexivity|].
    eexists [_; _; _; _; _; _; _], _. split; [reflexivity|]. split; [reflexivity|].
    repeat constructor; try (intros (r & K); discriminate K); intros K; cbn in K; decompose sum K; discriminate. }
  destruct (proj1 (read_exact env_ascii commented _ _ ucd_ok_ascii) ltac:(eexists; exact H)) as (k & Hk).
  exists a, e, k. split; [eexists; exact Hk|]. auto.
Qed.
