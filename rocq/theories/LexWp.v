(** Proof rules for the reading functions of the lexer. *)
From Coq Require Import String Ascii List NArith Arith Bool Lia.
From Verif Require Import Base Chars Token Reader Lexer Wp SpecReader ReaderProofs SpecLexer.
Import ListNotations.
Local Open Scope nat_scope.

(** [took r w r']: the reader moved from [r] to [r'] over the text [w]. *)
Definition took (r : rd) (w : str) (r' : rd) : Prop :=
  rest r = w ++ rest r' /\ pos r' = advance_all (pos r) w (rest r').

Lemma advance_all_app : forall w1 w2 p tl,
  advance_all p (w1 ++ w2) tl = advance_all (advance_all p w1 (w2 ++ tl)) w2 tl.
Proof.
  induction w1 as [|c w1 IH]; intros w2 p tl; cbn [app advance_all]; [reflexivity|].
  rewrite IH, <- app_assoc. reflexivity.
Qed.

Lemma took_nil : forall r, took r [] r.
Proof. intros r. split; reflexivity. Qed.

Lemma took_trans : forall r1 w1 r2 w2 r3, took r1 w1 r2 -> took r2 w2 r3 -> took r1 (w1 ++ w2) r3.
Proof.
  intros r1 w1 r2 w2 r3 [H1 P1] [H2 P2]. split.
  - rewrite H1, H2. apply app_assoc.
  - rewrite P2, P1, advance_all_app, H2. reflexivity.
Qed.

Lemma took_one : forall c l p, took (Rd (c :: l) p) [c] (Rd l (advance p c (hd_error l))).
Proof. intros. split; reflexivity. Qed.

Lemma took_rest : forall r w r', took r w r' -> rest r = w ++ rest r'.
Proof. intros r w r' [H _]; exact H. Qed.

Lemma took_length : forall r w r', took r w r' -> length (rest r) = length w + length (rest r').
Proof. intros r w r' H. rewrite (took_rest _ _ _ H), app_length. reflexivity. Qed.

(** The text at the head of the reader satisfies nothing in [pred]. *)
Definition stopped (pred : N -> bool) (r : rd) : Prop :=
  match rest r with [] => True | c :: _ => pred c = true end.

Section Rules.
Context {X : lex_error -> Prop} {K : panic -> Prop}.

Lemma wp_read r c l (Q : N -> rd -> Prop) :
  rest r = c :: l -> (forall r', took r [c] r' -> rest r' = l -> Q c r') -> wp lx_read r Q X K.
Proof.
  intros Hr HQ. unfold wp, lx_read. rewrite Hr. apply HQ; [|reflexivity].
  destruct r as [l0 p]; cbn [rest pos] in *. subst. apply took_one.
Qed.

Lemma wp_skip r c l (Q : unit -> rd -> Prop) :
  rest r = c :: l -> (forall r', took r [c] r' -> rest r' = l -> Q tt r') -> wp lx_skip r Q X K.
Proof.
  intros Hr HQ. unfold lx_skip. apply wp_bind. eapply wp_read; [exact Hr|].
  intros r' T R. apply wp_ret. auto.
Qed.

Lemma wp_peek r (Q : option N -> rd -> Prop) : Q (hd_error (rest r)) r -> wp lx_peek r Q X K.
Proof. intros H; exact H. Qed.

Lemma wp_peek_at n r (Q : option N -> rd -> Prop) :
  Q (nth_error (rest r) n) r -> wp (lx_peek_at n) r Q X K.
Proof. intros H; exact H. Qed.

Lemma wp_posn r (Q : posn -> rd -> Prop) : Q (pos r) r -> wp lx_posn r Q X K.
Proof. intros H; exact H. Qed.

Lemma wp_reread r c l (Q : N -> rd -> Prop) :
  rest r = c :: l -> (forall r', took r [c] r' -> rest r' = l -> Q c r') ->
  wp (lx_reread c) r Q X K.
Proof.
  intros Hr HQ. unfold lx_reread. apply wp_bind, wp_peek. rewrite Hr. cbn [hd_error].
  rewrite N.eqb_refl. apply wp_bind. eapply wp_skip; [exact Hr|].
  intros r' T R. apply wp_ret. auto.
Qed.

Lemma wp_skip2 r c d l (Q : unit -> rd -> Prop) :
  rest r = c :: d :: l -> (forall r', took r [c; d] r' -> rest r' = l -> Q tt r') ->
  wp lx_skip2 r Q X K.
Proof.
  intros Hr HQ. unfold lx_skip2. apply wp_bind. eapply wp_skip; [exact Hr|].
  intros r1 T1 R1. eapply wp_skip; [exact R1|]. intros r2 T2 R2.
  apply HQ; [|exact R2]. exact (took_trans _ _ _ _ _ T1 T2).
Qed.

Lemma wp_skip_n : forall w r l (Q : unit -> rd -> Prop),
  rest r = w ++ l -> (forall r', took r w r' -> rest r' = l -> Q tt r') ->
  wp (lx_skip_n (length w)) r Q X K.
Proof.
  induction w as [|c w IH]; intros r l Q Hr HQ; cbn [lx_skip_n length].
  - apply wp_ret. apply HQ; [apply took_nil|exact Hr].
  - apply wp_bind. eapply wp_skip; [exact Hr|]. intros r1 T1 R1.
    eapply IH; [exact R1|]. intros r2 T2 R2. apply HQ; [|exact R2].
    exact (took_trans _ _ _ _ _ T1 T2).
Qed.

Lemma wp_matches ch r (Q : bool -> rd -> Prop) :
  (forall l r', rest r = ch :: l -> took r [ch] r' -> rest r' = l -> Q true r') ->
  (is_c (hd_error (rest r)) ch = false -> Q false r) ->
  wp (lx_matches ch) r Q X K.
Proof.
  intros HT HF. unfold lx_matches. apply wp_bind, wp_peek.
  destruct (is_c (hd_error (rest r)) ch) eqn:Hc.
  - destruct (rest r) as [|c l] eqn:Hr; [discriminate|]. cbn in Hc.
    apply N.eqb_eq in Hc; subst c.
    apply wp_bind. eapply wp_skip; [exact Hr|]. intros r' T R. apply wp_ret. eapply HT; eauto.
  - apply wp_ret. auto.
Qed.

Lemma skip_until_from_spec : forall pred l p,
  exists w, took (Rd l p) w (skip_until_from pred l p)
            /\ Forall (fun c => pred c = false) w
            /\ stopped pred (skip_until_from pred l p).
Proof.
  intros pred. induction l as [|c l IH]; intros p; cbn [skip_until_from].
  - exists []. split; [apply took_nil|]. split; [constructor|exact I].
  - destruct (pred c) eqn:Hc.
    + exists []. split; [apply took_nil|]. split; [constructor|exact Hc].
    + destruct (IH (advance p c (hd_error l))) as (w & T & F & S).
      exists (c :: w). split; [|split; [constructor; assumption|exact S]].
      exact (took_trans _ [c] _ _ _ (took_one c l p) T).
Qed.

Lemma wp_skip_until pred r (Q : unit -> rd -> Prop) :
  (forall w r', took r w r' -> Forall (fun c => pred c = false) w -> stopped pred r' -> Q tt r') ->
  wp (lx_skip_until pred) r Q X K.
Proof.
  intros HQ. unfold lx_skip_until. apply wp_modify.
  destruct (skip_until_from_spec pred (rest r) (pos r)) as (w & T & F & S).
  destruct r as [l p]. eapply HQ; eauto.
Qed.

Lemma read_until_from_spec : forall pred l p w r',
  read_until_from pred l p = (w, r') ->
  took (Rd l p) w r' /\ Forall (fun c => pred c = false) w /\ stopped pred r'.
Proof.
  intros pred. induction l as [|c l IH]; intros p w r'; cbn [read_until_from].
  - intros H; injection H as <- <-. split; [apply took_nil|]. split; [constructor|exact I].
  - destruct (pred c) eqn:Hc.
    + intros H; injection H as <- <-. split; [apply took_nil|]. split; [constructor|exact Hc].
    + destruct (read_until_from pred l (advance p c (hd_error l))) as [w0 r0] eqn:Hr.
      intros H; injection H as <- <-. apply IH in Hr as (T & F & S).
      split; [|split; [constructor; assumption|exact S]].
      exact (took_trans _ [c] _ _ _ (took_one c l p) T).
Qed.

Lemma wp_read_until pred r (Q : str -> rd -> Prop) :
  (forall w r', took r w r' -> Forall (fun c => pred c = false) w -> stopped pred r' -> Q w r') ->
  wp (lx_read_until pred) r Q X K.
Proof.
  intros HQ. unfold wp, lx_read_until.
  destruct (read_until_from pred (rest r) (pos r)) as [w r'] eqn:Hr.
  apply read_until_from_spec in Hr as (T & F & S). destruct r as [l p]. eapply HQ; eauto.
Qed.

Lemma wp_until_with {A} pred (read : A -> LM A) (I : A -> rd -> Prop) (Q : A -> rd -> Prop) :
  (forall a r c l, I a r -> rest r = c :: l -> pred c = false ->
     wp (read a) r (fun a' r' => I a' r' /\ length (rest r') < length (rest r)) X K) ->
  (forall a r, I a r -> stopped pred r -> Q a r) ->
  forall a r, I a r -> wp (lx_read_until_with pred read a) r Q X K.
Proof.
  intros Hb Hstop a r HI. unfold lx_read_until_with.
  refine (wp_self X K (fun r0 => loopM (S (length (rest r0))) _ a) r Q _).
  refine (wp_loop _ _ _ I (fun _ r => length (rest r)) Q _ _ _ _ HI _); [|lia].
  clear a r HI. intros a r HI. apply wp_bind, wp_peek.
  destruct (rest r) as [|c l] eqn:Hr; cbn [hd_error].
  - apply wp_ret. apply Hstop; [exact HI|]. unfold stopped. rewrite Hr. exact Logic.I.
  - destruct (pred c) eqn:Hc.
    + apply wp_ret. apply Hstop; [exact HI|]. unfold stopped. rewrite Hr. exact Hc.
    + apply wp_bind. eapply wp_conseq; [eapply Hb; eauto|].
      intros a' r' [HI' Hlt]. apply wp_ret. split; [exact HI'|].
      cbn [length] in *. rewrite Hr in Hlt. cbn [length] in Hlt. exact Hlt.
Qed.
End Rules.

Lemma is_c_true : forall o c, is_c o c = true -> o = Some c.
Proof. intros [x|] c; cbn; [|discriminate]. intros H; apply N.eqb_eq in H; subst; reflexivity. Qed.

Lemma hd_cons : forall (l : str) c, hd_error l = Some c -> exists l', l = c :: l'.
Proof. intros [|x l] c; cbn; intros H; [discriminate|]. injection H as ->. eauto. Qed.

(** ** Boolean tests and the specification's predicates *)

Local Open Scope N_scope.

Lemma line_terminator_iff : forall c, is_es_newline c = true <-> line_terminator c.
Proof.
  intros c. unfold is_es_newline, line_terminator. cbn [In].
  rewrite !orb_true_iff, !N.eqb_eq. intuition congruence.
Qed.
Lemma line_terminator_false : forall c, is_es_newline c = false <-> ~ line_terminator c.
Proof. intros c. rewrite <- line_terminator_iff. destruct (is_es_newline c); intuition congruence. Qed.

Lemma white_space_iff : forall c, is_es_whitespace c = true <-> white_space c.
Proof.
  intros c. unfold is_es_whitespace, white_space, es_white_space. cbn [In].
  rewrite !orb_true_iff, !N.eqb_eq. intuition (subst; try discriminate; try tauto; congruence).
Qed.
Lemma white_space_false : forall c, is_es_whitespace c = false <-> ~ white_space c.
Proof. intros c. rewrite <- white_space_iff. destruct (is_es_whitespace c); intuition congruence. Qed.

Lemma between_iff : forall lo c hi, between lo c hi = true <-> in_range lo hi c.
Proof. intros. unfold between, in_range. rewrite andb_true_iff, !N.leb_le. reflexivity. Qed.

Lemma dec_digit_iff : forall c, is_es_dec_digit c = true <-> dec_digit c.
Proof. intros c. apply between_iff. Qed.
Lemma dec_digit_false : forall c, is_es_dec_digit c = false <-> ~ dec_digit c.
Proof. intros c. rewrite <- dec_digit_iff. destruct (is_es_dec_digit c); intuition congruence. Qed.
Lemma oct_digit_iff : forall c, is_es_oct_digit c = true <-> oct_digit c.
Proof. intros c. apply between_iff. Qed.
Lemma oct_digit_false : forall c, is_es_oct_digit c = false <-> ~ oct_digit c.
Proof. intros c. rewrite <- oct_digit_iff. destruct (is_es_oct_digit c); intuition congruence. Qed.
Lemma bin_digit_iff : forall c, is_es_bin_digit c = true <-> bin_digit c.
Proof.
  intros c. unfold is_es_bin_digit, bin_digit, in_range. rewrite orb_true_iff, !N.eqb_eq. lia.
Qed.
Lemma hex_digit_iff : forall c, is_es_hex_digit c = true <-> hex_digit c.
Proof.
  intros c. unfold is_es_hex_digit, hex_digit. rewrite !orb_true_iff, !between_iff. tauto.
Qed.
Lemma id_start_iff : forall V c, is_es_identifier_start V c = true <-> id_start V c.
Proof.
  intros V c. unfold is_es_identifier_start, id_start. rewrite !orb_true_iff, !N.eqb_eq.
  change (chr "$") with 36. change (chr "_") with 95. tauto.
Qed.
Lemma id_start_false : forall V c, is_es_identifier_start V c = false <-> ~ id_start V c.
Proof. intros V c. rewrite <- id_start_iff. destruct (is_es_identifier_start V c); intuition congruence. Qed.
Lemma id_part_iff : forall V c, is_es_identifier_continue V c = true <-> id_part V c.
Proof.
  intros V c. unfold is_es_identifier_continue, id_part. rewrite !orb_true_iff, !N.eqb_eq.
  change (chr "$") with 36. change (chr "_") with 95. tauto.
Qed.
Lemma id_part_false : forall V c, is_es_identifier_continue V c = false <-> ~ id_part V c.
Proof. intros V c. rewrite <- id_part_iff. destruct (is_es_identifier_continue V c); intuition congruence. Qed.

Lemma to_digit_hex : forall c, hex_digit c -> to_digit c 16 = Some (digit_value c).
Proof.
  intros c H. unfold to_digit, digit_value, between. unfold hex_digit, in_range in H.
  destruct H as [[H1 H2]|[[H1 H2]|[H1 H2]]].
  - replace (48 <=? c) with true by (symmetry; apply N.leb_le; lia).
    replace (c <=? 57) with true by (symmetry; apply N.leb_le; lia). cbn [andb].
    replace (c - 48 <? 16) with true by (symmetry; apply N.ltb_lt; lia). reflexivity.
  - replace (c <=? 57) with false by (symmetry; apply N.leb_gt; lia). rewrite andb_false_r.
    replace (97 <=? c) with true by (symmetry; apply N.leb_le; lia).
    replace (c <=? 122) with true by (symmetry; apply N.leb_le; lia). cbn [andb].
    replace (c <=? 70) with false by (symmetry; apply N.leb_gt; lia).
    replace (c - 87 <? 16) with true by (symmetry; apply N.ltb_lt; lia). reflexivity.
  - replace (c <=? 57) with false by (symmetry; apply N.leb_gt; lia). rewrite andb_false_r.
    replace (97 <=? c) with false by (symmetry; apply N.leb_gt; lia). cbn [andb].
    replace (65 <=? c) with true by (symmetry; apply N.leb_le; lia).
    replace (c <=? 90) with true by (symmetry; apply N.leb_le; lia). cbn [andb].
    replace (c <=? 70) with true by (symmetry; apply N.leb_le; lia).
    replace (c - 55 <? 16) with true by (symmetry; apply N.ltb_lt; lia). reflexivity.
Qed.

Lemma to_digit_low : forall c base, base <= 10 -> in_range 48 (47 + base) c ->
  to_digit c base = Some (digit_value c).
Proof.
  intros c base Hb [H1 H2]. unfold to_digit, digit_value, between.
  replace (48 <=? c) with true by (symmetry; apply N.leb_le; lia).
  replace (c <=? 57) with true by (symmetry; apply N.leb_le; lia). cbn [andb].
  replace (c - 48 <? base) with true by (symmetry; apply N.ltb_lt; lia). reflexivity.
Qed.
Lemma to_digit_oct : forall c, oct_digit c -> to_digit c 8 = Some (digit_value c).
Proof. intros c H. apply to_digit_low; [lia|exact H]. Qed.
Lemma to_digit_bin : forall c, bin_digit c -> to_digit c 2 = Some (digit_value c).
Proof. intros c H. apply to_digit_low; [lia|exact H]. Qed.
Lemma digit_value_hex : forall c, hex_digit c -> digit_value c < 16.
Proof.
  intros c H. unfold digit_value. unfold hex_digit, in_range in H.
  destruct (c <=? 57) eqn:E1; [apply N.leb_le in E1|apply N.leb_gt in E1]; [lia|].
  destruct (c <=? 70) eqn:E2; [apply N.leb_le in E2|apply N.leb_gt in E2]; lia.
Qed.
Lemma digit_value_oct : forall c, oct_digit c -> digit_value c < 8.
Proof.
  intros c [H1 H2]. unfold digit_value. rewrite (proj2 (N.leb_le c 57)) by lia. lia.
Qed.

Lemma digits_value_app : forall base a b,
  digits_value base (a ++ b) = fold_left (fun acc d => acc * base + digit_value d) b (digits_value base a).
Proof. intros. unfold digits_value. apply fold_left_app. Qed.
Lemma digits_value_snoc : forall base a c,
  digits_value base (a ++ [c]) = digits_value base a * base + digit_value c.
Proof. intros. rewrite digits_value_app. reflexivity. Qed.

Lemma from_u32_scalar : forall n, from_u32 n = Some n /\ scalar n \/ from_u32 n = None /\ ~ scalar n.
Proof.
  intros n. unfold from_u32, scalar.
  destruct ((n <? 55296) || between 57344 n 1114111) eqn:E.
  - left. split; [reflexivity|]. apply orb_true_iff in E as [E|E].
    + apply N.ltb_lt in E. lia.
    + apply between_iff in E. unfold in_range in E. lia.
  - right. split; [reflexivity|]. apply orb_false_iff in E as [E1 E2].
    apply N.ltb_ge in E1. intros [H|H]; [lia|].
    apply (proj2 (between_iff _ _ _)) in H. congruence.
Qed.
