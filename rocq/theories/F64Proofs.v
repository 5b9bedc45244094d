(** Rounding of integers below 2^53 is exact. *)
From Coq Require Import String Ascii List NArith ZArith Arith Bool Lia.
From Verif Require Import Base Chars F64 Token LexClient SpecLexer LexWp LexTheorems.
Import ListNotations.
Local Open Scope N_scope.

Lemma round_half_even_exact : forall q d, 0 < d -> round_half_even (q * d) d = q.
Proof.
  intros q d Hd. unfold round_half_even. rewrite N.div_mul, N.mod_mul by lia.
  rewrite N.mul_0_r. destruct (N.compare_spec 0 d); lia.
Qed.

Lemma log2_pow_mul : forall n p, 0 < n -> N.log2 (n * 2 ^ p) = p + N.log2 n.
Proof. intros n p H. apply N.log2_mul_pow2; lia. Qed.

Lemma round_pos_exact : forall n p, n < 2 ^ 53 ->
  exists m e, round_pos false (n * 2 ^ p) (2 ^ p) = FFin false m e
    /\ (e <= 0)%Z /\ m = n * 2 ^ Z.to_N (- e).
Proof.
  intros n p Hn. assert (Hp : 2 ^ p <> 0) by (apply N.pow_nonzero; lia).
  unfold round_pos. destruct (N.eqb_spec (n * 2 ^ p) 0) as [E|E].
  - assert (n = 0) by nia. subst. exists 0, 0%Z. split; [reflexivity|]. split; [lia|]. reflexivity.
  - assert (Hn0 : 0 < n) by nia.
    rewrite log2_pow_mul by lia. rewrite N.log2_pow2 by lia.
    destruct (N.log2_spec n Hn0) as [HL1 HL2].
    assert (HL : N.log2 n <= 52).
    { destruct (N.le_gt_cases (N.log2 n) 52) as [H|H]; [exact H|].
      assert (2 ^ 53 <= 2 ^ N.log2 n) by (apply N.pow_le_mono_r; lia). lia. }
    set (L := N.log2 n) in *. set (k := 52 - L).
    replace (Z.of_N (p + L) - Z.of_N p - 52)%Z with (- Z.of_N k)%Z by (unfold k; lia).
    assert (Hsc : scale (n * 2 ^ p) (2 ^ p) (- Z.of_N k) = (n * 2 ^ k * 2 ^ p, 2 ^ p)).
    { unfold scale. destruct k as [|kk]; cbn [Z.of_N Z.opp].
      - rewrite N.pow_0_r, N.mul_1_r. reflexivity.
      - f_equal. lia. }
    rewrite Hsc. rewrite N.div_mul by exact Hp.
    assert (Hlo : two52 <= n * 2 ^ k).
    { change two52 with (2 ^ 52). replace 52 with (L + k) by (unfold k; lia).
      rewrite N.pow_add_r. apply N.mul_le_mono_r. exact HL1. }
    assert (Hhi : n * 2 ^ k < two53).
    { change two53 with (2 ^ 53). replace 53 with (N.succ L + k) by (unfold k; lia).
      rewrite N.pow_add_r. apply N.mul_lt_mono_pos_r; [|exact HL2].
      apply N.neq_0_lt_0, N.pow_nonzero; lia. }
    destruct (N.ltb_spec (n * 2 ^ k) two52) as [H|_]; [lia|].
    rewrite Z.max_l by (unfold k; lia). rewrite Hsc, round_half_even_exact by lia.
    destruct (N.eqb_spec (n * 2 ^ k) two53) as [H|_]; [lia|].
    destruct (Z.ltb_spec 971 (- Z.of_N k)) as [H|_]; [lia|].
    exists (n * 2 ^ k), (- Z.of_N k)%Z. split; [reflexivity|]. split; [lia|].
    rewrite Z.opp_involutive, N2Z.id. reflexivity.
Qed.

Lemma round_pos_is : forall n p, n < 2 ^ 53 -> f64_is (round_pos false (n * 2 ^ p) (2 ^ p)) n.
Proof.
  intros n p H. destruct (round_pos_exact n p H) as (m & e & -> & He & ->).
  exists (n * 2 ^ Z.to_N (- e)), e. split; [reflexivity|]. destruct e as [|e|e]; [|lia|].
  - cbn. lia.
  - reflexivity.
Qed.
Lemma f64_of_N_is : forall n, n < 2 ^ 53 -> f64_is (round_pos false n 1) n.
Proof.
  intros n H. pose proof (round_pos_is n 0 H) as H1. rewrite N.pow_0_r, N.mul_1_r in H1. exact H1.
Qed.

Lemma fma_is : forall v n mult d, f64_is v n -> n * mult + d < 2 ^ 53 ->
  f64_is (fma_nat v mult d) (n * mult + d).
Proof.
  intros v n mult d (m & e & -> & He) Hlt. unfold fma_nat. destruct e as [|e|e].
  - subst n. cbn [Z.to_N]. apply f64_of_N_is. exact Hlt.
  - subst n. apply f64_of_N_is. exact Hlt.
  - subst m. replace (n * 2 ^ N.pos e * mult + d * 2 ^ N.pos e) with ((n * mult + d) * 2 ^ N.pos e) by lia.
    apply round_pos_is. exact Hlt.
Qed.

Lemma digits_from_ge : forall base ds a, 1 <= base ->
  a <= fold_left (fun acc d => acc * base + digit_value d) ds a.
Proof.
  intros base ds. induction ds as [|d ds IH]; intros a Hb; cbn [fold_left]; [lia|].
  specialize (IH (a * base + digit_value d) Hb). nia.
Qed.

Lemma radix_fold_is : forall (P : N -> Prop) base ds v n, 1 <= base ->
  (forall c, P c -> to_digit c base = Some (digit_value c)) -> Forall P ds -> f64_is v n ->
  fold_left (fun acc d => acc * base + digit_value d) ds n < 2 ^ 53 ->
  exists v', radix_fold base ds v = Some v'
             /\ f64_is v' (fold_left (fun acc d => acc * base + digit_value d) ds n).
Proof.
  intros P base ds. induction ds as [|d ds IH]; intros v n Hb HP Hds Hv Hlt; cbn [fold_left radix_fold] in *.
  - exists v. auto.
  - inversion Hds as [|? ? Hd Hds']; subst. rewrite (HP d Hd).
    apply IH; auto. apply fma_is; [exact Hv|].
    pose proof (digits_from_ge base ds (n * base + digit_value d) Hb). lia.
Qed.

Lemma dec_digits_value : forall ds, Forall dec_digit ds -> dec_value ds = digits_value 10 ds.
Proof.
  intros ds H. unfold dec_value, digits_value. generalize 0. induction H as [|d ds Hd _ IH]; intros a;
    cbn [fold_left]; [reflexivity|]. rewrite IH. f_equal. unfold digit_value.
  destruct Hd. destruct (N.leb_spec d 57); lia.
Qed.

Theorem integer_exact : forall s n, number_ok s -> integer_value s = Some n -> n < 2 ^ 53 ->
  exists v, number_value s = Some v /\ f64_is v n.
Proof.
  intros s n Hok Hi Hlt. destruct s as [m [e|]|r ds|ip fp e]; try discriminate; injection Hi as <-.
  - destruct Hok as ((Hm & Hd) & _). cbn [number_value]. unfold parse_f64. rewrite app_nil_r.
    destruct m as [|c m]; [congruence|]. eexists. split; [reflexivity|].
    change (Z.of_N (dec_value []) - Z.of_nat (length (@nil N)))%Z with 0%Z.
    rewrite (dec_digits_value _ Hd). change (10 ^ Z.to_N 0) with 1. rewrite N.mul_1_r. apply f64_of_N_is. exact Hlt.
  - assert (H0 : f64_is (FFin false 0 0) 0) by (exists 0, 0%Z; split; reflexivity).
    cbn [number_value]. unfold digits_value in *.
    destruct r as [cc|[cc|]|cc]; cbn [radix_value radix_base] in *.
    + apply (radix_fold_is bin_digit); auto; [lia|apply to_digit_bin|apply Hok].
    + apply (radix_fold_is oct_digit); auto; [lia|apply to_digit_oct|apply Hok].
    + apply (radix_fold_is oct_digit); auto; [lia|apply to_digit_oct|].
      destruct Hok as (ds' & -> & _ & Hd). constructor; [|exact Hd]. unfold oct_digit, in_range, chr. cbn. lia.
    + apply (radix_fold_is hex_digit); auto; [lia|apply to_digit_hex|apply Hok].
Qed.

Theorem integer_token_exact : forall V src t n s v, ucd_ok V -> delivers V src t ->
  tk_value t = TNumber n -> num_source n = Some s -> integer_value s = Some v -> v < 2 ^ 53 ->
  f64_is (num_value n) v.
Proof.
  intros V src t n s v HV Hd Ht Hs Hi Hlt.
  destruct (number_lossless V src t n HV Hd Ht) as (s' & Hs' & Hok & _ & Hv).
  rewrite Hs in Hs'. injection Hs' as <-.
  destruct (integer_exact s v Hok Hi Hlt) as (v' & Hv' & Hf). congruence.
Qed.
