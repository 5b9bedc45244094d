(** Rounding: integers that are doubles are kept, and the double chosen for a rational
    is the nearest one. *)
From Coq Require Import String Ascii List NArith ZArith Arith Bool Lia.
From Verif Require Import Base Chars F64 Token LexClient SpecLexer SpecNumber LexWp LexTheorems F64Proofs.
Import ListNotations.
Local Open Scope N_scope.

Lemma pow2_nz n : 2 ^ n <> 0.
Proof. apply N.pow_nonzero. lia. Qed.

Lemma is_double_floor n j : is_double n -> is_double (n / 2 ^ j).
Proof.
  intros (m & k & -> & Hm & Hlt). pose proof (pow2_nz j) as Hj. destruct (N.le_gt_cases j k) as [H|H].
  - assert (E : m * 2 ^ k / 2 ^ j = m * 2 ^ (k - j)).
    { replace k with (k - j + j) at 1 by lia. rewrite N.pow_add_r, N.mul_assoc, N.div_mul by exact Hj. reflexivity. }
    rewrite E. exists m, (k - j). split; [reflexivity|]. split; [exact Hm|].
    eapply N.le_lt_trans; [|exact Hlt]. apply N.mul_le_mono_l, N.pow_le_mono_r; lia.
  - assert (E : m * 2 ^ k / 2 ^ j = m / 2 ^ (j - k)).
    { replace j with (j - k + k) at 1 by lia. rewrite N.pow_add_r, N.div_mul_cancel_r by apply pow2_nz. reflexivity. }
    rewrite E. exists (m / 2 ^ (j - k)), 0. rewrite N.pow_0_r, N.mul_1_r.
    assert (m / 2 ^ (j - k) <= m) by (apply N.div_le_upper_bound; [apply pow2_nz|]; pose proof (pow2_nz (j - k)); nia).
    split; [reflexivity|]. split; [lia|].
    assert (2 ^ 53 <= 2 ^ 1024) by (apply N.pow_le_mono_r; lia). lia.
Qed.

Lemma round_double : forall n p, is_double n -> f64_is (round_pos false (n * 2 ^ p) (2 ^ p)) n.
Proof.
  intros n p Hd. destruct (N.lt_ge_cases n (2 ^ 53)) as [Hn|Hn]; [apply round_pos_is, Hn|].
  destruct Hd as (m & k & E & Hm & Hlt). pose proof (pow2_nz p) as Hp. pose proof (pow2_nz k) as Hk.
  assert (Hn0 : 0 < n) by lia. assert (Hm0 : 0 < m) by nia.
  unfold round_pos. destruct (N.eqb_spec (n * 2 ^ p) 0) as [X|_]; [nia|].
  rewrite log2_pow_mul by lia. rewrite N.log2_pow2 by lia.
  assert (HLm : N.log2 m <= 52).
  { destruct (N.le_gt_cases (N.log2 m) 52) as [H|H]; [exact H|].
    destruct (N.log2_spec m Hm0). assert (2 ^ 53 <= 2 ^ N.log2 m) by (apply N.pow_le_mono_r; lia). lia. }
  assert (HL : N.log2 n = k + N.log2 m) by (rewrite E; apply log2_pow_mul; exact Hm0).
  destruct (N.log2_spec n Hn0) as [HL1 HL2].
  assert (HL53 : 53 <= N.log2 n).
  { destruct (N.le_gt_cases 53 (N.log2 n)) as [H|H]; [exact H|].
    assert (2 ^ N.succ (N.log2 n) <= 2 ^ 53) by (apply N.pow_le_mono_r; lia). lia. }
  assert (HL1023 : N.log2 n < 1024) by (apply N.log2_lt_pow2; lia).
  set (L := N.log2 n) in *.
  assert (Hj : exists j, L = j + 52 /\ 1 <= j <= 971) by (exists (L - 52); lia).
  destruct Hj as (j & HLj & Hj1). clearbody L. rewrite HLj in *. clear HLj L.
  replace (Z.of_N (p + (j + 52)) - Z.of_N p - 52)%Z with (Z.of_N j) by lia.
  assert (Hjk : j <= k) by lia.
  set (q := m * 2 ^ (k - j)).
  assert (Eq : n = q * 2 ^ j).
  { unfold q. rewrite E, <- N.mul_assoc, <- N.pow_add_r. do 2 f_equal. lia. }
  clearbody q. pose proof (pow2_nz j) as Hj.
  assert (Hsc : scale (n * 2 ^ p) (2 ^ p) (Z.of_N j) = (q * (2 ^ p * 2 ^ j), 2 ^ p * 2 ^ j)).
  { unfold scale. rewrite Eq. destruct j as [|jj]; [lia|]. cbn [Z.of_N]. f_equal. lia. }
  rewrite Hsc. rewrite N.div_mul by nia.
  assert (Hlo : two52 <= q).
  { change two52 with (2 ^ 52). apply (N.mul_le_mono_pos_r _ _ (2 ^ j)); [lia|].
    rewrite <- Eq, <- N.pow_add_r. replace (52 + j) with (j + 52) by lia. exact HL1. }
  assert (Hhi : q < two53).
  { change two53 with (2 ^ 53). apply (N.mul_lt_mono_pos_r (2 ^ j)); [lia|].
    rewrite <- Eq, <- N.pow_add_r. replace (53 + j) with (N.succ (j + 52)) by lia. exact HL2. }
  destruct (N.ltb_spec q two52) as [H|_]; [lia|].
  rewrite Z.max_l by lia. rewrite Hsc, round_half_even_exact by nia.
  destruct (N.eqb_spec q two53) as [H|_]; [lia|].
  destruct (Z.ltb_spec 971 (Z.of_N j)) as [H|_]; [lia|].
  exists q, (Z.of_N j). split; [reflexivity|]. rewrite Eq.
  destruct j as [|jj]; [lia|]. cbn [Z.of_N Z.to_N]. reflexivity.
Qed.
Lemma round_double1 n : is_double n -> f64_is (round_pos false n 1) n.
Proof. intros H. pose proof (round_double n 0 H) as H1. rewrite N.pow_0_r, N.mul_1_r in H1. exact H1. Qed.

Lemma fma_double : forall v n mult d, f64_is v n -> is_double (n * mult + d) -> f64_is (fma_nat v mult d) (n * mult + d).
Proof.
  intros v n mult d (m & e & -> & He) Hd. unfold fma_nat. destruct e as [|e|e].
  - subst n. cbn [Z.to_N]. apply round_double1. exact Hd.
  - subst n. apply round_double1. exact Hd.
  - subst m. replace (n * 2 ^ N.pos e * mult + d * 2 ^ N.pos e) with ((n * mult + d) * 2 ^ N.pos e) by lia.
    apply round_double. exact Hd.
Qed.

Section Fold.
Variables (base b : N) (P : N -> Prop).
Hypothesis Hbase : base = 2 ^ b.
Hypothesis HP : forall c, P c -> to_digit c base = Some (digit_value c) /\ digit_value c < base.
Lemma fold_split ds a : Forall P ds -> exists r,
  fold_left (fun acc d => acc * base + digit_value d) ds a = a * 2 ^ (b * N.of_nat (length ds)) + r
  /\ r < 2 ^ (b * N.of_nat (length ds)).
Proof.
  intros H. revert a. induction H as [|d ds Hd _ IH]; intros a; cbn [fold_left length].
  - exists 0. rewrite N.mul_0_r, N.pow_0_r. lia.
  - destruct (IH (a * base + digit_value d)) as (r & -> & Hr). destruct (HP d Hd) as [_ Hlt].
    exists (digit_value d * 2 ^ (b * N.of_nat (length ds)) + r).
    replace (b * N.of_nat (S (length ds))) with (b + b * N.of_nat (length ds)) by lia.
    rewrite N.pow_add_r, <- Hbase. split; nia.
Qed.
Lemma radix_fold_double ds v n : Forall P ds -> f64_is v n ->
  is_double (fold_left (fun acc d => acc * base + digit_value d) ds n) ->
  exists v', radix_fold base ds v = Some v'
             /\ f64_is v' (fold_left (fun acc d => acc * base + digit_value d) ds n).
Proof.
  intros H. revert v n. induction H as [|d ds Hd Hds IH]; intros v n Hv Hr; cbn [fold_left radix_fold] in *.
  - exists v. auto.
  - rewrite (proj1 (HP d Hd)). apply IH; [|exact Hr]. apply fma_double; [exact Hv|].
    destruct (fold_split ds (n * base + digit_value d) Hds) as (r & E & Hlt). rewrite E in Hr.
    apply (is_double_floor _ (b * N.of_nat (length ds))) in Hr.
    rewrite N.div_add_l, N.div_small, N.add_0_r in Hr by (apply pow2_nz || exact Hlt). exact Hr.
Qed.
End Fold.

Theorem integer_double : forall s n, number_ok s -> integer_value s = Some n -> is_double n ->
  exists v, number_value s = Some v /\ f64_is v n.
Proof.
  intros s n Hok Hi Hlt. destruct s as [m [e|]|r ds|ip fp e]; try discriminate; injection Hi as <-.
  - destruct Hok as ((Hm & Hd) & _). cbn [number_value]. unfold parse_f64. rewrite app_nil_r.
    destruct m as [|c m]; [congruence|]. eexists. split; [reflexivity|].
    change (Z.of_N (dec_value []) - Z.of_nat (length (@nil N)))%Z with 0%Z.
    rewrite (dec_digits_value _ Hd). change (10 ^ Z.to_N 0) with 1. rewrite N.mul_1_r. apply round_double1. exact Hlt.
  - assert (H0 : f64_is (FFin false 0 0) 0) by (exists 0, 0%Z; split; reflexivity).
    cbn [number_value]. unfold digits_value in *.
    destruct r as [cc|[cc|]|cc]; cbn [radix_value radix_base] in *.
    + apply (radix_fold_double 2 1 bin_digit); auto; [|apply Hok]. intros c Hc. split; [apply to_digit_bin, Hc|].
      destruct Hc; unfold digit_value. destruct (N.leb_spec c 57); lia.
    + apply (radix_fold_double 8 3 oct_digit); auto; [|apply Hok]. intros c Hc. split; [apply to_digit_oct, Hc|].
      destruct Hc; unfold digit_value. destruct (N.leb_spec c 57); lia.
    + apply (radix_fold_double 8 3 oct_digit); auto.
      * intros c Hc. split; [apply to_digit_oct, Hc|].
        destruct Hc; unfold digit_value. destruct (N.leb_spec c 57); lia.
      * destruct Hok as (ds' & -> & _ & Hd). constructor; [|exact Hd]. unfold oct_digit, in_range, chr. cbn. lia.
    + apply (radix_fold_double 16 4 hex_digit); auto; [|apply Hok]. intros c Hc. split; [apply to_digit_hex, Hc|].
      unfold hex_digit, dec_digit, in_range, chr in Hc. cbn in Hc. unfold digit_value.
      destruct (N.leb_spec c 57); [lia|]. destruct (N.leb_spec c 70); lia.
Qed.
