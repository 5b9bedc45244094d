(** The double the model chooses for a rational is the nearest one (C73). *)
From Coq Require Import String Ascii List NArith ZArith QArith Qabs Qpower Arith Bool Lia Lqa.
From Verif Require Import Base Chars F64 Token LexClient SpecLexer SpecNumber LexWp LexTheorems F64Proofs.
Import ListNotations.
Local Open Scope Q_scope.

(** ** Powers of two *)
Lemma P_pos e : 0 < 2 ^ e.
Proof.
  assert (0 <= 2 ^ e) by (apply Qpower_0_le; discriminate).
  assert (~ 2 ^ e == 0) by (apply Qpower_not_0; discriminate). lra.
Qed.
Lemma P_add a b : 2 ^ (a + b) == 2 ^ a * 2 ^ b.
Proof. apply Qpower_plus. discriminate. Qed.
Definition inj (n : N) : Q := inject_Z (Z.of_N n).
Lemma inj_lt a b : (a < b)%N <-> inj a < inj b.
Proof. unfold inj. rewrite <- Zlt_Qlt. lia. Qed.
Lemma inj_le a b : (a <= b)%N <-> inj a <= inj b.
Proof. unfold inj. rewrite <- Zle_Qle. lia. Qed.
Lemma inj_mul a b : inj (a * b) == inj a * inj b.
Proof. unfold inj. rewrite N2Z.inj_mul, inject_Z_mult. reflexivity. Qed.
Lemma inj_add a b : inj (a + b) == inj a + inj b.
Proof. unfold inj. rewrite N2Z.inj_add, inject_Z_plus. reflexivity. Qed.
Lemma inj_pow p : inj (2 ^ p) == 2 ^ (Z.of_N p).
Proof. unfold inj. rewrite N2Z.inj_pow. rewrite Zpower_Qpower by lia. reflexivity. Qed.
Lemma inj_pos a : (0 < a)%N -> 0 < inj a.
Proof. intros H. apply inj_lt in H. exact H. Qed.
Lemma P_mono a b : (a <= b)%Z -> 2 ^ a <= 2 ^ b.
Proof.
  intros H. replace b with (a + Z.of_N (Z.to_N (b - a)))%Z by lia. rewrite P_add, <- inj_pow.
  pose proof (P_pos a). assert (H1 : (1 <= 2 ^ Z.to_N (b - a))%N) by (pose proof (N.pow_nonzero 2 (Z.to_N (b - a))); lia).
  apply inj_le in H1. change (inj 1) with 1 in H1. nra.
Qed.

(** ** Rounding to an integer *)
Definition dist (a b : N) : N := if (a <=? b)%N then (b - a)%N else (a - b)%N.
Lemma dist_cases n d M : (0 < d)%N -> exists j y, (y = j * d)%N /\ (j = 0 \/ d <= y)%N /\
  ((M + j = n / d /\ dist (M * d) n = n mod d + y) \/ (M = n / d + 1 + j /\ dist (M * d) n = d - n mod d + y))%N.
Proof.
  intros Hd. pose proof (N.div_mod n d ltac:(lia)) as D. pose proof (N.mod_lt n d ltac:(lia)) as L.
  set (a := (n / d)%N) in *. set (r := (n mod d)%N) in *. clearbody a r. unfold dist.
  destruct (N.le_gt_cases M a) as [H|H].
  - exists (a - M)%N, ((a - M) * d)%N. split; [reflexivity|]. split; [destruct (N.eq_dec (a - M) 0); [left; assumption|right; nia]|].
    left. split; [lia|]. assert (M * d + (a - M) * d = a * d)%N by (rewrite <- N.mul_add_distr_r; f_equal; lia).
    replace (d * a)%N with (a * d)%N in D by apply N.mul_comm. set (u := (M * d)%N) in *. set (w := (a * d)%N) in *. set (z := ((a - M) * d)%N) in *. clearbody u w z. destruct (N.leb_spec u n); lia.
  - exists (M - a - 1)%N, ((M - a - 1) * d)%N. split; [reflexivity|].
    split; [destruct (N.eq_dec (M - a - 1) 0); [left; assumption|right; nia]|].
    right. split; [lia|]. assert (M * d = a * d + d + (M - a - 1) * d)%N by (rewrite <- (N.mul_1_l d) at 3; rewrite <- !N.mul_add_distr_r; f_equal; lia).
    replace (d * a)%N with (a * d)%N in D by apply N.mul_comm. set (u := (M * d)%N) in *. set (w := (a * d)%N) in *. set (z := ((M - a - 1) * d)%N) in *. clearbody u w z. destruct (N.leb_spec u n); lia.
Qed.
Lemma half_even_dist n d M : (0 < d)%N -> let k := round_half_even n d in
  (dist (k * d) n <= dist (M * d) n /\ (dist (k * d) n = dist (M * d) n -> k = M \/ N.even k = true))%N.
Proof.
  intros Hd k. destruct (dist_cases n d M Hd) as (j & y & Ey & Hy & HM).
  destruct (dist_cases n d k Hd) as (j' & y' & Ey' & Hy' & Hk).
  pose proof (N.mod_lt n d ltac:(lia)) as L. unfold k, round_half_even in Hk |- *.
  set (a := (n / d)%N) in *. set (r := (n mod d)%N) in *.
  assert (Z : forall i z, (z = i * d -> i = 0 \/ d <= z -> i = 0 -> z = 0)%N) by (intros; subst; lia).
  pose proof (Z _ _ Ey Hy). pose proof (Z _ _ Ey' Hy'). clear Z Ey Ey'. clearbody a r.
  destruct (N.compare_spec (2 * r) d) as [C|C|C]; [destruct (N.even a) eqn:Ev| |].
  - split; [|auto]. destruct Hk as [[? ->]|[? ->]]; destruct HM as [[? ->]|[? ->]]; lia.
  - assert (Ev' : N.even (a + 1) = true) by (rewrite N.add_1_r, N.even_succ, <- N.negb_even, Ev; reflexivity).
    split; [|auto]. destruct Hk as [[? ->]|[? ->]]; destruct HM as [[? ->]|[? ->]]; lia.
  - destruct Hk as [[? ->]|[? ->]]; destruct HM as [[? ->]|[? ->]]; lia.
  - destruct Hk as [[? ->]|[? ->]]; destruct HM as [[? ->]|[? ->]]; lia.
Qed.
Lemma half_even_near n d M : (0 < d)%N -> let k := round_half_even n d in
  Qabs (inj k - inj n / inj d) <= Qabs (inj M - inj n / inj d)
  /\ (Qabs (inj k - inj n / inj d) == Qabs (inj M - inj n / inj d) -> inj k == inj M \/ N.even k = true).
Proof.
  intros Hd k. pose proof (inj_pos d Hd) as HD.
  assert (E : forall a, Qabs (inj a - inj n / inj d) == Qabs (inj (a * d) - inj n) * / inj d).
  { intros a. rewrite <- (Qabs_pos (/ inj d)) at 1.
    2: { apply Qinv_le_0_compat. lra. }
    rewrite <- Qabs_Qmult. apply Qabs_wd. rewrite inj_mul. field. lra. }
  assert (Hi : 0 < / inj d) by (apply Qinv_lt_0_compat; exact HD).
  assert (A : forall a b, Qabs (inj a - inj b) == inj (if (a <=? b)%N then b - a else a - b)%N).
  { intros a b. destruct (N.leb_spec a b) as [H|H].
    - rewrite Qabs_neg; [unfold inj; rewrite N2Z.inj_sub by lia; unfold Z.sub; rewrite inject_Z_plus, inject_Z_opp; lra|].
      apply inj_le in H. lra.
    - rewrite Qabs_pos; [unfold inj; rewrite N2Z.inj_sub by lia; unfold Z.sub; rewrite inject_Z_plus, inject_Z_opp; lra|].
      apply inj_lt in H. lra. }
  assert (K : ((if k * d <=? n then n - k * d else k * d - n) <= (if M * d <=? n then n - M * d else M * d - n))%N
    /\ ((if k * d <=? n then n - k * d else k * d - n) = (if M * d <=? n then n - M * d else M * d - n) ->
        k = M \/ N.even k = true)%N).
  { exact (half_even_dist n d M Hd). }
  destruct K as [K1 K2]. rewrite !E, !A. apply inj_le in K1. split; [nra|].
  intros F. assert (F' : inj (if (k * d <=? n)%N then n - k * d else k * d - n)%N == inj (if (M * d <=? n)%N then n - M * d else M * d - n)%N) by nra.
  unfold inj in F'. apply (proj1 (inject_Z_injective _ _)) in F'. destruct (K2 ltac:(lia)) as [->|H]; [left; reflexivity|right; exact H].
Qed.
(** The distance is a half at most, and an odd result is nearer than that. *)
Lemma half_even_half n d : (0 < d)%N -> let k := round_half_even n d in
  inj k - (1 # 2) <= inj n / inj d <= inj k + (1 # 2)
  /\ (N.even k = false -> inj n / inj d < inj k + (1 # 2)).
Proof.
  intros Hd k. pose proof (inj_pos d Hd) as HD.
  assert (K : (2 * (k * d) <= 2 * n + d /\ 2 * n <= 2 * (k * d) + d /\ (N.even k = false -> 2 * n < 2 * (k * d) + d))%N).
  { unfold k, round_half_even. pose proof (N.div_mod n d ltac:(lia)) as D. pose proof (N.mod_lt n d ltac:(lia)) as L.
    set (a := (n / d)%N) in *. set (r := (n mod d)%N) in *. clearbody a r.
    destruct (N.compare_spec (2 * r) d) as [C|C|C]; [destruct (N.even a) eqn:Ev| |].
    - replace (a * d)%N with (d * a)%N by lia. repeat split; try lia. intros X. congruence.
    - replace ((a + 1) * d)%N with (d * a + d)%N by lia. repeat split; try lia.
    - replace (a * d)%N with (d * a)%N by lia. repeat split; lia.
    - replace ((a + 1) * d)%N with (d * a + d)%N by lia. repeat split; lia. }
  clearbody k. destruct K as (K1 & K2 & K3).
  apply inj_le in K1. apply inj_le in K2. rewrite !inj_add, !inj_mul in K1, K2. change (inj 2) with 2 in *.
  assert (E : inj n == inj n / inj d * inj d) by (field; lra). set (x := inj n / inj d) in *. clearbody x.
  split; [split; nra|]. intros X. specialize (K3 X). apply inj_lt in K3. rewrite !inj_add, !inj_mul in K3.
  change (inj 2) with 2 in *. nra.
Qed.

Lemma scale_q num den e n d : (0 < den)%N -> scale num den e = (n, d) ->
  (0 < d)%N /\ inj n / inj d == inj num / inj den * 2 ^ (- e).
Proof.
  intros Hd E. pose proof (inj_pos _ Hd) as HD. destruct e as [|p|p]; cbn [scale] in E; injection E as <- <-.
  - split; [exact Hd|]. change (2 ^ (- 0)) with 1. lra.
  - assert (0 < 2 ^ N.pos p)%N by (apply N.neq_0_lt_0, N.pow_nonzero; lia). split; [nia|].
    change (N.pos (2 ^ p)) with (2 ^ N.pos p)%N. rewrite inj_mul, inj_pow. change (Z.of_N (N.pos p)) with (Z.pos p).
    rewrite Qpower_opp. pose proof (P_pos (Z.pos p)). field. lra.
  - split; [exact Hd|]. change (N.pos (2 ^ p)) with (2 ^ N.pos p)%N. rewrite inj_mul, inj_pow. change (Z.of_N (N.pos p)) with (Z.pos p).
    change (- Z.neg p)%Z with (Z.pos p). field. lra.
Qed.

(** The first exponent puts the quotient between 2^51 and 2^53. *)
Lemma first_exponent num den : (0 < num)%N -> (0 < den)%N ->
  let e0 := (Z.of_N (N.log2 num) - Z.of_N (N.log2 den) - 52)%Z in
  2 ^ 51 < inj num / inj den * 2 ^ (- e0) < 2 ^ 53.
Proof.
  intros Hn Hd e0. destruct (N.log2_spec num Hn) as [A1 A2]. destruct (N.log2_spec den Hd) as [B1 B2].
  apply inj_le in A1, B1. apply inj_lt in A2, B2. rewrite inj_pow in *.
  set (a := Z.of_N (N.log2 num)) in *. set (b := Z.of_N (N.log2 den)) in *.
  replace (Z.of_N (N.succ (N.log2 num))) with (a + 1)%Z in A2 by lia.
  replace (Z.of_N (N.succ (N.log2 den))) with (b + 1)%Z in B2 by lia.
  rewrite P_add in A2, B2. change (2 ^ 1) with 2 in *.
  pose proof (inj_pos _ Hd) as HD. pose proof (P_pos a) as Pa. pose proof (P_pos b) as Pb.
  assert (E : 2 ^ (- e0) * 2 ^ a == 2 ^ 52 * 2 ^ b).
  { rewrite <- !P_add. replace (- e0 + a)%Z with (52 + b)%Z by (unfold e0; lia). reflexivity. }
  assert (Q : inj num == inj num / inj den * inj den) by (field; lra).
  set (x := inj num / inj den) in *. pose proof (P_pos (- e0)) as Pe. set (p := 2 ^ (- e0)) in *.
  set (A := 2 ^ a) in *. set (B := 2 ^ b) in *. set (N_ := inj num) in *. set (D := inj den) in *.
  assert (T : 2 ^ 52 == 2 * 2 ^ 51) by reflexivity. assert (T' : 2 ^ 53 == 4 * 2 ^ 51) by reflexivity.
  set (c := 2 ^ 51) in *. assert (Hc : 0 < c) by apply P_pos. rewrite T in E. rewrite T'.
  clearbody x p A B N_ D c. clear T T'.
  (* x D = N, A <= N < 2A, B <= D < 2B, p A = 2 c B *)
  assert (Hx : 0 < x) by nra.
  split.
  - assert (x * p * D >= 2 * c * B) by nra. assert (c * D < 2 * c * B) by nra. nra.
  - assert (x * p * D < 4 * c * B) by nra. assert (c * D >= c * B) by nra. nra.
Qed.

Lemma overflow_eq : overflow == (2 ^ 53 - (1 # 2)) * 2 ^ 971.
Proof.
  unfold overflow. replace 1024%Z with (53 + 971)%Z by reflexivity. rewrite P_add.
  replace 971%Z with (1 + 970)%Z at 2 by reflexivity. rewrite (P_add 1 970). change (2 ^ 1) with 2. ring.
Qed.
Lemma overflow_pos : 0 < overflow.
Proof. rewrite overflow_eq. pose proof (P_pos 971). assert (1 < 2 ^ 53) by reflexivity. nra. Qed.

Lemma floor_lt n d c : (0 < d)%N -> (n / d <? c)%N = true <-> inj n / inj d < inj c.
Proof.
  intros Hd. pose proof (inj_pos _ Hd) as HD. assert (E : inj n == inj n / inj d * inj d) by (field; lra).
  rewrite N.ltb_lt. split; intros H.
  - assert (K : (n < c * d)%N).
    { pose proof (N.div_mod n d ltac:(lia)). pose proof (N.mod_lt n d ltac:(lia)). nia. }
    apply inj_lt in K. rewrite inj_mul in K. nra.
  - apply N.div_lt_upper_bound; [lia|]. apply inj_lt. rewrite inj_mul. nra.
Qed.

Lemma abs_scale a p : 0 < p -> Qabs (a * p) == Qabs a * p.
Proof. intros H. rewrite Qabs_Qmult, (Qabs_pos p) by lra. reflexivity. Qed.

(** The integer [k] nearest to [x = q * 2^-e] gives the double nearest to [q]. *)
Lemma nearest_at k x e q : q == x * 2 ^ e -> (e = -1074)%Z \/ 2 ^ 52 <= x ->
  (forall M, Qabs (inj k - x) <= Qabs (inj M - x)
             /\ (Qabs (inj k - x) == Qabs (inj M - x) -> inj k == inj M \/ N.even k = true)) ->
  forall m' e', finite m' e' ->
    Qabs (q_of k e - q) <= Qabs (q_of m' e' - q)
    /\ (Qabs (q_of k e - q) == Qabs (q_of m' e' - q) -> q_of k e == q_of m' e' \/ N.even k = true).
Proof.
  intros Hq Hx Hk m' e' [Hm He]. pose proof (P_pos e) as Pe.
  assert (E1 : Qabs (q_of k e - q) == Qabs (inj k - x) * 2 ^ e).
  { rewrite <- abs_scale by exact Pe. apply Qabs_wd. unfold q_of. fold (inj k). rewrite Hq. ring. }
  assert (E2 : q_of m' e' == inj m' * 2 ^ (e' - e) * 2 ^ e).
  { unfold q_of. fold (inj m'). rewrite <- Qmult_assoc, <- P_add. replace (e' - e + e)%Z with e' by lia. reflexivity. }
  set (y := inj m' * 2 ^ (e' - e)) in *.
  assert (E3 : Qabs (q_of m' e' - q) == Qabs (y - x) * 2 ^ e).
  { rewrite <- abs_scale by exact Pe. apply Qabs_wd. rewrite E2, Hq. ring. }
  rewrite E1, E3.
  assert (K : Qabs (inj k - x) <= Qabs (y - x) /\ (Qabs (inj k - x) == Qabs (y - x) -> inj k == y \/ N.even k = true)).
  { destruct (Z_le_gt_dec e e') as [H|H].
    - assert (Ey : y == inj (m' * 2 ^ Z.to_N (e' - e))).
      { unfold y. rewrite inj_mul, inj_pow. rewrite Z2N.id by lia. reflexivity. }
      rewrite Ey. apply Hk.
    - assert (Hx' : 2 ^ 52 <= x) by (destruct Hx as [Hx|Hx]; [lia|exact Hx]).
      assert (Hy : y < 2 ^ 52).
      { unfold y. apply inj_lt in Hm. rewrite inj_pow in Hm. change (Z.of_N 53) with (1 + 52)%Z in Hm. rewrite P_add in Hm.
        change (2 ^ 1) with 2 in Hm. pose proof (P_mono (e' - e) (-1) ltac:(lia)) as P1. change (2 ^ (-1)) with (1 # 2) in P1.
        pose proof (P_pos (e' - e)). pose proof (P_pos 52). set (c := 2 ^ 52) in *. set (p := 2 ^ (e' - e)) in *. clearbody c p. nra. }
      pose proof (proj1 (Hk (2 ^ 52)%N)) as K. assert (E : inj (2 ^ 52) == 2 ^ 52) by apply inj_pow.
      rewrite E in K. rewrite (Qabs_neg (2 ^ 52 - x)) in K by lra. rewrite (Qabs_neg (y - x)) by lra.
      set (c := 2 ^ 52) in *. clearbody c. split; [lra|]. intros F. lra. }
  destruct K as [K1 K2]. split; [nra|]. intros F. destruct K2 as [K2|K2]; [nra| |right; exact K2].
  left. rewrite E2. unfold q_of. fold (inj k). rewrite K2. reflexivity.
Qed.

Theorem round_pos_nearest num den : (0 < den)%N -> nearest (round_pos false num den) (inj num / inj den).
Proof.
  intros Hd. pose proof (inj_pos _ Hd) as HD. unfold round_pos. destruct (N.eqb_spec num 0) as [->|Hn].
  - cbn [nearest]. assert (E : inj 0 / inj den == 0) by (change (inj 0) with 0; field; lra).
    split; [rewrite E; exact overflow_pos|]. split; [split; [reflexivity|lia]|]. split; [right; right; reflexivity|].
    intros m' e' _. assert (E0 : q_of 0 0 - inj 0 / inj den == 0) by (rewrite E; reflexivity).
    assert (E1 : Qabs (q_of 0 0 - inj 0 / inj den) == 0) by (rewrite E0; reflexivity).
    rewrite E1. split; [apply Qabs_nonneg|]. intros _. right. reflexivity.
  - assert (Hn0 : (0 < num)%N) by lia. set (q := inj num / inj den).
    pose proof (first_exponent num den Hn0 Hd) as F0. cbv zeta in F0. fold q in F0.
    set (e0 := (Z.of_N (N.log2 num) - Z.of_N (N.log2 den) - 52)%Z) in *.
    destruct (scale num den e0) as [n0 d0] eqn:S0.
    destruct (scale_q _ _ _ _ _ Hd S0) as [Hd0 X0]. fold q in X0.
    set (e1 := if (n0 / d0 <? two52)%N then (e0 - 1)%Z else e0).
    assert (F1 : 2 ^ 52 <= q * 2 ^ (- e1) < 2 ^ 53).
    { assert (T : inj two52 == 2 ^ 52) by exact (inj_pow 52).
      unfold e1. destruct (n0 / d0 <? two52)%N eqn:Fl.
      - apply (floor_lt _ _ _ Hd0) in Fl. rewrite X0, T in Fl.
        replace (- (e0 - 1))%Z with (- e0 + 1)%Z by lia. rewrite P_add. change (2 ^ 1) with 2.
        assert (T1 : 2 ^ 52 == 2 * 2 ^ 51) by reflexivity. assert (T2 : 2 ^ 53 == 2 * 2 ^ 52) by reflexivity.
        set (y := q * 2 ^ (- e0)) in *. rewrite T2, T1 in *. set (c := 2 ^ 51) in *.
        setoid_replace (q * (2 ^ (- e0) * 2)) with (2 * y) by (unfold y; ring). clearbody y c. lra.
      - assert (Fl' : ~ inj n0 / inj d0 < inj two52) by (intros K; apply (floor_lt _ _ _ Hd0) in K; congruence).
        rewrite X0, T in Fl'. split; [|exact (proj2 F0)]. apply Qnot_lt_le. exact Fl'. }
    clearbody e1. clear F0 X0 Hd0 S0 n0 d0 e0.
    set (e := Z.max e1 (-1074)). destruct (scale num den e) as [n d] eqn:S1.
    destruct (scale_q _ _ _ _ _ Hd S1) as [Hd1 X1]. fold q in X1.
    set (k := round_half_even n d).
    assert (Hq : q == inj n / inj d * 2 ^ e).
    { rewrite X1, <- Qmult_assoc, <- P_add. replace (- e + e)%Z with 0%Z by lia. change (2 ^ 0) with 1. ring. }
    pose proof (fun M => half_even_near n d M Hd1) as Near. cbv zeta in Near.
    destruct (half_even_half n d Hd1) as [Half Odd]. fold k in Near, Half, Odd.
    assert (Lo : (e = -1074)%Z \/ (2 ^ 52 <= inj n / inj d /\ e = e1)).
    { destruct (Z_le_gt_dec e1 (-1074)) as [H|H]; [left; unfold e; lia|]. right.
      assert (e = e1) by (unfold e; lia). split; [|assumption]. rewrite X1. rewrite H0. apply F1. }
    assert (Hi : inj n / inj d < 2 ^ 53).
    { rewrite X1. eapply Qle_lt_trans; [|exact (proj2 F1)].
      pose proof (P_mono (- e) (- e1) ltac:(unfold e; lia)). assert (0 <= q).
      { unfold q. apply Qle_shift_div_l; [exact HD|]. pose proof (inj_pos _ Hn0). lra. }
      nra. }
    set (x := inj n / inj d) in *.
    pose proof (nearest_at k x e q Hq ltac:(tauto) Near) as Best.
    assert (Hk53 : (k <= 2 ^ 53)%N).
    { destruct (N.le_gt_cases k (2 ^ 53)) as [H|H]; [exact H|]. assert (H' : (2 ^ 53 + 1 <= k)%N) by lia.
      apply inj_le in H'. rewrite inj_add in H'. change (inj 1) with 1 in H'.
      assert (T : inj (2 ^ 53) == 2 ^ 53) by exact (inj_pow 53). rewrite T in H'. set (c := 2 ^ 53) in *. clearbody c x. lra. }
    assert (HkLo : e = (-1074)%Z \/ ((2 ^ 52 <= k)%N /\ 2 ^ 52 <= x /\ e = e1)).
    { destruct Lo as [H|[H1 H2]]; [left; exact H|]. right. split; [|split; assumption].
      destruct (N.le_gt_cases (2 ^ 52) k) as [H|H]; [exact H|]. exfalso.
      assert (H' : (k + 1 <= 2 ^ 52)%N) by lia. apply inj_le in H'. rewrite inj_add in H'. change (inj 1) with 1 in H'.
      assert (T : inj (2 ^ 52) == 2 ^ 52) by exact (inj_pow 52). rewrite T in H'. set (c := 2 ^ 52) in *. clearbody c x. lra. }
    assert (He : (-1074 <= e)%Z) by (unfold e; lia).
    clearbody e k x q. clear Near Lo.
    destruct (N.eqb_spec k two53) as [E53|E53].
    + change two53 with (2 ^ 53)%N in E53. assert (T : inj k == 2 ^ 53) by (rewrite E53; exact (inj_pow 53)).
      destruct (Z.ltb_spec 971 (e + 1)) as [Hov|Hov]; cbn [nearest].
      * rewrite Hq, overflow_eq. pose proof (P_mono 971 e ltac:(lia)) as Pm. pose proof (P_pos 971) as Pp.
        rewrite T in Half. assert (1 < 2 ^ 53) by reflexivity. set (c := 2 ^ 53) in *. set (a := 2 ^ 971) in *. set (b := 2 ^ e) in *.
        clearbody a b c. nra.
      * assert (V : q_of two52 (e + 1) == q_of k e).
        { unfold q_of. fold (inj two52) (inj k). rewrite T, P_add. change (2 ^ 1) with 2. 
          assert (T' : inj two52 == 2 ^ 52) by exact (inj_pow 52). rewrite T'.
          assert (T1 : 2 ^ 53 == 2 * 2 ^ 52) by reflexivity. rewrite T1. ring. }
        split; [|split; [split; [reflexivity|lia]|split; [left; discriminate|]]].
        -- rewrite Hq, overflow_eq. pose proof (P_mono e 970 ltac:(lia)) as Pm. pose proof (P_pos e) as Pp.
           replace 971%Z with (1 + 970)%Z by reflexivity. rewrite P_add. change (2 ^ 1) with 2.
           assert (1 < 2 ^ 53) by reflexivity. set (c := 2 ^ 53) in *. set (a := 2 ^ 970) in *. set (b := 2 ^ e) in *.
           clearbody a b c. clear -Pm Pp H Hi. nra.
        -- intros m' e' Hf. destruct (Best m' e' Hf) as [B1 B2]. rewrite V. split; [exact B1|]. intros _. right. reflexivity.
    + change two53 with (2 ^ 53)%N in E53. assert (Hk : (k < 2 ^ 53)%N) by lia.
      destruct (Z.ltb_spec 971 e) as [Hov|Hov]; cbn [nearest].
      * destruct HkLo as [H|(_ & H1 & _)]; [lia|]. rewrite Hq, overflow_eq.
        pose proof (P_mono (1 + 971) e ltac:(lia)) as Pm. rewrite P_add in Pm. change (2 ^ 1) with 2 in Pm. pose proof (P_pos 971) as Pp.
        assert (T1 : 2 ^ 53 == 2 * 2 ^ 52) by reflexivity. rewrite T1. assert (1 < 2 ^ 52) by reflexivity.
        set (c := 2 ^ 52) in *. set (a := 2 ^ 971) in *. set (b := 2 ^ e) in *. clearbody a b c. clear -H1 Pm Pp H. nra.
      * split; [|split; [split; [exact Hk|lia]|split]].
        -- rewrite Hq, overflow_eq. pose proof (P_mono e 971 ltac:(lia)) as Pm. pose proof (P_pos e) as Pp.
           assert (Hx : x < 2 ^ 53 - (1 # 2)).
           { assert (T : inj (2 ^ 53) == 2 ^ 53) by exact (inj_pow 53). assert (H' : (k + 1 <= 2 ^ 53)%N) by lia.
             destruct (N.eq_dec (k + 1) (2 ^ 53)) as [Ek|Ek].
             - assert (Ev : N.even k = false).
               { replace k with (2 ^ 53 - 1)%N by lia. reflexivity. }
               specialize (Odd Ev). assert (T2 : inj k + 1 == 2 ^ 53).
               { rewrite <- T, <- Ek, inj_add. reflexivity. }
               set (c := 2 ^ 53) in *. clearbody c. lra.
             - assert (H2 : (k + 2 <= 2 ^ 53)%N) by lia. apply inj_le in H2. rewrite inj_add, T in H2. change (inj 2) with 2 in H2.
               set (c := 2 ^ 53) in *. clearbody c. lra. }
           assert (1 < 2 ^ 53) by reflexivity. set (c := 2 ^ 53) in *. set (a := 2 ^ 971) in *. set (b := 2 ^ e) in *.
           clearbody a b c. clear -Pm Pp H Hx. nra.
        -- destruct HkLo as [H|(H & _)]; [right; left; exact H|left; exact H].
        -- exact Best.
Qed.

(** ** Decimal literals *)

Lemma nearest_wd v q q' : q == q' -> nearest v q -> nearest v q'.
Proof.
  intros E H. destruct v as [|[]|[] m e]; cbn [nearest] in *; try exact H; [rewrite <- E; exact H|].
  destruct H as (H1 & H2 & H3 & H4). rewrite <- E. split; [exact H1|]. split; [exact H2|]. split; [exact H3|].
  intros m' e' Hf. rewrite <- E. exact (H4 m' e' Hf).
Qed.
Lemma inj_pow10 p : inj (10 ^ p) == 10 ^ (Z.of_N p).
Proof. unfold inj. rewrite N2Z.inj_pow. rewrite Zpower_Qpower by lia. reflexivity. Qed.
Lemma P10_pos e : 0 < 10 ^ e.
Proof.
  assert (0 <= 10 ^ e) by (apply Qpower_0_le; discriminate).
  assert (~ 10 ^ e == 0) by (apply Qpower_not_0; discriminate). lra.
Qed.
Lemma P10_add a b : 10 ^ (a + b) == 10 ^ a * 10 ^ b.
Proof. apply Qpower_plus. discriminate. Qed.

Lemma fold_from ds a : fold_left (fun acc d => (acc * 10 + digit_value d)%N) ds a
  = (a * 10 ^ N.of_nat (length ds) + digits_value 10 ds)%N.
Proof.
  unfold digits_value. revert a. induction ds as [|d ds IH]; intros a.
  - cbn [fold_left length]. change (10 ^ N.of_nat 0)%N with 1%N. lia.
  - cbn [fold_left length]. rewrite IH, (IH (0 * 10 + digit_value d)%N).
    rewrite Nat2N.inj_succ, N.pow_succ_r'. lia.
Qed.
Lemma digits_app a b : digits_value 10 (a ++ b) = (digits_value 10 a * 10 ^ N.of_nat (length b) + digits_value 10 b)%N.
Proof. unfold digits_value at 1. rewrite fold_left_app. apply fold_from. Qed.

Lemma parse_nearest ip fp neg ex : Forall dec_digit ip -> Forall dec_digit fp -> Forall dec_digit ex -> ip ++ fp <> [] ->
  exists v, parse_f64 ip fp neg ex = Some v
    /\ nearest v ((digits_q ip + digits_q fp / 10 ^ Z.of_nat (length fp))
                  * 10 ^ (if neg then - Z.of_N (digits_value 10 ex) else Z.of_N (digits_value 10 ex))).
Proof.
  intros Hi Hf He Hne. unfold parse_f64. destruct (ip ++ fp) as [|c l] eqn:El; [congruence|]. rewrite <- El.
  rewrite (dec_digits_value (ip ++ fp)) by (apply Forall_app; auto). rewrite (dec_digits_value ex He). 
  eexists. split; [reflexivity|].
  set (E := if neg then (- Z.of_N (digits_value 10 ex))%Z else Z.of_N (digits_value 10 ex)).
  set (m := digits_value 10 (ip ++ fp)).
  assert (Q : (digits_q ip + digits_q fp / 10 ^ Z.of_nat (length fp)) * 10 ^ E == inj m * 10 ^ (E - Z.of_nat (length fp))).
  { unfold m. rewrite digits_app, inj_add, inj_mul, inj_pow10. unfold digits_q. fold (inj (digits_value 10 ip)) (inj (digits_value 10 fp)).
    rewrite nat_N_Z. unfold Z.sub. rewrite P10_add, Qpower_opp. pose proof (P10_pos (Z.of_nat (length fp))). field. lra. }
  destruct (E - Z.of_nat (length fp))%Z as [|p|p] eqn:Ek.
  - eapply nearest_wd; [|apply round_pos_nearest; reflexivity]. rewrite Q. change (10 ^ 0) with 1.
    change (Z.to_N 0) with 0%N. rewrite N.pow_0_r, N.mul_1_r. change (inj 1) with 1. field.
  - eapply nearest_wd; [|apply round_pos_nearest; reflexivity]. rewrite Q, inj_mul, inj_pow10.
    change (inj 1) with 1. rewrite Z2N.id by lia. field.
  - eapply nearest_wd; [|apply round_pos_nearest; apply N.neq_0_lt_0, N.pow_nonzero; lia]. rewrite Q, inj_pow10.
    change (Z.of_N (N.pos p)) with (Z.pos p). change (Z.neg p) with (- Z.pos p)%Z. rewrite Qpower_opp. reflexivity.
Qed.

Lemma exponent_eq e : exponent e = match e with
  | None => 0%Z
  | Some x => if is_minus (exp_sign x) then (- Z.of_N (digits_value 10 (exp_value x)))%Z else Z.of_N (digits_value 10 (exp_value x))
  end.
Proof. destruct e as [x|]; [|reflexivity]. cbn. destruct (exp_sign x) as [[]|]; reflexivity. Qed.

Theorem decimal_nearest s q : number_ok s -> decimal_q s = Some q -> exists v, number_value s = Some v /\ nearest v q.
Proof.
  intros Hok Hq. destruct s as [m e|r ds|ip fp e]; try discriminate; injection Hq as <-; rewrite exponent_eq.
  - destruct Hok as ((Hm & Hd) & _ & He).
    assert (R : forall x : Q, digits_q m * x == (digits_q m + digits_q [] / 10 ^ Z.of_nat (length (@nil N))) * x).
    { intros x. change (digits_q []) with 0. change (10 ^ Z.of_nat (length (@nil N))) with 1. field. }
    destruct e as [x|]; cbn [number_value].
    + destruct (parse_nearest m [] (is_minus (exp_sign x)) (exp_value x)) as (v & E & Hv); auto.
      * apply He.
      * rewrite app_nil_r. exact Hm.
      * exists v. split; [exact E|]. eapply nearest_wd; [|exact Hv]. symmetry. apply R.
    + destruct (parse_nearest m [] false []) as (v & E & Hv); auto.
      * rewrite app_nil_r. exact Hm.
      * exists v. split; [exact E|]. eapply nearest_wd; [|exact Hv]. symmetry. apply R.
  - assert (K : Forall dec_digit (format_int ip) /\ Forall dec_digit (format_int fp) /\ exp_ok e /\ format_int ip ++ format_int fp <> []).
    { destruct ip as [ip|], fp as [fp|]; cbn in Hok |- *; try contradiction.
      - destruct Hok as ((H1 & H2) & _ & H3 & H4). repeat split; auto. destruct ip; [congruence|discriminate].
      - destruct Hok as ((H1 & H2) & H3). repeat split; auto. }
    destruct K as (K1 & K2 & K3 & K4). unfold format_int in *.
    destruct e as [x|]; cbn [number_value].
    + apply parse_nearest; auto. apply K3.
    + apply (parse_nearest _ _ false []); auto.
Qed.

Theorem decimal_token_nearest : forall V src t n s q, ucd_ok V -> delivers V src t ->
  tk_value t = TNumber n -> num_source n = Some s -> decimal_q s = Some q -> nearest (num_value n) q.
Proof.
  intros V src t n s q HV Hd Ht Hs Hq.
  destruct (number_lossless V src t n HV Hd Ht) as (s' & Hs' & Hok & _ & Hv).
  rewrite Hs in Hs'. injection Hs' as <-.
  destruct (decimal_nearest s q Hok Hq) as (v' & Hv' & Hf). congruence.
Qed.
