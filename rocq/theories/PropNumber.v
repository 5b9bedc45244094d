(** The values of numeric literals (C12, C73), and the part of C15 that holds.  The
    vocabulary is that of [SpecLexer] and [SpecNumber]. *)
From Coq Require Import String Ascii List NArith ZArith QArith Qabs Bool Lia.
From Verif Require Import Base Chars F64 Word Token Reader Lexer LexClient SpecReader SpecLexer SpecNumber
  LexWp LexTheorems F64Proofs F64More Rounding PropLexer.
Import ListNotations.
Local Open Scope nat_scope.

(** C73: the value of a decimal literal, with or without fraction and exponent, is the
    double nearest to its mathematical value; of two equally near ones the even one; and
    infinity only when the value rounds beyond all doubles. *)
Theorem C73_decimals_are_nearest : forall V src t n s q, ucd_ok V -> delivers V src t ->
  tk_value t = TNumber n -> num_source n = Some s -> decimal_q s = Some q -> nearest (num_value n) q.
Proof. exact decimal_token_nearest. Qed.
Print Assumptions C73_decimals_are_nearest.

(** Every literal that is not of radix 2, 8 or 16 has such a value. *)
Theorem C73_all_decimals : forall s, (exists q, decimal_q s = Some q) <-> forall r ds, s <> RadixInt r ds.
Proof.
  intros s. split.
  - intros (q & H) r ds ->. discriminate H.
  - intros H. destruct s as [m e|r ds|ip fp e]; [eexists; reflexivity|destruct (H r ds eq_refl)|eexists; reflexivity].
Qed.
Print Assumptions C73_all_decimals.

Example C73_example : exists t n s q, delivers env_ascii (lit "0.1e1") t /\ tk_value t = TNumber n
  /\ num_source n = Some s /\ decimal_q s = Some q /\ (q == 1)%Q /\ num_value n = FFin false (2 ^ 52) (-52).
Proof.
  eexists _, _, _, _. split; [delivered (@nil bool) true|]. do 3 (split; [reflexivity|]). split; reflexivity.
Qed.
(** One tenth is not a double. *)
Example C73_tenth : exists t n s q, delivers env_ascii (lit "0.1") t /\ tk_value t = TNumber n
  /\ num_source n = Some s /\ decimal_q s = Some q /\ (q == 1 # 10)%Q
  /\ num_value n = FFin false 7205759403792794 (-56) /\ ~ (q_of 7205759403792794 (-56) == q)%Q.
Proof.
  eexists _, _, _, _. split; [delivered (@nil bool) true|]. do 3 (split; [reflexivity|]).
  split; [reflexivity|]. split; [reflexivity|]. vm_compute. discriminate.
Qed.

(** C12, the part that holds: a literal of any radix whose value is a double evaluates to
    that double, however large.  (Missing: that other values are rounded to the nearest
    double, which is refuted by [C12_correctly_rounded_refuted].) *)
Theorem C12_doubles_exact_partial : forall V src t n s v, ucd_ok V -> delivers V src t ->
  tk_value t = TNumber n -> num_source n = Some s -> integer_value s = Some v -> is_double v ->
  f64_is (num_value n) v.
Proof.
  intros V src t n s v HV Hd Ht Hs Hi Hv.
  destruct (number_lossless V src t n HV Hd Ht) as (s' & Hs' & Hok & _ & E).
  rewrite Hs in Hs'. injection Hs' as <-.
  destruct (integer_double s v Hok Hi Hv) as (v' & E' & Hf). congruence.
Qed.
Print Assumptions C12_doubles_exact_partial.
Example C12_doubles_example : exists t n s v, delivers env_ascii (lit "0x10000000000001000000000000000000000000000000") t
  /\ tk_value t = TNumber n /\ num_source n = Some s /\ integer_value s = Some v /\ is_double v /\ (2 ^ 172 < v)%N.
Proof.
  eexists _, _, _, _. split; [delivered (@nil bool) true|]. do 2 (split; [reflexivity|]).
  split; [vm_compute; reflexivity|]. split; [|reflexivity].
  exists (2 ^ 52 + 1)%N, 120%N.
  split; [vm_compute; reflexivity|]. split; reflexivity.
Qed.

(** C12, a larger part: if no digit but the last makes rounding necessary, the value is
    the double nearest to that of the literal.  (It is rounded anew for each digit, so a
    literal like [0x200000000000011], rounded twice, may be wrong.) *)
Lemma fma_nearest v n mult d : f64_is v n -> nearest (fma_nat v mult d) (inject_Z (Z.of_N (n * mult + d)%N)).
Proof.
  intros (m & e & -> & He). unfold fma_nat. destruct e as [|e|e].
  - subst n. cbn [Z.to_N]. eapply nearest_wd; [|apply round_pos_nearest; lia]. change (inj 1) with 1%Q. unfold inj. field.
  - subst n. eapply nearest_wd; [|apply round_pos_nearest; lia]. change (inj 1) with 1%Q. unfold inj. field.
  - subst m. replace (n * 2 ^ N.pos e * mult + d * 2 ^ N.pos e)%N with ((n * mult + d) * 2 ^ N.pos e)%N by lia.
    assert (h : (0 < 2 ^ N.pos e)%N) by (pose proof (pow2_nz (N.pos e)); lia).
    eapply nearest_wd; [|apply round_pos_nearest; exact h]. rewrite inj_mul. apply inj_pos in h.
    fold (inj (n * mult + d)%N). field. intros K. rewrite K in h. discriminate h.
Qed.
Lemma radix_fold_app base a b v : radix_fold base (a ++ b) v =
  match radix_fold base a v with Some v' => radix_fold base b v' | None => None end.
Proof.
  revert v. induction a as [|c a IH]; intros v; cbn [app radix_fold]; [reflexivity|].
  destruct (to_digit c base); [apply IH|reflexivity].
Qed.
Lemma last_digit base b (P : N -> Prop) ds : (base = 2 ^ b)%N -> (0 < base)%N ->
  (forall c, P c -> to_digit c base = Some (digit_value c) /\ (digit_value c < base)%N) ->
  ds <> [] -> Forall P ds -> is_double (digits_value base ds / base) ->
  exists v, radix_fold base ds (FFin false 0 0) = Some v /\ nearest v (inject_Z (Z.of_N (digits_value base ds))).
Proof.
  intros Hb H0 HP Hn F Hd. destruct (exists_last Hn) as (p & d & ->). apply Forall_app in F as [Fp Fd]. apply Forall_inv in Fd.
  unfold digits_value in *. rewrite fold_left_app in *. cbn [fold_left] in *. destruct (HP d Fd) as [Td Ld].
  rewrite N.div_add_l, N.div_small, N.add_0_r in Hd by lia.
  destruct (radix_fold_double base b P Hb HP p (FFin false 0 0) 0%N Fp ltac:(exists 0%N, 0%Z; split; reflexivity) Hd) as (v & E & Hv).
  exists (fma_nat v base (digit_value d)). rewrite radix_fold_app, E. cbn [radix_fold]. rewrite Td. split; [reflexivity|].
  apply fma_nearest, Hv.
Qed.
Theorem C12_last_digit_partial : forall V src t n r ds, ucd_ok V -> delivers V src t ->
  tk_value t = TNumber n -> num_source n = Some (RadixInt r ds) -> is_double (digits_value (radix_base r) ds / radix_base r) ->
  nearest (num_value n) (inject_Z (Z.of_N (digits_value (radix_base r) ds))).
Proof.
  intros V src t n r ds HV Hd Ht Hs Hv.
  destruct (number_lossless V src t n HV Hd Ht) as (s' & Hs' & Hok & _ & E).
  rewrite Hs in Hs'. injection Hs' as <-. cbn [number_value] in E.
  assert (K : exists v, radix_fold (radix_value r) ds (FFin false 0 0) = Some v
    /\ nearest v (inject_Z (Z.of_N (digits_value (radix_base r) ds)))); [|destruct K as (v & E' & K); congruence].
  clear E. destruct r as [cc|[cc|]|cc]; cbn [radix_value radix_base number_ok] in *.
  - apply (last_digit 2 1 bin_digit); try apply Hok; auto; try lia. intros c Hc. split; [apply to_digit_bin, Hc|].
    destruct Hc; unfold digit_value. destruct (N.leb_spec c 57); lia.
  - apply (last_digit 8 3 oct_digit); try apply Hok; auto; try lia. intros c Hc. split; [apply to_digit_oct, Hc|].
    destruct Hc; unfold digit_value. destruct (N.leb_spec c 57); lia.
  - destruct Hok as (ds' & -> & _ & Ho).
    apply (last_digit 8 3 oct_digit); auto; try lia; try discriminate.
    + intros c Hc. split; [apply to_digit_oct, Hc|].
      destruct Hc; unfold digit_value. destruct (N.leb_spec c 57); lia.
    + constructor; [|exact Ho]. unfold oct_digit, in_range, chr. cbn. lia.
  - apply (last_digit 16 4 hex_digit); try apply Hok; auto; try lia. intros c Hc. split; [apply to_digit_hex, Hc|].
    unfold hex_digit, dec_digit, in_range, chr in Hc. cbn in Hc. unfold digit_value.
    destruct (N.leb_spec c 57); [lia|]. destruct (N.leb_spec c 70); lia.
Qed.
Print Assumptions C12_last_digit_partial.
(** A literal that is rounded because of its last digit. *)
Example C12_last_digit_example : exists t n r ds, delivers env_ascii (lit "0x1fffffffffffff8") t
  /\ tk_value t = TNumber n /\ num_source n = Some (RadixInt r ds)
  /\ is_double (digits_value (radix_base r) ds / radix_base r)
  /\ digits_value (radix_base r) ds = (2 ^ 57 - 8)%N /\ num_value n = FFin false (2 ^ 52) 5.
Proof.
  eexists _, _, _, _. split; [delivered (@nil bool) true|]. do 2 (split; [reflexivity|]).
  split; [|split; vm_compute; reflexivity].
  exists (2 ^ 53 - 1)%N, 0%N. split; [vm_compute; reflexivity|]. split; reflexivity.
Qed.

(** C15, the part that holds: two identifiers with the same text after decoding carry the
    same name if both or neither are spelled with an escape, and in any case if the text is
    not one of the contextual words.  (Missing: contextual words spelled with an escape,
    [C15_spelling_refuted].) *)
Lemma escape_seen V w v esc : ucd_ok V -> word_text V w v esc -> (esc = true <-> In (chr "\") w).
Proof.
  intros HV. induction 1 as [|c w v esc Hc _ IH|e n w v esc _ _ _ IH].
  - split; [discriminate|intros []].
  - split.
    + intros ->. right. apply IH. reflexivity.
    + intros [->|H]; [exfalso|apply IH, H]. unfold id_part, is_es_identifier_continue in Hc.
      rewrite (ucd_cont_ascii V HV) in Hc by reflexivity. vm_compute in Hc. intuition discriminate.
  - split; [intros _; left; reflexivity|reflexivity].
Qed.
Theorem C15_same_spelling_partial : forall V src1 src2 t1 t2 n1 n2, ucd_ok V -> delivers V src1 t1 -> delivers V src2 t2 ->
  tk_value t1 = TIdent n1 -> tk_value t2 = TIdent n2 -> name_string n1 = name_string n2 ->
  (In (chr "\") (covered src1 (tk_loc t1)) <-> In (chr "\") (covered src2 (tk_loc t2)))
  \/ (forall a, atom_name a <> name_string n1) ->
  n1 = n2.
Proof.
  intros V src1 src2 t1 t2 n1 n2 HV D1 D2 E1 E2 E H.
  pose proof (C13_word_tokens V src1 t1 HV D1) as K1. rewrite E1 in K1. destruct K1 as (b1 & W1 & N1 & _).
  pose proof (C13_word_tokens V src2 t2 HV D2) as K2. rewrite E2 in K2. destruct K2 as (b2 & W2 & N2 & _).
  apply (escape_seen _ _ _ _ HV) in W1, W2. rewrite <- E in N2.
  unfold names in N1, N2. destruct n1 as [a1|s1], n2 as [a2|s2].
  - destruct N1 as [N1 _], N2 as [N2 _]. rewrite <- N1 in N2.
    assert (X : NAtom a1 = NAtom a2) by (rewrite <- !C14_atoms; congruence). exact X.
  - destruct N1 as [N1 F1], N2 as [N2 F2]. exfalso. destruct H as [H|H]; [|exact (H a1 N1)].
    destruct F2 as [F2|F2]; [|exact (F2 a1 N1)]. apply W2, H, W1 in F2. congruence.
  - destruct N1 as [N1 F1], N2 as [N2 F2]. exfalso. destruct H as [H|H]; [|exact (H a2 N2)].
    destruct F1 as [F1|F1]; [|exact (F1 a2 N2)]. apply W1, H, W2 in F1. congruence.
  - destruct N1 as [-> _], N2 as [-> _]. reflexivity.
Qed.
Print Assumptions C15_same_spelling_partial.

(** C15, exactly: names of the same text are equal in these two cases and in no other.  So
    every contextual word has two names, one for each manner of spelling. *)
Theorem C15_exactly_when : forall V src1 src2 t1 t2 n1 n2, ucd_ok V -> delivers V src1 t1 -> delivers V src2 t2 ->
  tk_value t1 = TIdent n1 -> tk_value t2 = TIdent n2 -> name_string n1 = name_string n2 ->
  (n1 = n2 <->
   (In (chr "\") (covered src1 (tk_loc t1)) <-> In (chr "\") (covered src2 (tk_loc t2)))
   \/ (forall a, atom_name a <> name_string n1)).
Proof.
  intros V src1 src2 t1 t2 n1 n2 HV D1 D2 E1 E2 E.
  split; [|exact (C15_same_spelling_partial V src1 src2 t1 t2 n1 n2 HV D1 D2 E1 E2 E)].
  intros <-.
  pose proof (C13_word_tokens V src1 t1 HV D1) as K1. rewrite E1 in K1. destruct K1 as (b1 & W1 & N1 & _).
  pose proof (C13_word_tokens V src2 t2 HV D2) as K2. rewrite E2 in K2. destruct K2 as (b2 & W2 & N2 & _).
  apply (escape_seen _ _ _ _ HV) in W1, W2. unfold names in N1, N2. destruct n1 as [a|s].
  - left. destruct N1 as [_ ->], N2 as [_ ->]. split; intros K; [apply W1 in K|apply W2 in K]; discriminate.
  - destruct N1 as [N1 [-> |F1]]; [|right; exact F1]. destruct N2 as [N2 [-> |F2]]; [|right; exact F2].
    left. split; intros _; [apply W2|apply W1]; reflexivity.
Qed.
Print Assumptions C15_exactly_when.
Example C15_example : exists t1 t2 n1 n2, delivers env_ascii (lit "\u0065val") t1 /\ delivers env_ascii (lit "ev\u{61}l") t2
  /\ tk_value t1 = TIdent n1 /\ tk_value t2 = TIdent n2 /\ name_string n1 = name_string n2
  /\ In (chr "\") (covered (lit "\u0065val") (tk_loc t1)) /\ In (chr "\") (covered (lit "ev\u{61}l") (tk_loc t2)).
Proof.
  eexists _, _, _, _. split; [delivered (@nil bool) true|]. split; [delivered (@nil bool) true|].
  do 3 (split; [reflexivity|]). split; vm_compute; tauto.
Qed.
