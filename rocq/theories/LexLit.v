(** What the lexer's readers of escapes, strings, words and regular expressions
    return, against SpecLexer.v. *)
From Coq Require Import String Ascii List NArith Arith Bool Lia.
From Verif Require Import Base Chars F64 Word Token Reader Lexer Wp SpecReader SpecLexer LexWp.
Import ListNotations.
Local Open Scope N_scope.

Definition anyE : lex_error -> Prop := fun _ => True.
Ltac fa := repeat (apply Forall_cons; [assumption|]); apply Forall_nil.
Definition noP : panic -> Prop := fun _ => False.

(** Panics while reading an escape after [\u], and in a text that contains one. *)
Definition Kseq (V : env) (l : str) (k : panic) : Prop :=
  (k = P_read_eof /\ exists ds, l = lit "{" ++ ds /\ digits hex_digit ds)
  \/ (k = P_overflow /\ overflow_checks V = true
      /\ exists ds v, l = lit "{" ++ ds ++ lit "}" ++ v /\ Forall hex_digit ds /\ (8 <= length ds)%nat).
Definition Kesc (V : env) (l : str) (k : panic) : Prop :=
  (k = P_read_eof /\ ends_in_escape l)
  \/ (k = P_overflow /\ overflow_checks V = true /\ has_long_escape l).

Lemma Kesc_app : forall V w l k, Kesc V l k -> Kesc V (w ++ l) k.
Proof.
  intros V w l k [[Hk (u & ds & Hl & Hd)]|(Hk & Hc & u & ds & v & Hl & Hd)].
  - left. split; [exact Hk|]. exists (w ++ u), ds. split; [|exact Hd].
    rewrite Hl, app_assoc. reflexivity.
  - right. split; [exact Hk|]. split; [exact Hc|]. exists (w ++ u), ds, v. split; [|exact Hd].
    rewrite Hl, app_assoc. reflexivity.
Qed.
Lemma Kesc_took : forall V r w r' k, took r w r' -> Kesc V (rest r') k -> Kesc V (rest r) k.
Proof. intros V r w r' k T H. rewrite (took_rest _ _ _ T). apply Kesc_app, H. Qed.
Lemma Kseq_Kesc : forall V l k, Kseq V l k -> Kesc V (lit "\u" ++ l) k.
Proof.
  intros V l k [[Hk (ds & Hl & Hd)]|(Hk & Hc & ds & v & Hl & Hd)].
  - left. split; [exact Hk|]. exists [], ds. split; [rewrite Hl; reflexivity|exact Hd].
  - right. split; [exact Hk|]. split; [exact Hc|]. exists [], ds, v.
    split; [rewrite Hl; reflexivity|exact Hd].
Qed.

(** ** Digits *)

Lemma read_digit_spec (pred : N -> bool) (radix : N) s missing r K :
  (forall c, pred c = true -> to_digit c radix = Some (digit_value c)) ->
  wp (lx_read_digit_into s radix pred missing) r
     (fun '(d, s') r' => exists c, took r [c] r' /\ pred c = true /\ d = digit_value c /\ s' = s ++ [c])
     anyE K.
Proof.
  intros Hd. unfold lx_read_digit_into. apply wp_bind, wp_peek.
  destruct (rest r) as [|c l] eqn:Hr; cbn [hd_error]; [exact I|].
  destruct (pred c) eqn:Hc; [|exact I].
  apply wp_bind. eapply wp_reread; [exact Hr|]. intros r' T R.
  rewrite (Hd c Hc). apply wp_ret. exists c. auto.
Qed.

Lemma read_hex_digit_spec s r K :
  wp (lx_read_hex_digit_into s) r
     (fun '(d, s') r' => exists c, took r [c] r' /\ hex_digit c /\ d = digit_value c /\ s' = s ++ [c])
     anyE K.
Proof.
  unfold lx_read_hex_digit_into. eapply wp_conseq.
  - apply read_digit_spec. intros c Hc. apply to_digit_hex, hex_digit_iff, Hc.
  - intros [d s'] r' (c & T & Hc & Hd & Hs). exists c. apply hex_digit_iff in Hc. auto.
Qed.

Lemma read_hex_four s r K :
  wp (lx_read_hex_digits 4 0 4096 s) r
     (fun '(n, s') r' => exists e, took r e r' /\ s' = s ++ e /\
        exists a b c d, e = [a; b; c; d] /\ Forall hex_digit e /\ n = digits_value 16 e)
     anyE K.
Proof.
  cbn [lx_read_hex_digits].
  apply wp_bind. eapply wp_conseq; [apply read_hex_digit_spec|].
  intros [d1 s1] r1 (c1 & T1 & H1 & D1 & S1).
  apply wp_bind. eapply wp_conseq; [apply read_hex_digit_spec|].
  intros [d2 s2] r2 (c2 & T2 & H2 & D2 & S2).
  apply wp_bind. eapply wp_conseq; [apply read_hex_digit_spec|].
  intros [d3 s3] r3 (c3 & T3 & H3 & D3 & S3).
  apply wp_bind. eapply wp_conseq; [apply read_hex_digit_spec|].
  intros [d4 s4] r4 (c4 & T4 & H4 & D4 & S4).
  apply wp_ret. exists [c1; c2; c3; c4]. split; [|split].
  - pose proof (took_trans _ _ _ _ _ (took_trans _ _ _ _ _ (took_trans _ _ _ _ _ T1 T2) T3) T4) as T.
    exact T.
  - subst. rewrite <- !app_assoc. reflexivity.
  - exists c1, c2, c3, c4. split; [reflexivity|]. split; [fa|].
    subst. unfold digits_value. cbn [fold_left].
    change (N.shiftr 4096 4) with 256. change (N.shiftr 256 4) with 16.
    change (N.shiftr 16 4) with 1. lia.
Qed.

(** ** [add_digits] *)

Definition lsb_value (ds : list N) : N := fold_right (fun d acc => d + 16 * acc) 0 ds.

Lemma lsb_digits_value : forall ds, digits_value 16 ds = lsb_value (rev (map digit_value ds)).
Proof.
  intros ds. rewrite <- map_rev. rewrite <- (rev_involutive ds) at 1.
  induction (rev ds) as [|c l IH]; [reflexivity|].
  cbn [rev map lsb_value fold_right]. rewrite digits_value_snoc, IH. unfold lsb_value. lia.
Qed.

Lemma u32_mul_some : forall V a b x, u32_mul V a b = Some x ->
  x = (a * b) mod 2 ^ 32 /\ (overflow_checks V = true -> x = a * b /\ a * b < 2 ^ 32).
Proof.
  intros V a b x. unfold u32_mul. change two32 with (2 ^ 32).
  destruct (a * b <? 2 ^ 32) eqn:E.
  - apply N.ltb_lt in E. intros H; injection H as <-. rewrite N.mod_small by exact E. auto.
  - destruct (overflow_checks V); [discriminate|]. intros H; injection H as <-.
    split; [reflexivity|discriminate].
Qed.
Lemma u32_add_some : forall V a b x, u32_add V a b = Some x ->
  x = (a + b) mod 2 ^ 32 /\ (overflow_checks V = true -> x = a + b).
Proof.
  intros V a b x. unfold u32_add. change two32 with (2 ^ 32).
  destruct (a + b <? 2 ^ 32) eqn:E.
  - apply N.ltb_lt in E. intros H; injection H as <-. rewrite N.mod_small by exact E. auto.
  - destruct (overflow_checks V); [discriminate|]. intros H; injection H as <-.
    split; [reflexivity|discriminate].
Qed.
Lemma u32_mul_none : forall V a b, u32_mul V a b = None -> overflow_checks V = true /\ 2 ^ 32 <= a * b.
Proof.
  intros V a b. unfold u32_mul. change two32 with (2 ^ 32).
  destruct (a * b <? 2 ^ 32) eqn:E; [discriminate|]. apply N.ltb_ge in E.
  destruct (overflow_checks V); [auto|discriminate].
Qed.
Lemma u32_add_none : forall V a b, u32_add V a b = None -> overflow_checks V = true /\ 2 ^ 32 <= a + b.
Proof.
  intros V a b. unfold u32_add. change two32 with (2 ^ 32).
  destruct (a + b <? 2 ^ 32) eqn:E; [discriminate|]. apply N.ltb_ge in E.
  destruct (overflow_checks V); [auto|discriminate].
Qed.

Lemma add_digits_from_value : forall V ds sum place c,
  sum < 2 ^ 32 -> add_digits_from V ds 16 sum place = Some c ->
  c = (sum + place * lsb_value ds) mod 2 ^ 32.
Proof.
  intros V. induction ds as [|d ds IH]; intros sum place c Hs; cbn [add_digits_from lsb_value fold_right].
  - intros H; injection H as <-. rewrite N.mul_0_r, N.add_0_r, N.mod_small by exact Hs. reflexivity.
  - destruct (u32_mul V d place) as [x|] eqn:E1; [|discriminate].
    destruct (u32_add V sum x) as [y|] eqn:E2; [|discriminate].
    destruct (u32_mul V place 16) as [z|] eqn:E3; [|discriminate].
    apply u32_mul_some in E1 as [E1 _]. apply u32_add_some in E2 as [E2 _].
    apply u32_mul_some in E3 as [E3 _]. intros H.
    assert (Hm : 2 ^ 32 <> 0) by discriminate.
    apply IH in H; [|rewrite E2; apply N.mod_lt, Hm]. fold (lsb_value ds).
    rewrite H, E2, E1, E3. clear -Hm.
    rewrite (N.add_mod ((sum + _) mod _)) by exact Hm.
    rewrite N.mod_mod by exact Hm.
    rewrite (N.add_mod_idemp_r sum) by exact Hm.
    rewrite N.mul_mod_idemp_l by exact Hm.
    rewrite <- N.add_mod by exact Hm. f_equal. lia.
Qed.

Lemma pow16_S : forall i, 16 ^ N.of_nat (S i) = 16 ^ N.of_nat i * 16.
Proof. intros i. rewrite Nat2N.inj_succ, N.pow_succ_r by lia. lia. Qed.

Lemma pow16_lt : forall i, 16 ^ N.of_nat i < 2 ^ 32 <-> (i < 8)%nat.
Proof.
  intros i. change (2 ^ 32) with (16 ^ N.of_nat 8). split; intros H.
  - apply N.pow_lt_mono_r_iff in H; lia.
  - apply N.pow_lt_mono_r_iff; lia.
Qed.

Lemma add_digits_from_some_len : forall V ds sum i c,
  overflow_checks V = true -> (i < 8)%nat ->
  add_digits_from V ds 16 sum (16 ^ N.of_nat i) = Some c -> (i + length ds < 8)%nat.
Proof.
  intros V. induction ds as [|d ds IH]; intros sum i c Hc Hi; cbn [add_digits_from length].
  - intros _. lia.
  - destruct (u32_mul V d _) as [x|] eqn:E1; [|discriminate].
    destruct (u32_add V sum x) as [y|] eqn:E2; [|discriminate].
    destruct (u32_mul V _ 16) as [z|] eqn:E3; [|discriminate].
    apply u32_mul_some in E3 as [_ E3]. destruct (E3 Hc) as [-> Hlt]. rewrite <- pow16_S in *.
    intros H. apply pow16_lt in Hlt. apply IH in H; [lia|exact Hc|exact Hlt].
Qed.

Lemma add_digits_from_none : forall V ds sum i,
  (i < 8)%nat -> Forall (fun d => d < 16) ds -> sum < 16 ^ N.of_nat i ->
  add_digits_from V ds 16 sum (16 ^ N.of_nat i) = None ->
  overflow_checks V = true /\ (8 <= i + length ds)%nat.
Proof.
  intros V. induction ds as [|d ds IH]; intros sum i Hi Hds Hsum; cbn [add_digits_from length]; [discriminate|].
  inversion Hds as [|? ? Hd Hds']; subst.
  assert (Hle : 16 ^ N.of_nat i * 16 <= 2 ^ 32).
  { rewrite <- pow16_S. change (2 ^ 32) with (16 ^ N.of_nat 8). apply N.pow_le_mono_r; lia. }
  assert (Hx : d * 16 ^ N.of_nat i + 16 ^ N.of_nat i <= 16 ^ N.of_nat i * 16) by nia.
  destruct (u32_mul V d _) as [x|] eqn:E1.
  2:{ apply u32_mul_none in E1 as [? E1]. pose proof (N.pow_nonzero 16 (N.of_nat i)). lia. }
  assert (Hxv : x = d * 16 ^ N.of_nat i).
  { apply u32_mul_some in E1 as [E1 _]. rewrite E1. apply N.mod_small.
    pose proof (N.pow_nonzero 16 (N.of_nat i)). lia. }
  destruct (u32_add V sum x) as [y|] eqn:E2.
  2:{ apply u32_add_none in E2 as [? E2]. lia. }
  assert (Hyv : y = sum + x).
  { apply u32_add_some in E2 as [E2 _]. rewrite E2. apply N.mod_small. lia. }
  destruct (u32_mul V _ 16) as [z|] eqn:E3.
  2:{ apply u32_mul_none in E3 as [Hc E3]. intros _. split; [exact Hc|].
      rewrite <- pow16_S in E3. assert (~ (S i < 8)%nat); [|lia]. rewrite <- pow16_lt. lia. }
  apply u32_mul_some in E3 as [E3 _]. intros H.
  destruct (Nat.eq_dec i 7) as [->|Hne].
  - destruct (overflow_checks V) eqn:Hc; [split; [reflexivity|lia]|].
    exfalso. clear - H Hc. revert H. generalize z y. clear - Hc.
    induction ds as [|d ds IH]; intros z y; cbn [add_digits_from]; [discriminate|].
    unfold u32_mul, u32_add. rewrite Hc.
    destruct (d * z <? two32); destruct (_ <? two32); destruct (_ <? two32); apply IH.
  - rewrite N.mod_small in E3.
    2:{ rewrite <- pow16_S. apply pow16_lt. lia. }
    rewrite <- pow16_S in E3. rewrite E3 in H. apply IH in H; [|lia|exact Hds'|].
    + destruct H. split; [assumption|lia].
    + rewrite pow16_S. lia.
Qed.

Lemma add_digits_spec : forall V ds, Forall hex_digit ds ->
  match add_digits V (map digit_value ds) 16 with
  | Some c => c = digits_value 16 ds mod 2 ^ 32
              /\ (overflow_checks V = true -> (length ds < 8)%nat)
  | None => overflow_checks V = true /\ (8 <= length ds)%nat
  end.
Proof.
  intros V ds Hds. unfold add_digits. change 1 with (16 ^ N.of_nat 0).
  destruct (add_digits_from V _ 16 0 _) as [c|] eqn:E.
  - split.
    + apply add_digits_from_value in E; [|reflexivity].
      rewrite E, lsb_digits_value. f_equal. change (16 ^ N.of_nat 0) with 1. rewrite N.add_0_l, N.mul_1_l. reflexivity.
    + intros Hc. apply add_digits_from_some_len in E; [|exact Hc|lia].
      rewrite rev_length, map_length in E. lia.
  - apply add_digits_from_none in E; [|lia| |reflexivity].
    + rewrite rev_length, map_length in E. exact E.
    + apply Forall_rev. apply Forall_forall. intros d Hd. apply in_map_iff in Hd as (c & <- & Hc).
      apply digit_value_hex. rewrite Forall_forall in Hds. auto.
Qed.

(** ** [\u] escapes *)

Lemma unicode_escape_seq_spec V s r :
  wp (lx_read_unicode_escape_seq V s) r
     (fun '(n, s') r' => exists e, took r e r' /\ s' = s ++ e /\ unicode_escape V e n)
     anyE (Kseq V (rest r)).
Proof.
  unfold lx_read_unicode_escape_seq. apply wp_bind. apply wp_matches.
  - intros l r1 Hr T1 R1. apply wp_bind. eapply wp_conseq; [apply read_hex_digit_spec|].
    intros [d s1] r2 (c & T2 & Hc & Hd & Hs1). apply wp_bind.
    eapply (wp_until_with _ _
      (fun '(ds, s2) r3 => exists cs, took r1 cs r3 /\ digits hex_digit cs
                             /\ ds = map digit_value cs /\ s2 = s ++ lit "{" ++ cs)).
    + intros [ds s2] r3 c3 l3 (cs & T3 & Hcs & Hds & Hs2) R3 _.
      apply wp_bind. eapply wp_conseq; [apply read_hex_digit_spec|].
      intros [d4 s4] r4 (c4 & T4 & Hc4 & Hd4 & Hs4). apply wp_ret. split.
      * exists (cs ++ [c4]). split; [exact (took_trans _ _ _ _ _ T3 T4)|].
        destruct Hcs as [Hn Hf]. split; [split|split].
        -- destruct cs; discriminate.
        -- apply Forall_app. split; [exact Hf|fa].
        -- rewrite map_app, Hds, Hd4. reflexivity.
        -- rewrite Hs4, Hs2, <- !app_assoc. reflexivity.
      * apply took_length in T4. cbn in T4. lia.
    + intros [ds s2] r3 (cs & T3 & Hcs & Hds & Hs2) Hstop.
      apply wp_bind. unfold stopped in Hstop. destruct (rest r3) as [|c3 l3] eqn:R3.
      * (* end of input *)
        unfold lx_reread. apply wp_bind, wp_peek. rewrite R3. cbn [hd_error].
        apply wp_panic. left. split; [reflexivity|]. exists cs. split; [|exact Hcs].
        rewrite (took_rest _ _ _ T1), (took_rest _ _ _ T3), R3, app_nil_r. reflexivity.
      * apply N.eqb_eq in Hstop. subst c3. eapply wp_reread; [exact R3|].
        intros r4 T4 R4. destruct Hcs as [Hn Hf].
        pose proof (add_digits_spec V cs Hf) as Had. rewrite <- Hds in Had.
        pose proof (took_trans _ _ _ _ _ (took_trans _ _ _ _ _ T1 T3) T4) as T.
        destruct (add_digits V ds 16) as [code|].
        -- apply wp_ret. destruct Had as [Hcode Hlen].
           exists (lit "{" ++ cs ++ lit "}"). split; [|split].
           ++ rewrite <- app_assoc in T. exact T.
           ++ rewrite Hs2, <- !app_assoc. reflexivity.
           ++ rewrite Hcode. apply ue_braced; assumption.
        -- apply wp_panic. right. destruct Had as [Hc8 Hlen]. split; [reflexivity|].
           split; [exact Hc8|]. exists cs, l3. split; [|auto].
           rewrite (took_rest _ _ _ T), R4, <- !app_assoc. reflexivity.
    + exists [c]. split; [exact T2|]. split; [split; [discriminate|fa]|].
      split; [subst d; reflexivity|]. rewrite Hs1, <- app_assoc. reflexivity.
  - intros _. eapply wp_conseq; [apply read_hex_four|].
    intros [n s'] r' (e & T & Hs & a & b & c & d & He & Hf & Hn). exists e.
    split; [exact T|]. split; [exact Hs|]. subst e n. apply ue_four. exact Hf.
Qed.

(** ** Octal escapes *)

Lemma read_octal_spec : forall n ds code source r K,
  Forall oct_digit ds -> code = digits_value 8 ds -> code <= 255 ->
  wp (lx_read_octal n code source) r
     (fun '(code', source') r' => exists e, took r e r' /\ source' = source ++ e
        /\ Forall oct_digit e /\ (length e <= n)%nat
        /\ code' = digits_value 8 (ds ++ e) /\ code' <= 255
        /\ ((length e < n)%nat -> forall c l, rest r' = c :: l -> oct_digit c ->
              255 < digits_value 8 (ds ++ e ++ [c])))
     anyE K.
Proof.
  induction n as [|n IH]; intros ds code source r K Hds Hcode Hle; cbn [lx_read_octal].
  - apply wp_ret. exists []. split; [apply took_nil|]. rewrite !app_nil_r.
    repeat split; auto. cbn [length]. lia.
  - apply wp_bind, wp_peek.
    assert (Hstop : forall r1, rest r1 = rest r ->
       (forall c l, rest r = c :: l -> oct_digit c -> 255 < digits_value 8 (ds ++ [c])) ->
       r1 = r ->
       wp (ret (code, source)) r1
         (fun '(code', source') r' => exists e, took r e r' /\ source' = source ++ e
        /\ Forall oct_digit e /\ (length e <= S n)%nat
        /\ code' = digits_value 8 (ds ++ e) /\ code' <= 255
        /\ ((length e < S n)%nat -> forall c l, rest r' = c :: l -> oct_digit c ->
              255 < digits_value 8 (ds ++ e ++ [c]))) anyE K).
    { intros r1 _ H ->. apply wp_ret. exists []. split; [apply took_nil|]. rewrite !app_nil_r.
      repeat split; auto. cbn [length]. lia. }
    destruct (rest r) as [|c l] eqn:Hr; cbn [hd_error].
    + apply Hstop; [exact Hr| |reflexivity]. discriminate.
    + destruct (is_es_oct_digit c) eqn:Hc.
      * apply oct_digit_iff in Hc. rewrite (to_digit_oct c Hc).
        assert (Hnew : N.shiftl code 3 + digit_value c = digits_value 8 (ds ++ [c])).
        { rewrite digits_value_snoc, N.shiftl_mul_pow2, Hcode. reflexivity. }
        cbv zeta. rewrite Hnew. destruct (255 <? digits_value 8 (ds ++ [c])) eqn:Hbig.
        -- apply Hstop; [exact Hr| |reflexivity]. intros c' l' H _. injection H as <- <-.
           apply N.ltb_lt, Hbig.
        -- apply N.ltb_ge in Hbig. apply wp_bind. eapply wp_reread; [exact Hr|]. intros r1 T1 R1.
           eapply wp_conseq; [apply (IH (ds ++ [c])); [|reflexivity|exact Hbig]|].
           { apply Forall_app. split; [exact Hds|fa]. }
           intros [code' source'] r' (e & T & Hs & Hf & Hlen & Hcd & Hle' & Hmax).
           exists (c :: e). split; [exact (took_trans _ _ _ _ _ T1 T)|].
           split; [rewrite Hs, <- app_assoc; reflexivity|].
           split; [constructor; assumption|]. split; [cbn [length]; lia|].
           rewrite <- app_assoc in Hcd. split; [exact Hcd|]. split; [exact Hle'|].
           intros Hl c' l' Hr' Hc'. specialize (Hmax ltac:(cbn [length] in Hl; lia) c' l' Hr' Hc').
           rewrite <- app_assoc in Hmax. exact Hmax.
      * apply Hstop; [exact Hr| |reflexivity]. intros c' l' H Ho. injection H as <- <-.
        apply oct_digit_iff in Ho. congruence.
Qed.

Lemma from_u32_or_q_spec : forall n, code_char n (from_u32_or_q n).
Proof.
  intros n. unfold from_u32_or_q, code_char.
  destruct (from_u32_scalar n) as [[-> H]|[-> H]]; auto.
Qed.

(** ** String escapes *)

Lemma read_newline_spec r c l K : rest r = c :: l -> line_terminator c ->
  wp lx_read_newline r
     (fun nl r' => took r nl r' /\ continuation nl (rest r') /\ nl <> []) anyE K.
Proof.
  intros Hr Hc. unfold lx_read_newline. apply wp_bind, wp_peek. apply wp_bind, wp_peek_at.
  rewrite Hr. cbn [hd_error nth_error]. rewrite (proj2 (line_terminator_iff c) Hc).
  destruct ((c =? 13) && is_c (match l with [] => None | x :: _ => Some x end) 10) eqn:E.
  - apply andb_true_iff in E as [E1 E2]. apply N.eqb_eq in E1. subst c.
    apply is_c_true in E2. destruct l as [|d l]; [discriminate|]. injection E2 as ->.
    apply wp_bind. eapply wp_skip2; [exact Hr|]. intros r' T R. apply wp_ret.
    split; [exact T|]. split; [left; reflexivity|discriminate].
  - apply wp_bind. eapply wp_read; [exact Hr|]. intros r' T R. apply wp_ret.
    split; [exact T|]. split; [|discriminate]. right. exists c.
    split; [reflexivity|]. split; [exact Hc|]. intros -> [tl Htl].
    rewrite R in Htl. rewrite Htl in E. discriminate E.
Qed.

Definition escape_ok (V : env) (q : N) (e v : str) (r' : rd) : Prop :=
  forall b v2 l2, rest r' = b ++ l2 -> cooks V q b v2 l2 -> cooks V q (e ++ b) (v ++ v2) l2.

Lemma read_string_escape_spec V q source value r l :
  rest r = chr "\" :: l ->
  wp (lx_read_string_escape V source value) r
     (fun '(source', value') r' => exists e v, took r e r' /\ e <> []
        /\ source' = source ++ e /\ value' = value ++ v
        /\ (rest r' = [] \/ escape_ok V q e v r'))
     anyE (Kesc V (rest r)).
Proof.
  intros Hr. unfold lx_read_string_escape. apply wp_bind. eapply wp_reread; [exact Hr|].
  intros r1 T1 R1. apply wp_bind, wp_peek. rewrite R1. destruct l as [|c l]; cbn [hd_error].
  - apply wp_ret. exists [chr "\"], []. split; [exact T1|]. split; [discriminate|].
    rewrite app_nil_r. auto.
  - destruct (is_es_oct_digit c) eqn:Hoct.
    { apply oct_digit_iff in Hoct. apply wp_bind.
      eapply wp_conseq; [apply (read_octal_spec 3 []); [constructor|reflexivity|discriminate]|].
      intros [code source'] r' (e & T & Hs & Hf & Hlen & Hcd & Hle & Hmax). apply wp_ret.
      exists (chr "\" :: e), [from_u32_or_q code]. split; [exact (took_trans _ _ _ _ _ T1 T)|].
      split; [discriminate|]. split; [rewrite Hs, <- app_assoc; reflexivity|].
      split; [reflexivity|]. right. intros b v2 l2 Hb Hck.
      apply (ck_octal V q e _ b v2 l2); [|rewrite Hcd; apply from_u32_or_q_spec|exact Hck].
      split; [|split; [|split; [|split]]].
      - intros ->. apply took_rest in T. cbn [app] in T. rewrite R1 in T. symmetry in T.
        specialize (Hmax ltac:(cbn; lia) _ _ T Hoct). cbn [app] in Hmax.
        unfold digits_value in Hmax. cbn [fold_left] in Hmax.
        pose proof (digit_value_oct c Hoct). lia.
      - exact Hlen.
      - exact Hf.
      - cbn [app] in Hcd. rewrite <- Hcd. exact Hle.
      - intros Hl3 c' l' Hbl Hc'. rewrite <- Hb in Hbl. exact (Hmax Hl3 c' l' Hbl Hc'). }
    destruct (c =? chr "x") eqn:Hx.
    { apply N.eqb_eq in Hx. subst c. apply wp_bind. eapply wp_reread; [exact R1|].
      intros r2 T2 R2. apply wp_bind. eapply wp_conseq; [apply read_hex_digit_spec|].
      intros [d3 s3] r3 (c3 & T3 & H3 & D3 & S3).
      apply wp_bind. eapply wp_conseq; [apply read_hex_digit_spec|].
      intros [d4 s4] r4 (c4 & T4 & H4 & D4 & S4). apply wp_ret.
      exists (lit "\x" ++ [c3; c4]), [from_u32_or_q (N.shiftl d3 4 + d4)].
      split; [exact (took_trans _ _ _ _ _ (took_trans _ _ _ _ _ T1 T2) (took_trans _ _ _ _ _ T3 T4))|].
      split; [discriminate|]. split; [subst; rewrite <- !app_assoc; reflexivity|].
      split; [reflexivity|]. right. intros b v2 l2 Hb Hck.
      apply (ck_hex V q c3 c4 _ b v2 l2 H3 H4); [|exact Hck].
      replace (N.shiftl d3 4 + d4) with (digits_value 16 [c3; c4]); [apply from_u32_or_q_spec|].
      unfold digits_value. cbn [fold_left]. rewrite N.shiftl_mul_pow2. subst. change (2 ^ 4) with 16. lia. }
    destruct (c =? chr "u") eqn:Hu.
    { apply N.eqb_eq in Hu. subst c. apply wp_bind. eapply wp_reread; [exact R1|].
      intros r2 T2 R2. apply wp_bind.
      eapply wp_mono; [apply unicode_escape_seq_spec| |auto|].
      - intros [n s3] r3 (e & T3 & S3 & He). apply wp_ret.
        exists (lit "\u" ++ e), [from_u32_or_q n].
        split; [exact (took_trans _ _ _ _ _ (took_trans _ _ _ _ _ T1 T2) T3)|].
        split; [discriminate|]. split; [rewrite S3, <- !app_assoc; reflexivity|].
        split; [reflexivity|]. right. intros b v2 l2 Hb Hck.
        change ((lit "\u" ++ e) ++ b) with (lit "\u" ++ e ++ b).
        apply (ck_unicode V q e n); [exact He|apply from_u32_or_q_spec|exact Hck].
      - intros k Hk. apply Kseq_Kesc in Hk. rewrite Hr, <- R2. exact Hk. }
    destruct (is_es_newline c) eqn:Hnl.
    { apply line_terminator_iff in Hnl. apply wp_bind.
      eapply wp_conseq; [eapply read_newline_spec; eassumption|].
      intros nl r2 (T2 & Hct & Hne). apply wp_ret. exists (chr "\" :: nl), [].
      split; [exact (took_trans _ _ _ _ _ T1 T2)|]. split; [discriminate|].
      split; [rewrite <- app_assoc; reflexivity|]. split; [rewrite app_nil_r; reflexivity|].
      right. intros b v2 l2 Hb Hck. apply (ck_continuation V q nl b v2 l2); [|exact Hck].
      rewrite <- Hb. exact Hct. }
    apply wp_bind. eapply wp_reread; [exact R1|]. intros r2 T2 R2. apply wp_ret.
    exists [chr "\"; c], [unescape c]. split; [exact (took_trans _ _ _ _ _ T1 T2)|].
    split; [discriminate|]. split; [rewrite <- app_assoc; reflexivity|]. split; [reflexivity|].
    right. intros b v2 l2 Hb Hck. apply N.eqb_neq in Hx, Hu.
    apply oct_digit_false in Hoct. apply line_terminator_false in Hnl.
    apply (ck_single V q c b v2 l2); assumption.
Qed.

(** ** Strings *)

Lemma cooks_plain : forall V q w b v l,
  Forall (fun c => (c =? q) || (c =? chr "\") || is_es_newline c = false) w ->
  cooks V q b v l -> cooks V q (w ++ b) (w ++ v) l.
Proof.
  intros V q w b v l Hw Hck. induction Hw as [|c w Hc Hw IH]; [exact Hck|].
  cbn [app]. apply orb_false_iff in Hc as [Hc H3]. apply orb_false_iff in Hc as [H1 H2].
  apply N.eqb_neq in H1, H2. apply line_terminator_false in H3.
  apply ck_char; assumption.
Qed.

(** The value of a token at the position it was read. *)
Definition tok_at (r : rd) (w : str) (d : token_data) (t : token) (r' : rd) : Prop :=
  took r w r' /\ t = token_new (pos r) (pos r') d.

Lemma read_string_spec V r q l : rest r = q :: l ->
  wp (lx_read_string V) r
     (fun t r' => exists b v, let w := q :: b ++ [q] in
        tok_at r w (TString (StringLiteral (Some w) v)) t r' /\ cooks V q b v (q :: rest r'))
     anyE (Kesc V (rest r)).
Proof.
  intros Hr. unfold lx_read_string. apply wp_bind, wp_posn. apply wp_bind.
  eapply wp_read; [exact Hr|]. intros r1 T1 R1. apply wp_bind.
  refine (wp_self _ _ (fun r0 => loopM (S (length (rest r0))) _ ([q], [])) r1 _ _).
  eapply (wp_loop _ _ _
    (fun '(source, value) r2 => exists w, took r1 w r2 /\ source = q :: w /\
        (rest r2 = [] \/ escape_ok V q w value r2)) (fun _ r => length (rest r))).
  - intros [source value] r2 (w & T2 & Hs & Hok). apply wp_bind.
    unfold lx_read_into2_until. apply wp_bind. apply wp_read_until.
    intros w3 r3 T3 F3 Hstop. apply wp_ret. apply wp_bind, wp_peek.
    unfold stopped in Hstop. destruct (rest r3) as [|c l3] eqn:R3; cbn [hd_error]; [exact I|].
    destruct (c =? chr "\") eqn:Hbs.
    { apply N.eqb_eq in Hbs. subst c. apply wp_bind.
      eapply wp_mono; [eapply read_string_escape_spec; exact R3| |auto|].
      - intros [source4 value4] r4 (e & v & T4 & Hne & S4 & V4 & Hok4). apply wp_ret.
        pose proof (took_trans _ _ _ _ _ (took_trans _ _ _ _ _ T2 T3) T4) as T. split.
        + exists (w ++ w3 ++ e). split; [rewrite app_assoc; exact T|].
          split; [rewrite S4, Hs; cbn [app]; rewrite <- app_assoc; reflexivity|].
          destruct Hok4 as [Hok4|Hok4]; [left; exact Hok4|].
          destruct Hok as [Hok|Hok].
          { rewrite (took_rest _ _ _ T3), R3 in Hok. destruct w3; discriminate. }
          right. intros b v2 l2 Hb Hck. rewrite V4, <- !app_assoc.
          apply Hok.
          * rewrite (took_rest _ _ _ T3), (took_rest _ _ _ T4), Hb, <- !app_assoc. reflexivity.
          * apply cooks_plain; [exact F3|]. apply Hok4; assumption.
        + apply took_length in T3, T4. destruct e; [congruence|]. cbn [length] in T4. lia.
      - intros k Hk.
        apply (Kesc_took V r _ r3 k (took_trans _ _ _ _ _ T1 (took_trans _ _ _ _ _ T2 T3)) Hk). }
    destruct (is_es_newline c) eqn:Hnl; [exact I|].
    rewrite !orb_false_r in Hstop. apply N.eqb_eq in Hstop. subst c.
    apply wp_bind. eapply wp_skip; [exact R3|]. intros r4 T4 R4. apply wp_ret.
    apply wp_bind, wp_posn. apply wp_ret.
    exists (w ++ w3), (value ++ w3). cbv zeta. split.
    + split; [|rewrite Hs; reflexivity].
      pose proof (took_trans _ _ _ _ _ (took_trans _ _ _ _ _ T1 (took_trans _ _ _ _ _ T2 T3)) T4) as T.
      exact T.
    + destruct Hok as [Hok|Hok].
      { rewrite (took_rest _ _ _ T3), R3 in Hok. destruct w3; discriminate. }
      apply Hok; [rewrite (took_rest _ _ _ T3), R3, R4; reflexivity|].
      rewrite <- (app_nil_r w3). apply cooks_plain; [exact F3|constructor].
  - exists []. split; [apply took_nil|]. split; [reflexivity|]. right.
    intros b v2 l2 Hb Hck. exact Hck.
  - lia.
Qed.

(** ** Words *)

Lemma read_word_escape_spec V w r :
  wp (lx_read_word_escape V w) r
     (fun w' r' => exists e n, took r (lit "u" ++ e) r' /\ unicode_escape V e n /\ scalar n
                     /\ w' = Word true (text w ++ [n]))
     anyE (fun k => exists l, rest r = lit "u" ++ l /\ Kseq V l k).
Proof.
  unfold lx_read_word_escape. apply wp_bind, wp_peek.
  destruct (is_c (hd_error (rest r)) (chr "u")) eqn:Hc; [|exact I].
  apply is_c_true, hd_cons in Hc as [l Hr].
  apply wp_bind. eapply wp_reread; [exact Hr|]. intros r1 T1 R1.
  apply wp_bind. eapply wp_mono; [apply unicode_escape_seq_spec| |auto|].
  - intros [n s] r2 (e & T2 & _ & He).
    destruct (from_u32_scalar n) as [[-> H]|[-> H]]; [|exact I].
    apply wp_ret. exists e, n. split; [exact (took_trans _ _ _ _ _ T1 T2)|]. auto.
  - intros k Hk. exists (rest r1). rewrite R1 in *. split; [exact Hr|exact Hk].
Qed.

Lemma read_word_parts_spec V r :
  wp (lx_read_word_parts V) r
     (fun w r' => exists t, took r t r' /\ word_text V t (text w) (had_escape w)
                    /\ word_end V (rest r'))
     anyE (Kesc V (rest r)).
Proof.
  unfold lx_read_word_parts.
  eapply (wp_until_with _ _
    (fun w r1 => exists t, took r t r1 /\
       forall t2 v2 e2, word_text V t2 v2 e2 ->
         word_text V (t ++ t2) (text w ++ v2) (had_escape w || e2))).
  - intros w r1 c l (t & T1 & Hw) R1 Hpred. apply wp_bind.
    eapply wp_read; [exact R1|]. intros r2 T2 R2.
    destruct (c =? chr "\") eqn:Hbs.
    + apply N.eqb_eq in Hbs. subst c.
      eapply wp_mono; [apply read_word_escape_spec| |auto|].
      * intros w' r3 (e & n & T3 & He & Hn & ->). split.
        -- exists (t ++ lit "\u" ++ e).
           split; [exact (took_trans _ _ _ _ _ T1 (took_trans _ _ _ _ _ T2 T3))|].
           intros t2 v2 e2 Ht2. cbn [text had_escape]. rewrite <- !app_assoc.
           replace (true || e2) with (had_escape w || true)
             by (destruct (had_escape w); reflexivity).
           apply Hw. apply (wt_escape V e n t2 v2 e2); assumption.
        -- apply took_length in T2, T3. cbn [length app] in T2. lia.
      * intros k (l3 & Hl3 & Hk). apply Kseq_Kesc in Hk.
        apply (Kesc_took V r t r1 k T1). rewrite R1, <- R2, Hl3. exact Hk.
    + apply wp_ret. split.
      * exists (t ++ [c]). split; [exact (took_trans _ _ _ _ _ T1 T2)|].
        intros t2 v2 e2 Ht2. cbn [text had_escape]. rewrite <- !app_assoc. apply Hw.
        apply wt_char; [|exact Ht2]. cbn [negb] in Hpred.
        apply negb_false_iff in Hpred. apply id_part_iff, Hpred.
      * apply took_length in T2. cbn [length] in T2. lia.
  - intros w r1 (t & T1 & Hw) Hstop. exists t. split; [exact T1|]. split.
    + specialize (Hw [] [] false (wt_nil V)). rewrite !app_nil_r, orb_false_r in Hw. exact Hw.
    + unfold stopped in Hstop. split.
      * destruct (rest r1) as [|c l]; cbn [starts_with]; [tauto|].
        apply andb_true_iff in Hstop as [_ H]. apply negb_true_iff, id_part_false in H. exact H.
      * intros [tl Htl]. rewrite Htl in Hstop. cbn in Hstop. discriminate.
  - exists []. split; [apply took_nil|]. intros t2 v2 e2 H. exact H.
Qed.

(** ** Regular expressions *)

(** Panics while reading the body. *)
Definition Kre (l : str) (k : panic) : Prop :=
  k = P_read_eof /\ (re_body l \/ exists b c, l = b ++ lit "[" ++ c /\ re_body b /\ re_class c).

Lemma re_body_app : forall a b, re_body a -> re_body b -> re_body (a ++ b).
Proof.
  intros a b Ha Hb. induction Ha as [|c w ? ? ? ? Hw IH|c w ? Hw IH|k w Hk Hw IH]; [exact Hb| | |].
  - apply rb_char; assumption.
  - apply (rb_escape c (w ++ b)); assumption.
  - rewrite <- !app_assoc. apply (rb_class k (w ++ b)); assumption.
Qed.
Lemma re_class_app : forall a b, re_class a -> re_class b -> re_class (a ++ b).
Proof.
  intros a b Ha Hb. induction Ha as [|c w ? ? Hw IH|c w ? Hw IH]; [exact Hb| |].
  - apply rc_char; assumption.
  - apply (rc_escape c (w ++ b)); assumption.
Qed.

Lemma regexp_backslash_spec s r l K : rest r = chr "\" :: l ->
  wp (lx_read_regexp_backslash s) r
     (fun s' r' => exists c, took r [chr "\"; c] r' /\ ~ line_terminator c /\ s' = s ++ [chr "\"; c])
     anyE K.
Proof.
  intros Hr. unfold lx_read_regexp_backslash. apply wp_bind. eapply wp_reread; [exact Hr|].
  intros r1 T1 R1. apply wp_bind, wp_peek. rewrite R1.
  destruct l as [|c l]; cbn [hd_error]; [exact I|].
  destruct (is_es_newline c) eqn:Hc; [exact I|]. apply line_terminator_false in Hc.
  apply wp_bind. eapply wp_reread; [exact R1|]. intros r2 T2 R2. apply wp_ret.
  exists c. split; [exact (took_trans _ _ _ _ _ T1 T2)|]. auto.
Qed.

Lemma regexp_class_char_spec s r c0 l K : rest r = c0 :: l -> c0 <> chr "]" ->
  wp (lx_read_regexp_class_char s) r
     (fun s' r' => exists w, took r w r' /\ w <> [] /\ re_class w /\ s' = s ++ w) anyE K.
Proof.
  intros Hr Hc0. unfold lx_read_regexp_class_char. apply wp_bind, wp_peek. rewrite Hr.
  cbn [hd_error]. destruct (c0 =? chr "\") eqn:Hbs.
  - apply N.eqb_eq in Hbs. subst c0. eapply wp_conseq; [eapply regexp_backslash_spec; exact Hr|].
    intros s' r' (c & T & Hc & Hs). exists [chr "\"; c]. split; [exact T|].
    split; [discriminate|]. split; [|exact Hs]. apply (rc_escape c []); [exact Hc|constructor].
  - apply N.eqb_neq in Hbs. apply wp_bind. eapply wp_reread; [exact Hr|]. intros r1 T1 R1.
    apply wp_ret. exists [c0]. split; [exact T1|]. split; [discriminate|].
    split; [|reflexivity]. apply rc_char; [assumption|assumption|constructor].
Qed.

Lemma regexp_class_spec s r l : rest r = chr "[" :: l ->
  wp (lx_read_regexp_class s) r
     (fun s' r' => exists k, let w := lit "[" ++ k ++ lit "]" in
        took r w r' /\ re_class k /\ s' = s ++ w)
     anyE (fun p => p = P_read_eof /\ re_class l).
Proof.
  intros Hr. unfold lx_read_regexp_class. apply wp_bind. eapply wp_reread; [exact Hr|].
  intros r1 T1 R1. apply wp_bind.
  eapply (wp_until_with _ _
    (fun s2 r2 => exists k, took r1 k r2 /\ re_class k /\ s2 = s ++ lit "[" ++ k)).
  - intros s2 r2 c l2 (k & T2 & Hk & Hs2) R2 Hc. apply N.eqb_neq in Hc.
    eapply wp_conseq; [eapply regexp_class_char_spec; eassumption|].
    intros s3 r3 (w & T3 & Hne & Hw & Hs3). split.
    + exists (k ++ w). split; [exact (took_trans _ _ _ _ _ T2 T3)|].
      split; [apply re_class_app; assumption|]. rewrite Hs3, Hs2, <- !app_assoc. reflexivity.
    + apply took_length in T3. destruct w; [congruence|]. cbn [length] in T3. lia.
  - intros s2 r2 (k & T2 & Hk & Hs2) Hstop. apply wp_bind. unfold stopped in Hstop.
    destruct (rest r2) as [|c l2] eqn:R2.
    + unfold lx_reread. apply wp_bind, wp_peek. rewrite R2. cbn [hd_error]. apply wp_panic.
      split; [reflexivity|]. rewrite <- R1, (took_rest _ _ _ T2), R2, app_nil_r. exact Hk.
    + apply N.eqb_eq in Hstop. subst c. eapply wp_reread; [exact R2|]. intros r3 T3 R3.
      apply wp_ret. exists k. cbv zeta.
      split; [exact (took_trans _ _ _ _ _ T1 (took_trans _ _ _ _ _ T2 T3))|].
      split; [exact Hk|]. rewrite Hs2, <- !app_assoc. reflexivity.
  - exists []. split; [apply took_nil|]. split; [constructor|reflexivity].
Qed.

Lemma regexp_char_spec s r c0 l : rest r = c0 :: l -> c0 <> chr "/" ->
  wp (lx_read_regexp_char s) r
     (fun s' r' => exists w, took r w r' /\ w <> [] /\ re_body w /\ s' = s ++ w)
     anyE (Kre (rest r)).
Proof.
  intros Hr Hc0. unfold lx_read_regexp_char. apply wp_bind, wp_peek. rewrite Hr at 1.
  cbn [hd_error]. destruct (c0 =? chr "\") eqn:Hbs.
  { apply N.eqb_eq in Hbs. subst c0. eapply wp_conseq; [eapply regexp_backslash_spec; exact Hr|].
    intros s' r' (c & T & Hc & Hs). exists [chr "\"; c]. split; [exact T|].
    split; [discriminate|]. split; [|exact Hs]. apply (rb_escape c []); [exact Hc|constructor]. }
  destruct (c0 =? chr "[") eqn:Hcl.
  { apply N.eqb_eq in Hcl. subst c0.
    eapply wp_mono; [eapply regexp_class_spec; exact Hr| |auto|].
    - intros s' r' (k & T & Hk & Hs). cbv zeta in *. exists (lit "[" ++ k ++ lit "]").
      split; [exact T|]. split; [discriminate|]. split; [|exact Hs].
      apply (rb_class k []); [exact Hk|constructor].
    - intros p [-> Hp]. split; [reflexivity|]. right. exists [], l.
      split; [exact Hr|]. split; [constructor|exact Hp]. }
  destruct (is_es_newline c0) eqn:Hnl; [exact I|].
  apply N.eqb_neq in Hbs, Hcl. apply line_terminator_false in Hnl.
  apply wp_bind. eapply wp_reread; [exact Hr|]. intros r1 T1 R1. apply wp_ret.
  exists [c0]. split; [exact T1|]. split; [discriminate|]. split; [|reflexivity].
  apply rb_char; try assumption. constructor.
Qed.

Lemma Kre_app : forall b l k, re_body b -> Kre l k -> Kre (b ++ l) k.
Proof.
  intros b l k Hb [Hk [H|(b' & c & -> & H1 & H2)]]; (split; [exact Hk|]).
  - left. apply re_body_app; assumption.
  - right. exists (b ++ b'), c. rewrite <- app_assoc. split; [reflexivity|].
    split; [apply re_body_app; assumption|assumption].
Qed.

Lemma read_regexp_spec V r l : rest r = chr "/" :: l ->
  wp (lx_read_regexp V) r
     (fun t r' => exists b fw fv esc, let w := lit "/" ++ b ++ lit "/" ++ fw in
        tok_at r w (TRegExp (RegExpLiteral b fv)) t r' /\ re_body b /\ word_text V fw fv esc
        /\ word_end V (rest r'))
     anyE (fun k => Kesc V (rest r) k \/ (k = P_read_eof /\ ends_in_regexp (rest r))).
Proof.
  intros Hr. unfold lx_read_regexp. apply wp_bind, wp_posn. apply wp_bind.
  eapply wp_reread; [exact Hr|]. intros r1 T1 R1. apply wp_bind.
  assert (HK : forall k, Kre l k -> k = P_read_eof /\ ends_in_regexp (rest r)).
  { intros k [-> Hk]. split; [reflexivity|]. exists [], l. split; [exact Hr|exact Hk]. }
  eapply (wp_until_with _ _ (fun s2 r2 => took r1 s2 r2 /\ re_body s2)).
  - intros s2 r2 c l2 (T2 & Hb2) R2 Hc. apply N.eqb_neq in Hc.
    eapply wp_mono; [eapply regexp_char_spec; eassumption| |auto|].
    + intros s3 r3 (w & T3 & Hne & Hw & Hs3). split.
      * rewrite Hs3. split; [exact (took_trans _ _ _ _ _ T2 T3)|]. apply re_body_app; assumption.
      * apply took_length in T3. destruct w; [congruence|]. cbn [length] in T3. lia.
    + intros k Hk. right. apply HK. rewrite <- R1, (took_rest _ _ _ T2). apply Kre_app; assumption.
  - intros s2 r2 (T2 & Hb2) Hstop. apply wp_bind. unfold stopped in Hstop.
    destruct (rest r2) as [|c l2] eqn:R2.
    + unfold lx_reread. apply wp_bind, wp_peek. rewrite R2. cbn [hd_error]. apply wp_panic.
      right. apply HK. split; [reflexivity|]. left.
      rewrite <- R1, (took_rest _ _ _ T2), R2, app_nil_r. exact Hb2.
    + apply N.eqb_eq in Hstop. subst c. eapply wp_reread; [exact R2|]. intros r3 T3 R3.
      pose proof (took_trans _ _ _ _ _ T1 (took_trans _ _ _ _ _ T2 T3)) as T.
      apply wp_bind. eapply wp_mono; [apply read_word_parts_spec| |auto|].
      * intros w r4 (t & T4 & Ht & He). apply wp_bind, wp_posn. apply wp_ret.
        exists s2, t, (text w), (had_escape w). cbv zeta. split; [|auto].
        split; [|reflexivity].
        pose proof (took_trans _ _ _ _ _ T T4) as T5. rewrite <- !app_assoc in T5. exact T5.
      * intros k Hk. left. exact (Kesc_took V r _ r3 k T Hk).
  - split; [apply took_nil|constructor].
Qed.
