(** The lexer against the lexical grammar of SpecLexer.v. *)
From Coq Require Import String Ascii List NArith Arith Bool Lia.
From Verif Require Import Base Chars F64 Word Token Reader Lexer Wp SpecReader ReaderProofs
  SpecLexer LexWp LexLit.
Import ListNotations.
Local Open Scope N_scope.

(** ** Word tables *)

Lemma str_eqb_iff : forall a b, str_eqb a b = true <-> a = b.
Proof.
  induction a as [|x a IH]; intros [|y b]; cbn [str_eqb]; try (split; [discriminate|discriminate]).
  - tauto.
  - rewrite andb_true_iff, N.eqb_eq, IH. split; [intros [-> ->]; reflexivity|].
    intros H; injection H; auto.
Qed.

Lemma assoc_in : forall A (l : list (str * A)) s v, assoc l s = Some v -> In (s, v) l.
Proof.
  intros A. induction l as [|[k v0] l IH]; intros s v; cbn [assoc]; [discriminate|].
  destruct (str_eqb k s) eqn:E.
  - apply str_eqb_iff in E. subst. intros H; injection H as ->. left; reflexivity.
  - intros H. right. apply IH, H.
Qed.

Lemma reserved_table_spec : forall s r, assoc reserved_table s = Some r <-> reserved_name r = s.
Proof.
  intros s r. split.
  - intros H. apply assoc_in in H.
    assert (F : Forall (fun e => reserved_name (snd e) = fst e) reserved_table)
      by (repeat (apply Forall_cons; [reflexivity|]); apply Forall_nil).
    rewrite Forall_forall in F. exact (F _ H).
  - intros <-. destruct r; reflexivity.
Qed.
Lemma contextual_table_spec : forall s a, assoc contextual_table s = Some a <-> atom_name a = s.
Proof.
  intros s r. split.
  - intros H. apply assoc_in in H.
    assert (F : Forall (fun e => atom_name (snd e) = fst e) contextual_table)
      by (repeat (apply Forall_cons; [reflexivity|]); apply Forall_nil).
    rewrite Forall_forall in F. exact (F _ H).
  - intros <-. destruct r; reflexivity.
Qed.
Lemma name_from_table_spec : forall s a, assoc name_from_table s = Some a <-> atom_name a = s.
Proof.
  intros s r. split.
  - intros H. apply assoc_in in H.
    assert (F : Forall (fun e => atom_name (snd e) = fst e) name_from_table)
      by (repeat (apply Forall_cons; [reflexivity|]); apply Forall_nil).
    rewrite Forall_forall in F. exact (F _ H).
  - intros <-. destruct r; reflexivity.
Qed.

(** What [tokenize] makes of a word. *)
Lemma tokenize_spec : forall w,
  match tokenize w with
  | inr (TReserved r) => reserved_name r = text w /\ had_escape w = false
  | inr (TIdent n) => (forall r, reserved_name r <> text w) /\ names n (text w) (had_escape w)
  | inl e => exists r, e = ReservedWordWithEscapes r /\ reserved_name r = text w /\ had_escape w = true
  | _ => False
  end.
Proof.
  intros w. unfold tokenize. destruct (assoc reserved_table (text w)) as [r|] eqn:E.
  - apply reserved_table_spec in E. destruct (had_escape w); cbn [negb]; [eauto|auto].
  - assert (Hr : forall r, reserved_name r <> text w).
    { intros r H. apply reserved_table_spec in H. congruence. }
    destruct (assoc contextual_table (text w)) as [a|] eqn:Ea.
    + apply contextual_table_spec in Ea. destruct (had_escape w) eqn:He; cbn [negb].
      * split; [exact Hr|]. cbn. auto.
      * split; [exact Hr|]. cbn. auto.
    + split; [exact Hr|]. cbn. split; [reflexivity|]. right.
      intros a H. apply contextual_table_spec in H. congruence.
Qed.

Lemma word_text_nil : forall V v esc, word_text V [] v esc -> v = [].
Proof. intros V v esc H. inversion H; subst. reflexivity. Qed.

(** A word without escapes is its own text. *)
Lemma word_text_plain : forall V w v esc, word_text V w v esc -> esc = false -> v = w.
Proof.
  intros V w v esc H. induction H; intros E; [reflexivity| |discriminate].
  f_equal. auto.
Qed.

Lemma read_word_spec V op r c l : rest r = c :: l ->
  is_es_identifier_start V c = true \/ c = chr "\" ->
  (forall c, id_start V c -> id_part V c) ->
  wp (lx_read_word V) r
     (fun t r' => exists d w, tok_at r w d t r' /\ lexeme V op d w (rest r'))
     anyE (Kesc V (rest r)).
Proof.
  intros Hr Hc Hsp. unfold lx_read_word. apply wp_bind, wp_peek. rewrite Hr at 1. cbn [hd_error].
  assert (E : (c =? chr "\") || is_es_identifier_start V c = true).
  { destruct Hc as [->| ->]; [apply orb_true_r|reflexivity]. }
  rewrite E. apply wp_bind, wp_posn. apply wp_bind.
  eapply wp_conseq; [apply read_word_parts_spec|].
  intros w r1 (t & T & Ht & He).
  assert (Hne : t <> []).
  { intros ->. apply took_rest in T. cbn [app] in T. rewrite Hr in T. destruct He as [H1 H2].
    rewrite <- T in *. destruct Hc as [Hc| ->].
    - apply H1. cbn. apply Hsp, id_start_iff, Hc.
    - apply H2. exists l. reflexivity. }
  destruct (text w) as [|c0 v0] eqn:Htx.
  { exfalso. inversion Ht; subst. congruence. }
  rewrite <- Htx in *. clear Htx c0 v0. pose proof (tokenize_spec w) as Htk.
  destruct (tokenize w) as [e|[r0|p|n|s|x|n]]; try contradiction.
  - exact I.
  - apply wp_bind, wp_posn. apply wp_ret. destruct Htk as [Hn Hesc].
    pose proof (word_text_plain _ _ _ _ Ht Hesc) as Hp.
    exists (TReserved r0), t. split; [split; [exact T|reflexivity]|].
    rewrite <- Hp, <- Hn. apply lx_reserved, He.
  - apply wp_bind, wp_posn. apply wp_ret. destruct Htk as [Hn Hnm].
    exists (TIdent n), t. split; [split; [exact T|reflexivity]|].
    apply (lx_ident V op n t (text w) (had_escape w)); try assumption.
    apply took_rest in T. rewrite Hr in T. destruct t as [|c1 t]; [congruence|].
    cbn [app] in T. injection T as <- _. destruct Hc as [Hc| ->].
    + left. cbn. apply id_start_iff, Hc.
    + right. exists t. reflexivity.
Qed.

(** ** Numbers *)

Lemma radix_fold_some : forall base ds acc,
  (forall c, In c ds -> to_digit c base <> None) -> exists v, radix_fold base ds acc = Some v.
Proof.
  intros base. induction ds as [|c ds IH]; intros acc H; cbn [radix_fold]; [eauto|].
  destruct (to_digit c base) eqn:E.
  - apply IH. intros c' Hc'. apply H. right; exact Hc'.
  - exfalso. apply (H c); [left; reflexivity|exact E].
Qed.

Lemma parse_f64_some : forall ip fp neg e, ip ++ fp <> [] -> exists v, parse_f64 ip fp neg e = Some v.
Proof.
  intros ip fp neg e H. unfold parse_f64. destruct (ip ++ fp); [congruence|]. eauto.
Qed.

Lemma app_not_nil_l : forall (a b : str), a <> [] -> a ++ b <> [].
Proof. intros [|x a] b H; [congruence|discriminate]. Qed.

(** Computing a value never panics. *)
Lemma number_value_some : forall s, number_ok s -> exists v, number_value s = Some v.
Proof.
  intros [m e|r ds|ip fp e]; cbn [number_ok number_value].
  - intros ([Hm _] & _ & _). destruct e; apply parse_f64_some, app_not_nil_l, Hm.
  - intros H. apply radix_fold_some. intros c Hc.
    assert (Hd : Forall bin_digit ds /\ radix_value r = 2 \/ Forall oct_digit ds /\ radix_value r = 8
                 \/ Forall hex_digit ds /\ radix_value r = 16).
    { destruct r as [cc|[cc|]|cc]; cbn [radix_value]; cbn [number_ok] in H.
      - left. split; [apply H|reflexivity].
      - right; left. split; [apply H|reflexivity].
      - right; left. split; [|reflexivity]. destruct H as (ds' & -> & _ & H).
        constructor; [|exact H]. split; discriminate.
      - right; right. split; [apply H|reflexivity]. }
    destruct Hd as [[Hd ->]|[[Hd ->]|[Hd ->]]]; rewrite Forall_forall in Hd; specialize (Hd c Hc).
    + rewrite to_digit_bin by exact Hd. discriminate.
    + rewrite to_digit_oct by exact Hd. discriminate.
    + rewrite to_digit_hex by exact Hd. discriminate.
  - destruct ip as [ip|], fp as [fp|]; cbn [number_ok format_int]; try tauto.
    + intros ([Hm _] & _). destruct e; apply parse_f64_some, app_not_nil_l, Hm.
    + intros ([Hm _] & _). destruct e; apply parse_f64_some; exact Hm.
Qed.

Lemma decimal_digits_spec r (Q : str -> rd -> Prop) X K :
  (forall w r', took r w r' -> Forall dec_digit w -> ~ starts_with dec_digit (rest r') -> Q w r') ->
  wp lx_read_decimal_digits r Q X K.
Proof.
  intros HQ. apply wp_read_until. intros w r' T F S. apply HQ; [exact T| |].
  - eapply Forall_impl; [|exact F]. intros c Hc. apply negb_false_iff in Hc. apply dec_digit_iff, Hc.
  - unfold stopped in S. destruct (rest r') as [|c l]; cbn [starts_with]; [tauto|].
    apply negb_true_iff, dec_digit_false in S. exact S.
Qed.

Lemma exp_part_spec r K :
  wp lx_read_exp_part r (fun e r' => took r (exp_text e) r' /\ exp_ok e) anyE K.
Proof.
  unfold lx_read_exp_part. apply wp_bind, wp_peek.
  assert (Hgo : forall cc l, rest r = case_text cc "e" "E" ++ l ->
    wp (lx_skip ;;;
        c <- lx_peek ;;
        sg <- (if is_c c (chr "+") then lx_skip ;;; ret (Some Plus)
               else if is_c c (chr "-") then lx_skip ;;; ret (Some Minus)
               else ret None) ;;
        c <- lx_peek ;;
        match c with
        | Some ch =>
            if negb (is_es_dec_digit ch) then err (MissingExponent (Some ch))
            else v <- lx_read_decimal_digits ;; ret (Some (Exp cc sg v))
        | None => err (MissingExponent None)
        end) r (fun e r' => took r (exp_text e) r' /\ exp_ok e) anyE K).
  { intros cc l Hr. apply wp_bind.
    assert (Hr' : exists c, case_text cc "e" "E" = [c]) by (destruct cc; eexists; reflexivity).
    destruct Hr' as [c Hc]. rewrite Hc in Hr. eapply wp_skip; [exact Hr|].
    intros r1 T1 R1. apply wp_bind, wp_peek. apply wp_bind.
    apply (wp_conseq _ _ _ _ _
      (fun sg r2 => took r1 (match sg with None => [] | Some Plus => lit "+" | Some Minus => lit "-" end) r2)).
    - destruct (is_c (hd_error (rest r1)) (chr "+")) eqn:E1.
      { apply is_c_true, hd_cons in E1 as [l1 E1]. apply wp_bind. eapply wp_skip; [exact E1|].
        intros r2 T2 _. apply wp_ret. exact T2. }
      destruct (is_c (hd_error (rest r1)) (chr "-")) eqn:E2.
      { apply is_c_true, hd_cons in E2 as [l1 E2]. apply wp_bind. eapply wp_skip; [exact E2|].
        intros r2 T2 _. apply wp_ret. exact T2. }
      apply wp_ret. apply took_nil.
    - intros sg r2 T2. apply wp_bind, wp_peek. destruct (rest r2) as [|d l2] eqn:R2; cbn [hd_error]; [exact I|].
      destruct (is_es_dec_digit d) eqn:Hd; cbn [negb]; [|exact I]. apply wp_bind.
      apply decimal_digits_spec. intros w r3 T3 F3 N3. apply wp_ret. split.
      + cbn [exp_text exp_e exp_sign exp_value]. rewrite Hc.
        exact (took_trans _ _ _ _ _ T1 (took_trans _ _ _ _ _ T2 T3)).
      + cbn [exp_ok exp_value]. split; [|exact F3]. intros ->. apply took_rest in T3.
        cbn [app] in T3. rewrite <- T3, R2 in N3. apply N3. apply dec_digit_iff, Hd. }
  destruct (is_c (hd_error (rest r)) (chr "e")) eqn:E1.
  { apply is_c_true, hd_cons in E1 as [l E1]. exact (Hgo LowerCase l E1). }
  destruct (is_c (hd_error (rest r)) (chr "E")) eqn:E2.
  { apply is_c_true, hd_cons in E2 as [l E2]. exact (Hgo UpperCase l E2). }
  apply wp_ret. split; [apply took_nil|exact I].
Qed.

(** The part of [lexeme] that the final check of [read_number] does not establish. *)
Definition number_read (r : rd) (t : token) (r' : rd) : Prop :=
  exists s v, tok_at r (number_text s) (TNumber (NumberLiteral (Some s) v)) t r'
    /\ number_ok s /\ number_value s = Some v
    /\ (forall m, s = DecimalInt m None -> ~ prefix (lit ".") (rest r')).

Lemma number_token_spec r0 r s K :
  took r0 (number_text s) r -> number_ok s ->
  (forall m, s = DecimalInt m None -> ~ prefix (lit ".") (rest r)) ->
  wp (lx_number_token (pos r0) s) r (number_read r0) anyE K.
Proof.
  intros T Hok Hdot. unfold lx_number_token.
  destruct (number_value_some s Hok) as [v Hv]. rewrite Hv.
  apply wp_bind, wp_posn. apply wp_ret. exists s, v. split; [split; [exact T|reflexivity]|]. auto.
Qed.

Lemma radix_int_spec base pred cons missing r c l (P : N -> Prop) (pre : char_case -> str) K :
  rest r = chr "0" :: c :: l -> is_alphabetic c = true ->
  (forall d, pred d = true <-> P d) ->
  (forall d, P d -> to_digit d base = Some (digit_value d)) ->
  pre (if is_lowercase c then LowerCase else UpperCase) = [chr "0"; c] ->
  (forall cc ds, digits P ds -> number_ok (cons cc ds)) ->
  (forall cc ds, number_text (cons cc ds) = pre cc ++ ds) ->
  (forall cc ds m, cons cc ds <> DecimalInt m None) ->
  wp (lx_read_radix_int base pred cons missing) r (number_read r) anyE K.
Proof.
  intros Hr Hal Hpred Hdig Hpre Hok Htext Hcons. unfold lx_read_radix_int.
  apply wp_bind, wp_peek. apply wp_bind, wp_peek_at. rewrite Hr at 1 2. cbn [hd_error nth_error].
  change (is_c (Some (chr "0")) (chr "0")) with true. cbn [andb]. rewrite Hal.
  apply wp_bind, wp_posn. apply wp_bind. eapply wp_skip; [exact Hr|]. intros r1 T1 R1.
  apply wp_bind. eapply wp_read; [exact R1|]. intros r2 T2 R2. cbv zeta.
  apply wp_bind. eapply wp_conseq; [apply read_digit_spec|].
  { intros d Hd. apply Hdig, Hpred, Hd. }
  intros [d s] r3 (c3 & T3 & Hc3 & Hd3 & Hs3). apply wp_bind, wp_read_until.
  intros w r4 T4 F4 _. apply number_token_spec.
  - rewrite Htext, Hpre, Hs3.
    exact (took_trans _ _ _ _ _ (took_trans _ _ _ _ _ T1 T2) (took_trans _ _ _ _ _ T3 T4)).
  - apply Hok. rewrite Hs3. cbn [app]. split; [discriminate|]. constructor; [apply Hpred, Hc3|].
    eapply Forall_impl; [|exact F4]. intros d' Hd'. apply negb_false_iff in Hd'. apply Hpred, Hd'.
  - intros m Hm. exfalso. exact (Hcons _ _ _ Hm).
Qed.

Lemma read_decimal_spec r c l K : rest r = c :: l -> dec_digit c ->
  wp (lx_read_decimal c) r (number_read r) anyE K.
Proof.
  intros Hr Hc. unfold lx_read_decimal. rewrite (proj2 (dec_digit_iff c) Hc).
  apply wp_bind, wp_posn. apply wp_bind. apply decimal_digits_spec. intros s r1 T1 F1 N1.
  assert (Hs : exists s', s = c :: s').
  { destruct s as [|c' s].
    - exfalso. apply took_rest in T1. cbn [app] in T1. rewrite <- T1, Hr in N1. apply N1, Hc.
    - apply took_rest in T1. rewrite Hr in T1. cbn [app] in T1. injection T1 as -> _. eauto. }
  destruct Hs as [s' ->]. cbn [tl].
  apply wp_bind.
  assert (Hleg : (c =? chr "0") && Nat.ltb 1 (length (c :: s')) && forallb is_es_oct_digit s' = true
                 <-> legacy_octal (c :: s')).
  { rewrite !andb_true_iff, N.eqb_eq, Nat.ltb_lt, forallb_forall. unfold legacy_octal, digits.
    split.
    - intros [[-> Hlen] Ho]. exists s'. split; [reflexivity|]. split.
      + destruct s'; [cbn in Hlen; lia|discriminate].
      + apply Forall_forall. intros x Hx. apply oct_digit_iff. auto.
    - intros (ds' & H & Hne & Ho). rewrite Forall_forall in Ho. injection H as -> ->. split; [split; [reflexivity|]|].
      + destruct ds'; [congruence|cbn [length]; lia].
      + intros x Hx. apply oct_digit_iff. auto. }
  destruct ((c =? chr "0") && Nat.ltb 1 (length (c :: s')) && forallb is_es_oct_digit s') eqn:E.
  - apply wp_ret. apply number_token_spec.
    + exact T1.
    + apply Hleg. reflexivity.
    + discriminate.
  - assert (Hnl : ~ legacy_octal (c :: s')) by (intros H; apply Hleg in H; discriminate).
    assert (Hds : digits dec_digit (c :: s')) by (split; [discriminate|exact F1]).
    apply wp_bind. apply wp_matches.
    + intros l2 r2 Hr2 T2 R2. apply wp_bind.
      apply (wp_conseq _ _ _ _ _ (fun frac r3 => took r2 frac r3 /\ Forall dec_digit frac)).
      * apply wp_bind, wp_peek. destruct (hd_error (rest r2)) as [d|].
        -- destruct (is_es_dec_digit d).
           ++ apply decimal_digits_spec. auto.
           ++ apply wp_ret. split; [apply took_nil|constructor].
        -- apply wp_ret. split; [apply took_nil|constructor].
      * intros frac r3 [T3 F3]. apply wp_bind. eapply wp_conseq; [apply exp_part_spec|].
        intros e r4 [T4 He]. apply wp_ret. apply number_token_spec.
        -- cbn [number_text].
           exact (took_trans _ _ _ _ _ T1 (took_trans _ _ _ _ _ T2 (took_trans _ _ _ _ _ T3 T4))).
        -- cbn [number_ok]. auto.
        -- discriminate.
    + intros Hdot. apply wp_bind. apply wp_ret. apply wp_bind.
      eapply wp_conseq; [apply exp_part_spec|]. intros e r4 [T4 He]. apply wp_ret.
      apply number_token_spec.
      * cbn [number_text]. exact (took_trans _ _ _ _ _ T1 T4).
      * cbn [number_ok]. auto.
      * intros m H. injection H as _ ->. apply took_rest in T4. cbn [exp_text app] in T4.
        rewrite T4 in Hdot. intros [tl Htl]. rewrite Htl in Hdot. discriminate.
Qed.

Lemma read_number_spec V op r c l K : rest r = c :: l ->
  dec_digit c \/ (c = chr "." /\ starts_with dec_digit l) ->
  wp (lx_read_number V) r
     (fun t r' => exists d w, tok_at r w d t r' /\ lexeme V op d w (rest r')) anyE K.
Proof.
  intros Hr Hc. unfold lx_read_number. apply wp_bind, wp_peek. apply wp_bind, wp_peek_at.
  apply wp_bind. rewrite Hr. cbn [hd_error].
  apply (wp_conseq _ _ _ _ _ (number_read r)).
  - change (nth_error (c :: l) 1) with (nth_error l 0).
    destruct ((c =? chr "0") && (is_c (nth_error l 0) (chr "x") || is_c (nth_error l 0) (chr "X"))) eqn:E1.
    { apply andb_true_iff in E1 as [E1 E2]. apply N.eqb_eq in E1. subst c.
      destruct l as [|c l]; [discriminate|]. cbn [nth_error is_c] in E2.
      apply orb_true_iff in E2. rewrite !N.eqb_eq in E2.
      eapply (radix_int_spec _ _ _ _ _ c l hex_digit (fun cc => case_text cc "0x" "0X"));
        [exact Hr| |apply hex_digit_iff|apply to_digit_hex| |intros; assumption|reflexivity|discriminate];
        destruct E2 as [->| ->]; reflexivity. }
    destruct ((c =? chr "0") && (is_c (nth_error l 0) (chr "o") || is_c (nth_error l 0) (chr "O"))) eqn:E2.
    { clear E1. apply andb_true_iff in E2 as [E1 E2]. apply N.eqb_eq in E1. subst c.
      destruct l as [|c l]; [discriminate|]. cbn [nth_error is_c] in E2.
      apply orb_true_iff in E2. rewrite !N.eqb_eq in E2.
      eapply (radix_int_spec _ _ _ _ _ c l oct_digit (fun cc => case_text cc "0o" "0O"));
        [exact Hr| |apply oct_digit_iff|apply to_digit_oct| |intros; assumption|reflexivity|discriminate];
        destruct E2 as [->| ->]; reflexivity. }
    destruct ((c =? chr "0") && (is_c (nth_error l 0) (chr "b") || is_c (nth_error l 0) (chr "B"))) eqn:E3.
    { clear E1 E2. apply andb_true_iff in E3 as [E1 E2]. apply N.eqb_eq in E1. subst c.
      destruct l as [|c l]; [discriminate|]. cbn [nth_error is_c] in E2.
      apply orb_true_iff in E2. rewrite !N.eqb_eq in E2.
      eapply (radix_int_spec _ _ _ _ _ c l bin_digit (fun cc => case_text cc "0b" "0B"));
        [exact Hr| |apply bin_digit_iff|apply to_digit_bin| |intros; assumption|reflexivity|discriminate];
        destruct E2 as [->| ->]; reflexivity. }
    clear E1 E2 E3. destruct (c =? chr ".") eqn:Edot.
    + apply N.eqb_eq in Edot. subst c. destruct Hc as [[Hc _]|[_ Hc]]; [exfalso; apply Hc; reflexivity|].
      apply wp_bind, wp_posn. apply wp_bind. eapply wp_skip; [exact Hr|]. intros r1 T1 R1.
      apply wp_bind. apply decimal_digits_spec. intros frac r2 T2 F2 N2.
      apply wp_bind. eapply wp_conseq; [apply exp_part_spec|]. intros e r3 [T3 He].
      apply number_token_spec.
      * cbn [number_text]. exact (took_trans _ _ _ _ _ T1 (took_trans _ _ _ _ _ T2 T3)).
      * cbn [number_ok]. split; [split; [|exact F2]|exact He]. intros ->.
        apply took_rest in T2. cbn [app] in T2. rewrite <- T2, R1 in N2. exact (N2 Hc).
      * discriminate.
    + destruct Hc as [Hc|[-> _]]; [|discriminate].
      eapply read_decimal_spec; [exact Hr|exact Hc].
  - intros t r1 (s & v & Ht & Hok & Hv & Hdot). apply wp_bind, wp_peek.
    assert (Hfin : ~ starts_with dec_digit (rest r1) -> ~ starts_with (id_start V) (rest r1) ->
       wp (ret t) r1 (fun t r' => exists d w, tok_at r w d t r' /\ lexeme V op d w (rest r')) anyE K).
    { intros H1 H2. apply wp_ret. eexists _, _. split; [exact Ht|].
      apply lx_number; assumption. }
    destruct (rest r1) as [|c1 l1] eqn:R1; cbn [hd_error].
    + apply Hfin; cbn; tauto.
    + destruct (is_es_identifier_start V c1) eqn:Ei; [exact I|].
      destruct (is_es_dec_digit c1) eqn:Ed; [exact I|].
      apply Hfin; cbn; [apply dec_digit_false, Ed|apply id_start_false, Ei].
Qed.

(** ** Punctuators *)

Definition all_puncs : list punc :=
  [T_LBrace; T_RBrace; T_LParen; T_RParen; T_LBrack; T_RBrack; T_Dot; T_Ellipsis; T_Semi; T_Comma;
   T_LAngle; T_RAngle; T_LEq; T_GEq; T_Eq; T_NEq; T_StrictEq; T_StrictNEq; T_Plus; T_Minus; T_Star;
   T_Mod; T_Slash; T_Inc; T_Dec; T_LShift; T_RShift; T_URShift; T_BitAnd; T_BitOr; T_BitXor; T_Bang;
   T_Tilde; T_LogicalAnd; T_LogicalOr; T_Question; T_Colon; T_Assign; T_PlusAssign; T_MinusAssign;
   T_StarAssign; T_SlashAssign; T_ModAssign; T_LShiftAssign; T_RShiftAssign; T_URShiftAssign;
   T_BitAndAssign; T_BitOrAssign; T_BitXorAssign].

(** What remains of [w] after the prefix [p]. *)
Fixpoint strip (p w : str) : option str :=
  match p, w with
  | [], _ => Some w
  | a :: p', b :: w' => if a =? b then strip p' w' else None
  | _ :: _, [] => None
  end.
Definition longer (p : punc) : list str :=
  flat_map (fun p' => match strip (punc_text p) (punc_text p') with
                      | Some (c :: w) => [c :: w] | _ => [] end) all_puncs.

Lemma strip_prefix : forall p w l tl, (length p < length w)%nat -> p ++ l = w ++ tl ->
  exists c w', strip p w = Some (c :: w') /\ l = (c :: w') ++ tl.
Proof.
  induction p as [|a p IH]; intros [|b w] l tl Hlen H; cbn [length] in Hlen; try lia.
  - exists b, w. cbn in H |- *. auto.
  - cbn [app] in H. injection H as -> H. cbn [strip]. rewrite N.eqb_refl. apply IH; [lia|exact H].
Qed.

Lemma longest_punc : forall op p l, Forall (fun w => ~ prefix w l) (longer p) ->
  forall p', is_punctuator op p' -> prefix (punc_text p') (punc_text p ++ l) ->
    (length (punc_text p') <= length (punc_text p))%nat.
Proof.
  intros op p l HF p' (H1 & H2 & _) [tl Htl].
  destruct (le_gt_dec (length (punc_text p')) (length (punc_text p))) as [Hle|Hgt]; [exact Hle|].
  destruct (strip_prefix _ _ _ _ Hgt Htl) as (c & w & Hs & Hl). exfalso.
  rewrite Forall_forall in HF. apply (HF (c :: w)).
  - unfold longer. apply in_flat_map. exists p'. rewrite Hs. split; [|left; reflexivity].
    destruct p'; try congruence; cbn; tauto.
  - exists tl. exact Hl.
Qed.

Definition tok_result (V : env) (op : bool) (r : rd) (t : token) (r' : rd) : Prop :=
  exists d w, tok_at r w d t r' /\ lexeme V op d w (rest r').

Lemma punc_n_spec V op n p r l X K :
  rest r = punc_text p ++ l -> n = length (punc_text p) -> is_punctuator op p ->
  Forall (fun w => ~ prefix w l) (longer p) ->
  (p = T_Dot -> ~ starts_with dec_digit l) ->
  wp (lx_read_punc_n n p) r (tok_result V op r) X K.
Proof.
  intros Hr -> Hp HF Hdot. unfold lx_read_punc_n. apply wp_bind, wp_posn. apply wp_bind.
  eapply wp_skip_n; [exact Hr|]. intros r' T R. apply wp_bind, wp_posn. apply wp_ret.
  exists (TPunc p), (punc_text p). split; [split; [exact T|reflexivity]|]. rewrite R.
  apply lx_punc; [exact Hp| |exact Hdot]. apply longest_punc, HF.
Qed.

Lemma is_punc : forall op p, op = true \/ (p <> T_Slash /\ p <> T_SlashAssign) ->
  p <> T_EOF -> p <> T_Arrow -> is_punctuator op p.
Proof.
  intros op p H H1 H2. split; [exact H1|]. split; [exact H2|]. intros ->.
  destruct H as [H|H]; [discriminate|exact H].
Qed.

(** Discharge "the following text does not start with ...". *)
Ltac np := let tl := fresh in let H := fresh in
  intros [tl H]; cbn [app lit map list_ascii_of_string] in H;
  repeat match goal with
  | L : list N |- _ => destruct L as [|? L]; try discriminate H; cbn [app] in H
  end; injection H; intros; subst; cbn in *; try discriminate; try congruence.

Lemma punc2_3_spec V op r l v2 v3 c d e X K :
  rest r = c :: d :: l -> punc_text v2 = [c; d] -> punc_text v3 = [c; d; e] ->
  is_punctuator op v2 -> is_punctuator op v3 -> v2 <> T_Dot -> v3 <> T_Dot ->
  longer v2 = [[e]] -> longer v3 = [] ->
  wp (lx_read_punc2_3 e v2 v3) r (tok_result V op r) X K.
Proof.
  intros Hr H2 H3 P2 P3 D2 D3 L2 L3. unfold lx_read_punc2_3. apply wp_bind, wp_posn.
  apply wp_bind. eapply wp_skip2; [exact Hr|]. intros r1 T1 R1. apply wp_bind. apply wp_matches.
  - intros l2 r2 Hr2 T2 R2. apply wp_bind, wp_posn. apply wp_ret.
    exists (TPunc v3), (punc_text v3). rewrite H3 at 1.
    split; [split; [exact (took_trans _ _ _ _ _ T1 T2)|reflexivity]|].
    apply lx_punc; [exact P3| |congruence]. apply longest_punc. rewrite L3. constructor.
  - intros Hn. apply wp_bind, wp_posn. apply wp_ret. exists (TPunc v2), (punc_text v2).
    rewrite H2 at 1. split; [split; [exact T1|reflexivity]|].
    apply lx_punc; [exact P2| |congruence]. apply longest_punc. rewrite L2.
    constructor; [|constructor]. intros [tl Htl]. rewrite Htl in Hn. cbn in Hn.
    rewrite N.eqb_refl in Hn. discriminate.
Qed.

Lemma rshift_spec V op r l X K : rest r = chr ">" :: chr ">" :: l ->
  wp lx_read_rshift r (tok_result V op r) X K.
Proof.
  intros Hr. unfold lx_read_rshift. apply wp_bind, wp_posn. apply wp_bind.
  eapply wp_skip2; [exact Hr|]. intros r1 T1 R1. apply wp_bind, wp_peek. apply wp_bind, wp_peek_at.
  rewrite R1. apply wp_bind.
  assert (Hfin : forall v w r2, took r1 w r2 -> punc_text v = [chr ">"; chr ">"] ++ w ->
    is_punctuator op v -> v <> T_Dot -> Forall (fun u => ~ prefix u (rest r2)) (longer v) ->
    wp (lx_end (pos r) (TPunc v)) r2 (tok_result V op r) X K).
  { intros v w r2 T2 Hv Hp Hd HF. apply wp_bind, wp_posn. apply wp_ret.
    exists (TPunc v), (punc_text v). rewrite Hv at 1.
    split; [split; [exact (took_trans _ _ _ _ _ T1 T2)|reflexivity]|].
    apply lx_punc; [exact Hp| |congruence]. apply longest_punc, HF. }
  destruct (is_c (hd_error l) (chr ">") && is_c (nth_error l 1) (chr "=")) eqn:E1.
  { apply andb_true_iff in E1 as [E1 E2]. apply is_c_true, hd_cons in E1 as [l1 ->].
    apply is_c_true in E2. destruct l1 as [|d l1]; [discriminate|]. injection E2 as ->.
    apply wp_bind. eapply wp_skip2; [exact R1|]. intros r2 T2 R2. apply wp_ret.
    eapply Hfin; [exact T2|reflexivity|apply is_punc; [right; split; discriminate|discriminate|discriminate]
      |discriminate|constructor]. }
  destruct (is_c (hd_error l) (chr ">")) eqn:E2.
  { apply is_c_true, hd_cons in E2 as [l1 ->]. apply wp_bind.
    eapply wp_skip; [exact R1|]. intros r2 T2 R2. apply wp_ret.
    eapply Hfin; [exact T2|reflexivity|apply is_punc; [right; split; discriminate|discriminate|discriminate]
      |discriminate|]. rewrite R2. change (longer T_URShift) with [lit "="].
    constructor; [|constructor]. intros [tl ->]. discriminate. }
  destruct (is_c (hd_error l) (chr "=")) eqn:E3.
  { apply is_c_true, hd_cons in E3 as [l1 ->]. apply wp_bind.
    eapply wp_skip; [exact R1|]. intros r2 T2 R2. apply wp_ret.
    eapply Hfin; [exact T2|reflexivity|apply is_punc; [right; split; discriminate|discriminate|discriminate]
      |discriminate|constructor]. }
  apply wp_ret. eapply Hfin; [apply took_nil|reflexivity|
    apply is_punc; [right; split; discriminate|discriminate|discriminate]|discriminate|].
  rewrite R1. change (longer T_RShift) with [lit ">"; lit "="; lit ">="] || idtac.
  apply Forall_forall. intros w Hw [tl ->]. vm_compute in Hw.
  repeat (destruct Hw as [<-|Hw]; [discriminate|]). contradiction.
Qed.

Lemma assoc_c_in : forall A (l : list (N * A)) c v, assoc_c l c = Some v -> In (c, v) l.
Proof.
  intros A. induction l as [|[k v0] l IH]; intros c v; cbn [assoc_c]; [discriminate|].
  destruct (k =? c) eqn:E.
  - apply N.eqb_eq in E. subst. intros H; injection H as ->. left; reflexivity.
  - intros H. right. apply IH, H.
Qed.

Lemma punc1_spec V op r c l v X K : rest r = c :: l -> assoc_c punc1_table c = Some v ->
  wp (lx_read_punc_n 1 v) r (tok_result V op r) X K.
Proof.
  intros Hr Hv. apply assoc_c_in in Hv. unfold punc1_table in Hv.
  repeat (destruct Hv as [Hv|Hv];
    [injection Hv as <- <-; eapply punc_n_spec;
      [exact Hr|reflexivity|apply is_punc; [right; split; discriminate|discriminate|discriminate]
      |constructor|discriminate]|]).
  contradiction.
Qed.

(** What panics remain possible when reading one token. *)
Definition Ktok (V : env) (op : bool) (l : str) (k : panic) : Prop :=
  Kesc V l k \/ (k = P_read_eof /\ op = false /\ ends_in_regexp l).

Ltac pn Hr := eapply punc_n_spec;
  [exact Hr|reflexivity
  |apply is_punc; [first [left; reflexivity|right; split; discriminate]|discriminate|discriminate]
  |apply Forall_forall; let w := fresh in let Hw := fresh in
   let tl := fresh in let Htl := fresh in
   intros w Hw [tl Htl]; vm_compute in Hw;
   repeat (destruct Hw as [<-|Hw];
           [cbn [app] in Htl;
            first [subst; discriminate|injection Htl as ->; cbn in *; discriminate]|]);
   contradiction
  |first [discriminate|idtac]].
Ltac p23 Hr := eapply punc2_3_spec;
  [exact Hr|reflexivity|reflexivity|apply is_punc; [right; split; discriminate|discriminate|discriminate]
  |apply is_punc; [right; split; discriminate|discriminate|discriminate]|discriminate|discriminate
  |reflexivity|reflexivity].
Ltac c2 E := apply is_c_true in E;
  match type of E with nth_error (_ :: ?l) 1 = Some _ =>
    destruct l as [|? l]; [discriminate E|]; injection E as -> end.

Lemma read_token_at_spec V op r :
  (forall c, id_start V c -> id_part V c) ->
  wp (lx_read_token_at V op) r (tok_result V op r) anyE (Ktok V op (rest r)).
Proof.
  intros Hsp. unfold lx_read_token_at. apply wp_bind, wp_peek. apply wp_bind, wp_peek_at.
  destruct (rest r) as [|c l] eqn:Hr; cbn [hd_error].
  { apply wp_bind, wp_posn. apply wp_ret. exists (TPunc T_EOF), [].
    split; [split; [apply took_nil|reflexivity]|]. rewrite Hr. constructor. }
  destruct (c =? chr "/") eqn:E.
  { apply N.eqb_eq in E. subst c. destruct op; cbn [negb].
    - destruct (is_c (nth_error (chr "/" :: l) 1) (chr "=")) eqn:E2.
      + c2 E2. pn Hr.
      + pn Hr.
    - rewrite <- Hr. eapply wp_mono; [eapply read_regexp_spec; exact Hr| |auto|].
      + intros t r' (b & fw & fv & esc & Ht & Hb & Hw & He). cbv zeta in *.
        eexists _, _. split; [exact Ht|]. eapply lx_regexp; eauto.
      + intros k [Hk|[Hk Hl]]; [left; exact Hk|right; auto]. }
  destruct (c =? chr ".") eqn:Edot.
  { clear E. apply N.eqb_eq in Edot. subst c.
    destruct (match nth_error (chr "." :: l) 1 with Some d => is_es_dec_digit d | None => false end) eqn:E.
    - eapply read_number_spec; [exact Hr|]. right. split; [reflexivity|].
      destruct l as [|d l]; [discriminate|]. cbn in E |- *. apply dec_digit_iff, E.
    - assert (Hnd : ~ starts_with dec_digit l).
      { destruct l as [|d l]; cbn in *; [tauto|]. apply dec_digit_false, E. }
      destruct (is_c (nth_error (chr "." :: l) 1) (chr ".")) eqn:E2.
      + apply wp_bind, wp_peek_at. rewrite Hr.
        c2 E2. destruct (is_c (nth_error (chr "." :: 46 :: l) 2) (chr ".")) eqn:E3.
        * apply is_c_true in E3. destruct l as [|d l]; [discriminate|]. injection E3 as ->. pn Hr.
        * pn Hr. intros _. exact Hnd.
      + pn Hr. intros _. exact Hnd. }
  destruct (assoc_c punc1_table c) as [v|] eqn:Ep; [eapply punc1_spec; [exact Hr|exact Ep]|].
  clear Ep Edot.
  destruct (c =? chr "<") eqn:E1; [apply N.eqb_eq in E1; subst c|].
  { destruct (is_c (nth_error (chr "<" :: l) 1) (chr "<")) eqn:E2; [c2 E2; p23 Hr|].
    destruct (is_c (nth_error (chr "<" :: l) 1) (chr "=")) eqn:E3; [c2 E3; pn Hr|]. pn Hr. }
  destruct (c =? chr ">") eqn:E2; [apply N.eqb_eq in E2; subst c|].
  { destruct (is_c (nth_error (chr ">" :: l) 1) (chr ">")) eqn:E2.
    { c2 E2. eapply rshift_spec. exact Hr. }
    destruct (is_c (nth_error (chr ">" :: l) 1) (chr "=")) eqn:E3; [c2 E3; pn Hr|]. pn Hr. }
  destruct (c =? chr "=") eqn:E3; [apply N.eqb_eq in E3; subst c|].
  { destruct (is_c (nth_error (chr "=" :: l) 1) (chr "=")) eqn:E4; [c2 E4; p23 Hr|]. pn Hr. }
  destruct (c =? chr "+") eqn:E4; [apply N.eqb_eq in E4; subst c|].
  { destruct (is_c (nth_error (chr "+" :: l) 1) (chr "+")) eqn:E5; [c2 E5; pn Hr|].
    destruct (is_c (nth_error (chr "+" :: l) 1) (chr "=")) eqn:E6; [c2 E6; pn Hr|]. pn Hr. }
  destruct (c =? chr "-") eqn:E5; [apply N.eqb_eq in E5; subst c|].
  { destruct (is_c (nth_error (chr "-" :: l) 1) (chr "-")) eqn:E6; [c2 E6; pn Hr|].
    destruct (is_c (nth_error (chr "-" :: l) 1) (chr "=")) eqn:E7; [c2 E7; pn Hr|]. pn Hr. }
  destruct (c =? chr "*") eqn:E6; [apply N.eqb_eq in E6; subst c|].
  { destruct (is_c (nth_error (chr "*" :: l) 1) (chr "=")) eqn:E7; [c2 E7; pn Hr|]. pn Hr. }
  destruct (c =? chr "%") eqn:E7; [apply N.eqb_eq in E7; subst c|].
  { destruct (is_c (nth_error (chr "%" :: l) 1) (chr "=")) eqn:E8; [c2 E8; pn Hr|]. pn Hr. }
  destruct (c =? chr "^") eqn:E8; [apply N.eqb_eq in E8; subst c|].
  { destruct (is_c (nth_error (chr "^" :: l) 1) (chr "=")) eqn:E9; [c2 E9; pn Hr|]. pn Hr. }
  destruct (c =? chr "&") eqn:E9; [apply N.eqb_eq in E9; subst c|].
  { destruct (is_c (nth_error (chr "&" :: l) 1) (chr "&")) eqn:E10; [c2 E10; pn Hr|].
    destruct (is_c (nth_error (chr "&" :: l) 1) (chr "=")) eqn:E11; [c2 E11; pn Hr|]. pn Hr. }
  destruct (c =? chr "|") eqn:E10; [apply N.eqb_eq in E10; subst c|].
  { destruct (is_c (nth_error (chr "|" :: l) 1) (chr "|")) eqn:E11; [c2 E11; pn Hr|].
    destruct (is_c (nth_error (chr "|" :: l) 1) (chr "=")) eqn:E12; [c2 E12; pn Hr|]. pn Hr. }
  destruct (c =? chr "!") eqn:E11; [apply N.eqb_eq in E11; subst c|].
  { destruct (is_c (nth_error (chr "!" :: l) 1) (chr "=")) eqn:E12; [c2 E12; p23 Hr|]. pn Hr. }
  clear E E1 E2 E3 E4 E5 E6 E7 E8 E9 E10 E11.
  destruct ((c =? 34) || (c =? 39)) eqn:Eq.
  { rewrite <- Hr. eapply wp_mono; [eapply read_string_spec; exact Hr| |auto|].
    - intros t r' (b & v & Ht & Hck). cbv zeta in *. eexists _, _. split; [exact Ht|].
      apply lx_string; [|exact Hck]. apply orb_true_iff in Eq. rewrite !N.eqb_eq in Eq. exact Eq.
    - intros k Hk. left. exact Hk. }
  destruct (is_es_dec_digit c) eqn:Ed.
  { eapply read_number_spec; [exact Hr|]. left. apply dec_digit_iff, Ed. }
  destruct (is_es_identifier_start V c) eqn:Ei.
  { rewrite <- Hr. eapply wp_mono; [eapply read_word_spec; [exact Hr|left; exact Ei|exact Hsp]| |auto|].
    - intros t r' H. exact H.
    - intros k Hk. left. exact Hk. }
  destruct (c =? chr "\") eqn:Eb; [|exact I].
  apply N.eqb_eq in Eb. subst c.
  rewrite <- Hr. eapply wp_mono; [eapply read_word_spec; [exact Hr|right; reflexivity|exact Hsp]| |auto|].
  - intros t r' H. exact H.
  - intros k Hk. left. exact Hk.
Qed.

(** ** Trivia *)

Lemma skip_newlines_from_spec : forall n l p, (length l <= n)%nat ->
  exists w, took (Rd l p) w (skip_newlines_from l p) /\ Forall line_terminator w
            /\ (forall c l', l = c :: l' -> line_terminator c -> w <> []).
Proof.
  induction n as [|n IH]; intros l p Hn.
  - destruct l; [|cbn in Hn; lia]. exists []. split; [apply took_nil|]. split; [constructor|discriminate].
  - destruct l as [|c l]; cbn [skip_newlines_from].
    + exists []. split; [apply took_nil|]. split; [constructor|discriminate].
    + assert (Hno : forall r, r = Rd (c :: l) p -> is_es_newline c = false ->
        exists w, took (Rd (c :: l) p) w r /\ Forall line_terminator w
            /\ (forall c0 l', c :: l = c0 :: l' -> line_terminator c0 -> w <> [])).
      { intros r -> Hc. exists []. split; [apply took_nil|]. split; [constructor|].
        intros c0 l' H Hlt. injection H as <- <-. apply line_terminator_iff in Hlt. congruence. }
      destruct l as [|c2 l].
      * destruct (is_es_newline c) eqn:Hc; [|apply Hno; reflexivity].
        exists [c]. split; [apply took_one|]. split; [|discriminate].
        constructor; [apply line_terminator_iff, Hc|constructor].
      * destruct ((c =? 13) && (c2 =? 10)) eqn:E.
        -- apply andb_true_iff in E as [E1 E2]. apply N.eqb_eq in E1, E2. subst c c2.
           destruct (IH l (advance (advance p 13 (Some 10)) 10 (hd_error l))) as (w & T & F & _);
             [cbn in Hn; lia|].
           exists (13 :: 10 :: w). split; [|split; [|discriminate]].
           ++ exact (took_trans _ [13; 10] _ _ _ (took_trans _ _ _ _ _ (took_one 13 (10 :: l) p) (took_one 10 l _)) T).
           ++ constructor; [cbn; tauto|]. constructor; [cbn; tauto|exact F].
        -- destruct (is_es_newline c) eqn:Hc; [|apply Hno; reflexivity].
           destruct (IH (c2 :: l) (advance p c (Some c2))) as (w & T & F & _); [cbn in *; lia|].
           exists (c :: w). split; [|split; [|discriminate]].
           ++ exact (took_trans _ [c] _ _ _ (took_one c (c2 :: l) p) T).
           ++ constructor; [apply line_terminator_iff, Hc|exact F].
Qed.

Lemma block_comment_spec : forall l p found,
  match block_comment_from l p found with
  | Ok (f, r') => exists body, took (Rd l p) (body ++ lit "*/") r'
      /\ (forall u v, body ++ lit "*" <> u ++ lit "*/" ++ v)
      /\ (f = true <-> found = true \/ has_newline body)
  | Err _ => True
  | _ => False
  end.
Proof.
  induction l as [|c l IH]; intros p found; cbn [block_comment_from]; [exact I|].
  destruct l as [|c2 l]; [exact I|].
  destruct ((c =? chr "*") && (c2 =? chr "/")) eqn:E.
  - apply andb_true_iff in E as [E1 E2]. apply N.eqb_eq in E1, E2. subst c c2.
    exists []. split; [|split].
    + exact (took_trans _ _ _ _ _ (took_one (chr "*") (chr "/" :: l) p) (took_one (chr "/") l _)).
    + intros [|u0 [|u1 u]] v H; discriminate H.
    + split; [auto|]. intros [H|H]; [exact H|inversion H].
  - specialize (IH (advance p c (Some c2)) (is_es_newline c || found)).
    destruct (block_comment_from (c2 :: l) (advance p c (Some c2)) (is_es_newline c || found))
      as [[f r']|e|k|]; try exact IH.
    destruct IH as (body & T & Hno & Hf). exists (c :: body). split; [|split].
    + exact (took_trans _ [c] _ _ _ (took_one c (c2 :: l) p) T).
    + intros [|u0 u] v H.
      * cbn [app lit map list_ascii_of_string] in H. injection H as -> H.
        destruct body as [|b0 body]; cbn in H; [discriminate|]. injection H as -> H.
        apply took_rest in T. cbn [app rest] in T. injection T as -> _.
        cbn in E. discriminate.
      * cbn [app] in H. injection H as -> H. exact (Hno u v H).
    + rewrite Hf, orb_true_iff, line_terminator_iff. unfold has_newline.
      rewrite Exists_cons. tauto.
Qed.

Lemma has_newline_app : forall a b, has_newline (a ++ b) <-> has_newline a \/ has_newline b.
Proof. intros a b. apply Exists_app. Qed.
Lemma no_newline_forall : forall w, Forall (fun c => ~ line_terminator c) w -> ~ has_newline w.
Proof. intros w H. apply Forall_Exists_neg. exact H. Qed.

Definition trivia_inv (b : bool) (r : rd) (a : bool * bool) (r1 : rd) : Prop :=
  let '(found, empty) := a in
  exists w, took r w r1 /\ (found = true <-> has_newline w)
    /\ forall w2 l, rest r1 = w2 ++ l -> trivia empty w2 l -> trivia b (w ++ w2) l.

Lemma trivia_spaces : forall b w w2 l, Forall white_space w -> trivia b w2 l -> trivia b (w ++ w2) l.
Proof. intros b w w2 l H Ht. induction H; [exact Ht|]. apply tv_space; assumption. Qed.
Lemma trivia_newlines : forall w b w2 l, Forall line_terminator w -> w <> [] ->
  trivia true w2 l -> trivia b (w ++ w2) l.
Proof.
  intros w b w2 l H. revert b. induction H as [|c w Hc Hw IH]; intros b Hne Ht; [congruence|].
  cbn [app]. apply tv_newline; [exact Hc|]. destruct w; [exact Ht|]. apply IH; [discriminate|exact Ht].
Qed.
Lemma space_not_newline : forall c, white_space c -> ~ line_terminator c.
Proof.
  intros c (H & _). unfold es_white_space, line_terminator in *. cbn [In] in *.
  intuition (subst; discriminate).
Qed.

Lemma line_comment_step b r found empty r1 opening l X K :
  trivia_inv b r (found, empty) r1 -> rest r1 = opening ++ l ->
  (opening = lit "//" \/ opening = lit "<!--" \/ (empty = true /\ opening = lit "-->")) ->
  wp (lx_skip_line_comment (length opening) ;;; ret (inl (found, empty))) r1
    (fun x s' => match x with
                 | inl a' => trivia_inv b r a' s' /\ (length (rest s') < length (rest r1))%nat
                 | inr (f, e) => trivia_inv b r (f, e) s' /\ ~ starts_trivia e (rest s')
                 end) X K.
Proof.
  intros (w & T1 & Hf & Hk) Hr Hop. apply wp_bind. unfold lx_skip_line_comment. apply wp_bind.
  eapply wp_skip_n; [exact Hr|]. intros r2 T2 R2. apply wp_skip_until.
  intros body r3 T3 F3 S3. apply wp_ret.
  assert (Fb : Forall (fun c => ~ line_terminator c) body).
  { eapply Forall_impl; [|exact F3]. intros c Hc. apply line_terminator_false, Hc. }
  assert (Hon : ~ has_newline opening).
  { apply no_newline_forall.
    destruct Hop as [->|[->|[_ ->]]];
    repeat (apply Forall_cons; [unfold line_terminator; cbn; intuition discriminate|]); apply Forall_nil. }
  split.
  - exists (w ++ opening ++ body).
    split; [exact (took_trans _ _ _ _ _ T1 (took_trans _ _ _ _ _ T2 T3))|]. split.
    + rewrite !has_newline_app, Hf. apply no_newline_forall in Fb. tauto.
    + intros w2 l2 Hw2 Ht2. rewrite <- !app_assoc. apply Hk.
      * rewrite (took_rest _ _ _ T2), (took_rest _ _ _ T3), Hw2, <- !app_assoc. reflexivity.
      * apply tv_line; [exact Hop|exact Fb| |exact Ht2]. rewrite <- Hw2.
        unfold stopped in S3. unfold line_end. destruct (rest r3) as [|c l3]; [auto|].
        right. cbn. apply line_terminator_iff, S3.
  - apply took_length in T2, T3. destruct opening; [|cbn [length] in T2; lia].
    destruct Hop as [H|[H|[_ H]]]; discriminate H.
Qed.

Lemma not_prefix2 : forall (a b c : N) l, is_c (nth_error (c :: l) 1) b = false -> ~ prefix [a; b] (c :: l).
Proof.
  intros a b c l H [tl Htl]. destruct l as [|d l]; [discriminate|]. injection Htl as -> -> _.
  cbn in H. rewrite N.eqb_refl in H. discriminate.
Qed.

Lemma trivia_spec b r :
  wp (lx_trivia b) r
     (fun '(found, b') r' => exists w, took r w r' /\ trivia b w (rest r')
        /\ (found = true <-> has_newline w)) anyE (fun _ => False).
Proof.
  unfold lx_trivia.
  refine (wp_self _ _ (fun r0 => loopM (S (length (rest r0))) _ (false, b)) r _ _).
  eapply (wp_loop _ _ _ (trivia_inv b r) (fun _ r => length (rest r))).
  - intros [found empty] r1 Hinv. cbn beta iota delta [lx_trivia_step].
    assert (Hmain : wp (lx_trivia_step (found, empty)) r1
      (fun x s' => match x with
                   | inl a' => trivia_inv b r a' s' /\ (length (rest s') < length (rest r1))%nat
                   | inr (f, e) => trivia_inv b r (f, e) s' /\ ~ starts_trivia e (rest s')
                   end) anyE (fun _ => False)).
    { unfold lx_trivia_step. apply wp_bind, wp_peek. apply wp_bind, wp_peek_at.
      destruct (rest r1) as [|c l] eqn:R1; cbn [hd_error].
      { apply wp_ret. split; [exact Hinv|]. rewrite R1.
        intros [H|[H|[H|[H|[H|[_ H]]]]]]; cbn in H; try exact H; destruct H as [tl H]; discriminate. }
      destruct (is_es_whitespace c) eqn:Ews.
      { apply wp_bind. unfold lx_skip_whitespace, lx_skip_while. apply wp_skip_until.
        intros w2 r2 T2 F2 S2. apply wp_ret.
        assert (Fw : Forall white_space w2).
        { eapply Forall_impl; [|exact F2]. intros x Hx. apply negb_false_iff in Hx. apply white_space_iff, Hx. }
        split.
        - destruct Hinv as (w & T1 & Hf & Hk). exists (w ++ w2).
          split; [exact (took_trans _ _ _ _ _ T1 T2)|]. split.
          + rewrite has_newline_app, Hf.
            assert (~ has_newline w2); [|tauto]. apply no_newline_forall.
            eapply Forall_impl; [|exact Fw]. apply space_not_newline.
          + intros w3 l3 H3 Ht3. rewrite <- app_assoc. apply Hk.
            * rewrite (took_rest _ _ _ T2), H3, app_assoc. reflexivity.
            * apply trivia_spaces; assumption.
        - destruct w2 as [|x w2].
          + exfalso. apply took_rest in T2. cbn [app] in T2. unfold stopped in S2.
            rewrite <- T2, R1, Ews in S2. discriminate.
          + apply took_length in T2. rewrite R1 in T2. cbn [length] in T2 |- *. lia. }
      destruct (is_es_newline c) eqn:Enl.
      { apply wp_bind. unfold lx_skip_newlines. apply wp_bind, wp_peek. rewrite R1. cbn [hd_error].
        rewrite Enl. apply wp_modify. apply wp_ret.
        destruct (skip_newlines_from_spec _ (rest r1) (pos r1) (le_n _)) as (w2 & T2 & F2 & N2).
        rewrite R1 in *. specialize (N2 c l eq_refl (proj1 (line_terminator_iff c) Enl)).
        assert (T2' : took r1 w2 (skip_newlines_from (c :: l) (pos r1))).
        { destruct r1 as [l1 p1]. cbn [rest pos] in *. subst l1. exact T2. }
        split.
        - destruct Hinv as (w & T1 & Hf & Hk). exists (w ++ w2).
          split; [exact (took_trans _ _ _ _ _ T1 T2')|]. split.
          + rewrite has_newline_app. split; [intros _|reflexivity]. right.
            destruct F2; [congruence|]. constructor. assumption.
          + intros w3 l3 H3 Ht3. rewrite <- app_assoc. apply Hk.
            * rewrite (took_rest _ _ _ T2'), H3, app_assoc. reflexivity.
            * apply trivia_newlines; assumption.
        - apply took_length in T2'. rewrite R1 in T2'. destruct w2; [congruence|].
          cbn [length] in T2' |- *. lia. }
      apply white_space_false in Ews. apply line_terminator_false in Enl.
      destruct ((c =? chr "/") && is_c (nth_error (c :: l) 1) (chr "/")) eqn:E1.
      { apply andb_true_iff in E1 as [E0 E1]. apply N.eqb_eq in E0. subst c. c2 E1.
        rewrite <- R1. eapply (line_comment_step b r found empty r1 (lit "//"));
          [exact Hinv|exact R1|auto]. }
      destruct ((c =? chr "/") && is_c (nth_error (c :: l) 1) (chr "*")) eqn:E2.
      { apply andb_true_iff in E2 as [E0 E2]. apply N.eqb_eq in E0. subst c. c2 E2.
        apply wp_bind. unfold lx_skip_block_comment. apply wp_bind. eapply wp_skip2; [exact R1|].
        intros r2 T2 R2. unfold wp.
        pose proof (block_comment_spec (rest r2) (pos r2) false) as Hbc.
        destruct (block_comment_from (rest r2) (pos r2) false) as [[f r3]|e|k|]; try exact Hbc.
        destruct Hbc as (body & T3 & Hno & Hnl). destruct r2 as [l2 p2]. cbn [rest pos] in *.
        cbn [ret]. split.
        - destruct Hinv as (w & T1 & Hf & Hk). exists (w ++ lit "/*" ++ body ++ lit "*/").
          split; [exact (took_trans _ _ _ _ _ T1 (took_trans _ _ _ _ _ T2 T3))|]. split.
          + rewrite orb_true_iff, Hnl, Hf, !has_newline_app.
            assert (~ has_newline (lit "/*")) by
              (apply no_newline_forall; repeat (apply Forall_cons; [unfold line_terminator; cbn; intuition discriminate|]); apply Forall_nil).
            assert (~ has_newline (lit "*/")) by
              (apply no_newline_forall; repeat (apply Forall_cons; [unfold line_terminator; cbn; intuition discriminate|]); apply Forall_nil).
            intuition discriminate.
          + intros w3 l3 H3 Ht3. rewrite <- !app_assoc. apply Hk.
            * rewrite (took_rest _ _ _ T2). cbn [rest]. apply took_rest in T3. cbn [rest] in T3.
              rewrite T3, H3, <- !app_assoc. reflexivity.
            * apply tv_block; assumption.
        - apply took_length in T3. cbn [rest] in T3. rewrite R2 in T3. cbn [length]. lia. }
      assert (Hbase : ~ prefix (lit "<!--") (c :: l) -> ~ (empty = true /\ prefix (lit "-->") (c :: l)) ->
        wp (ret (inr (found, empty))) r1
          (fun x s' => match x with
                   | inl a' => trivia_inv b r a' s' /\ (length (rest s') < length (c :: l))%nat
                   | inr (f, e) => trivia_inv b r (f, e) s' /\ ~ starts_trivia e (rest s')
                   end) anyE (fun _ => False)).
      { intros H1 H2. apply (@wp_ret rd lex_error). split; [exact Hinv|]. rewrite R1.
        intros [H|[H|[H|[H|[H|H]]]]]; cbn [starts_with] in H; try contradiction.
        - apply andb_false_iff in E1 as [E1|E1]; [|exact (not_prefix2 _ _ _ _ E1 H)].
          destruct H as [tl H]. injection H as -> _. discriminate.
        - apply andb_false_iff in E2 as [E2|E2]; [|exact (not_prefix2 _ _ _ _ E2 H)].
          destruct H as [tl H]. injection H as -> _. discriminate. }
      destruct ((c =? chr "<") && is_c (nth_error (c :: l) 1) (chr "!")) eqn:E3.
      { apply andb_true_iff in E3 as [E0 E3]. apply N.eqb_eq in E0. subst c. c2 E3.
        apply wp_bind, wp_peek_at. apply wp_bind, wp_peek_at. rewrite R1. cbn [nth_error].
        destruct (is_c match l with [] => None | x :: _ => Some x end (chr "-")
                  && is_c match l with [] => None | _ :: l0 => match l0 with [] => None | x :: _ => Some x end end (chr "-")) eqn:E4.
        - apply andb_true_iff in E4 as [E4 E5]. apply is_c_true in E4, E5.
          destruct l as [|d [|d' l]]; try discriminate. injection E4 as ->. injection E5 as ->.
          rewrite <- R1. eapply (line_comment_step b r found empty r1 (lit "<!--"));
            [exact Hinv|exact R1|auto].
        - apply Hbase.
          + intros [tl H]. injection H as ->. cbn in E4. discriminate.
          + intros [_ [tl H]]. discriminate. }
      destruct ((c =? chr "-") && is_c (nth_error (c :: l) 1) (chr "-")) eqn:E4.
      { apply andb_true_iff in E4 as [E0 E4]. apply N.eqb_eq in E0. subst c. c2 E4.
        apply wp_bind, wp_peek_at. rewrite R1. cbn [nth_error].
        destruct (empty && is_c match l with [] => None | x :: _ => Some x end (chr ">")) eqn:E5.
        - apply andb_true_iff in E5 as [-> E5]. apply is_c_true in E5.
          destruct l as [|d l]; try discriminate. injection E5 as ->.
          rewrite <- R1. eapply (line_comment_step b r found true r1 (lit "-->"));
            [exact Hinv|exact R1|auto].
        - apply Hbase.
          + intros [tl H]. discriminate.
          + intros [-> [tl H]]. injection H as ->. cbn in E5. discriminate. }
      apply Hbase.
      - intros [tl H]. injection H as -> ->. cbn in E3. discriminate.
      - intros [_ [tl H]]. injection H as -> ->. cbn in E4. discriminate. }
    eapply wp_conseq; [exact Hmain|]. intros [a'|[f e]] s'; [auto|].
    intros [(w & T & Hf & Hk) Hns]. exists w. split; [exact T|]. split; [|exact Hf].
    rewrite <- (app_nil_r w). apply Hk; [reflexivity|]. apply tv_done, Hns.
  - exists []. split; [apply took_nil|]. split; [split; [discriminate|intros H; inversion H]|].
    intros w2 l _ H. exact H.
  - lia.
Qed.

(** ** Reading a token *)

Definition rd_at (src : str) (k : nat) (r : rd) : Prop :=
  (k <= length src)%nat /\ rest r = skipn k src /\ pos r = posn_at src k.

Lemma rd_at_took : forall src k r w r', rd_at src k r -> took r w r' ->
  rd_at src (k + length w) r'.
Proof.
  intros src k r w r' (Hk & Hr & Hp) [T P].
  assert (Hsrc : src = firstn k src ++ w ++ rest r').
  { rewrite <- T, Hr. symmetry. apply firstn_skipn. }
  assert (Hlen : length (firstn k src) = k) by (apply firstn_length_le, Hk).
  split; [|split].
  - rewrite Hsrc, !app_length, Hlen. lia.
  - rewrite Hsrc at 1. rewrite skipn_app, Hlen.
    rewrite skipn_all2 by lia. replace (k + length w - k)%nat with (length w) by lia.
    rewrite skipn_app, skipn_all, Nat.sub_diag. reflexivity.
  - rewrite P, Hp.
    pose proof (advance_all_posn_at (firstn k src) w (rest r')) as H.
    rewrite Hlen, <- Hsrc in H. exact H.
Qed.

Definition xlexer_at (src : str) (k : nat) (x : lexer) : Prop := rd_at src k (lx_rd x).

Lemma lift_rd_wp {A} (m : LM A) x Q X K :
  wp m (lx_rd x) (fun a r => Q a (Lexer r (lx_ahead x) (lx_empty_line x))) X K ->
  wp (lift_rd m) x Q X K.
Proof. unfold wp, lift_rd. destruct (m (lx_rd x)) as [[a r]|e|k|]; auto. Qed.

Theorem read_next_token_spec : forall V src op x k,
  (forall c, id_start V c -> id_part V c) ->
  rd_at src k (lx_rd x) ->
  wp (read_next_token V op) x
     (fun t x' => exists k', next_token V src op (lx_empty_line x) k t k'
        /\ rd_at src k' (lx_rd x') /\ lx_ahead x' = lx_ahead x /\ lx_empty_line x' = false)
     anyE (Ktok V op (skipn k src)).
Proof.
  intros V src op x k Hsp Hat. unfold read_next_token. apply wp_bind, wp_gets. apply wp_bind.
  apply lift_rd_wp. eapply wp_mono; [apply trivia_spec| |auto|contradiction].
  intros [found b'] r1 (ws & T1 & Htv & Hnl). apply wp_bind, wp_modify. cbn [lx_rd lx_ahead].
  apply wp_bind. apply lift_rd_wp. cbn [lx_rd lx_ahead lx_empty_line].
  eapply wp_mono; [apply read_token_at_spec, Hsp| |auto|].
  - intros t r2 (d & w & (T2 & ->) & Hlex). apply wp_ret.
    pose proof (rd_at_took _ _ _ _ _ Hat T1) as H1. pose proof (rd_at_took _ _ _ _ _ H1 T2) as H2.
    exists (k + length ws + length w)%nat. split; [|split; [exact H2|split; reflexivity]].
    exists ws, w, (rest r2). split; [|split; [reflexivity|]].
    + destruct Hat as (_ & Hr & _). rewrite <- Hr, (took_rest _ _ _ T1), (took_rest _ _ _ T2).
      reflexivity.
    + split; [rewrite <- (took_rest _ _ _ T2); exact Htv|].
      split; [exact Hlex|]. split; [|exact Hnl].
      destruct H1 as (_ & _ & P1), H2 as (_ & _ & P2). cbn. rewrite P1, P2. reflexivity.
  - intros k0 Hk. destruct Hat as (_ & Hr & _). rewrite <- Hr, (took_rest _ _ _ T1).
    destruct Hk as [Hk|(-> & -> & u & b & Hl & Hb)].
    + left. apply Kesc_app, Hk.
    + right. split; [reflexivity|]. split; [reflexivity|]. exists (ws ++ u), b.
      split; [rewrite Hl, app_assoc; reflexivity|exact Hb].
Qed.
