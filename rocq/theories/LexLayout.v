(** Exactness of the lexer, and independence of the layout. *)
From Coq Require Import String Ascii List NArith Arith Bool Lia.
From Verif Require Import Base Chars F64 Word Token Reader Lexer LexClient Wp SpecReader ReaderProofs
  SpecLexer SpecLayout LexWp LexLit LexerProofs LexTheorems LexComp LexComp2 LexExact.
Import ListNotations.
Local Open Scope nat_scope.

Lemma rd_at_goes src k l1 p w l : rd_at src k (Rd l1 p) -> l1 = w ++ l ->
  rd_at src (k + length w) (Rd l (advance_all p w l)).
Proof.
  intros H ->. apply (rd_at_took src k (Rd (w ++ l) p)); [exact H|]. split; reflexivity.
Qed.

(** A token of the grammar is read. *)
Lemma next_token_read V src op x k t k' : ucd_ok V -> rd_at src k (lx_rd x) -> lx_ahead x = [] ->
  next_token V src op (lx_empty_line x) k t k' ->
  exists x', read_token V op x = Ok (t, x') /\ rd_at src k' (lx_rd x') /\ lx_ahead x' = []
             /\ lx_empty_line x' = false.
Proof.
  intros HV Hat Hla (ws & w & l & Hs & Hk & Ht & Hl & Hloc & Hnl).
  rewrite (read_token_empty V op x Hla). destruct x as [[r p] ah b]. cbn [lx_rd lx_ahead lx_empty_line] in *.
  subst ah. pose proof Hat as (Hle & Hr & Hp). cbn [rest pos] in Hr, Hp. rewrite Hs in Hr. subst r.
  destruct (read_next_goes V op b [] ws w l (tk_value t) p HV Ht Hl) as (nl & Hn & Hrd).
  pose proof (rd_at_goes src k _ p ws (w ++ l) Hat eq_refl) as H1.
  pose proof (rd_at_goes src (k + length ws) _ _ w l H1 eq_refl) as H2.
  exists (Lexer (Rd l (advance_all (advance_all p ws (w ++ l)) w l)) [] false).
  split; [|cbn [lx_rd lx_ahead lx_empty_line]; rewrite Hk; split; [exact H2|split; reflexivity]].
  rewrite Hrd. do 2 f_equal. destruct t as [loc n v]. cbn [tk_value tk_newline tk_loc] in *. f_equal.
  - rewrite Hloc, Hk. destruct H1 as (_ & _ & P1), H2 as (_ & _ & P2). cbn [pos] in P1, P2.
    rewrite <- P1, <- P2. reflexivity.
  - destruct nl, n; try reflexivity; [symmetry; apply Hnl, Hn; reflexivity|apply Hn, Hnl; reflexivity].
Qed.

Lemma read_tokens_complete V src : ucd_ok V -> forall ops x k ts k',
  rd_at src k (lx_rd x) -> lx_ahead x = [] -> tiles V src ops (lx_empty_line x) k ts k' ->
  exists x', read_tokens V ops x = Ok (ts, x') /\ rd_at src k' (lx_rd x').
Proof.
  intros HV. induction ops as [|op ops IH]; intros x k ts k' Hat Hla H.
  - inversion H; subst. exists x. split; [reflexivity|exact Hat].
  - inversion H as [|? ? ? ? t k1 ts' ? Hn Hts]; subst.
    destruct (next_token_read V src op x k t k1 HV Hat Hla Hn) as (x1 & R1 & A1 & L1 & E1).
    rewrite <- E1 in Hts. destruct (IH x1 k1 ts' k' A1 L1 Hts) as (x2 & R2 & A2).
    exists x2. split; [|exact A2]. cbn [read_tokens]. unfold bind. rewrite R1, R2. reflexivity.
Qed.

Theorem read_exact V src ops ts : ucd_ok V ->
  ((exists x, read_tokens V ops (lexer_new src) = Ok (ts, x)) <-> exists k, tiles V src ops true 0 ts k).
Proof.
  intros HV. split.
  - intros [x H]. destruct (tokens_tile V src ops ts x HV H) as (k & Hk & _). eauto.
  - intros [k H]. destruct (read_tokens_complete V src HV ops (lexer_new src) 0 ts k (rd_at_new src) eq_refl H)
      as (x & Hx & _). eauto.
Qed.

Theorem tiles_unique V src ops ts1 k1 ts2 k2 : ucd_ok V ->
  tiles V src ops true 0 ts1 k1 -> tiles V src ops true 0 ts2 k2 -> ts1 = ts2 /\ k1 = k2.
Proof.
  intros HV H1 H2.
  destruct (read_tokens_complete V src HV ops (lexer_new src) 0 ts1 k1 (rd_at_new src) eq_refl H1) as (x1 & R1 & A1).
  destruct (read_tokens_complete V src HV ops (lexer_new src) 0 ts2 k2 (rd_at_new src) eq_refl H2) as (x2 & R2 & A2).
  rewrite R1 in R2. injection R2 as -> ->. split; [reflexivity|].
  destruct A1 as (L1 & _ & P1), A2 as (L2 & _ & P2). rewrite P1 in P2.
  apply (f_equal offset) in P2. cbn in P2. lia.
Qed.

(** ** Layout *)

Lemma skipn_len (a b : str) : skipn (length a) (a ++ b) = b.
Proof. induction a; [reflexivity|]. exact IHa. Qed.

Lemma next_token_of_text V s op b g w r nl d k src : skipn k src = s -> s = g ++ w ++ r ->
  trivia b g (w ++ r) -> lexeme V op d w r -> (nl = true <-> has_newline g) ->
  next_token V src op b k
    (Token (Span (posn_at src (k + length g)) (posn_at src (k + length g + length w))) nl d)
    (k + length g + length w).
Proof.
  intros Hs -> Ht Hl Hn. exists g, w, r. cbn [tk_value tk_loc tk_newline].
  split; [exact Hs|]. split; [reflexivity|]. split; [exact Ht|]. split; [exact Hl|]. split; [reflexivity|exact Hn].
Qed.

Lemma skipn_two k (src g w r : str) : skipn k src = g ++ w ++ r ->
  skipn (k + length g + length w) src = r.
Proof.
  intros H. replace (k + length g + length w) with (length w + (length g + k)) by lia.
  rewrite !skipn_add, H, skipn_len. apply skipn_len.
Qed.

Lemma relaid_tiles V ops b s1 s2 ds : relaid V ops b s1 s2 ds ->
  (forall src k, skipn k src = s1 -> exists ts k', tiles V src ops b k ts k' /\ map unplaced ts = ds)
  /\ (forall src k, skipn k src = s2 -> exists ts k', tiles V src ops b k ts k' /\ map unplaced ts = ds).
Proof.
  intros H. induction H as [b s1 s2|op ops b g1 g2 w r1 r2 nl d ds T1 T2 N1 N2 L1 L2 H [IH1 IH2]].
  - split; intros src k _; exists [], k; (split; [constructor|reflexivity]).
  - split; intros src k Hs.
    + destruct (IH1 src _ (skipn_two _ _ _ _ _ Hs)) as (ts & k' & Hts & Hm).
      eexists (_ :: ts), k'. split; [econstructor; [|exact Hts]|].
      * eapply next_token_of_text; [exact Hs|reflexivity|exact T1|exact L1|exact N1].
      * cbn. rewrite Hm. reflexivity.
    + destruct (IH2 src _ (skipn_two _ _ _ _ _ Hs)) as (ts & k' & Hts & Hm).
      eexists (_ :: ts), k'. split; [econstructor; [|exact Hts]|].
      * eapply next_token_of_text; [exact Hs|reflexivity|exact T2|exact L2|exact N2].
      * cbn. rewrite Hm. reflexivity.
Qed.

Theorem relaid_same V ops s1 s2 ds : ucd_ok V -> relaid V ops true s1 s2 ds ->
  exists ts1 x1 ts2 x2,
    read_tokens V ops (lexer_new s1) = Ok (ts1, x1) /\ read_tokens V ops (lexer_new s2) = Ok (ts2, x2)
    /\ map unplaced ts1 = ds /\ map unplaced ts2 = ds.
Proof.
  intros HV H. destruct (relaid_tiles V ops true s1 s2 ds H) as [H1 H2].
  destruct (H1 s1 0 eq_refl) as (ts1 & k1 & T1 & M1). destruct (H2 s2 0 eq_refl) as (ts2 & k2 & T2 & M2).
  destruct (proj2 (read_exact V s1 ops ts1 HV) (ex_intro _ k1 T1)) as [x1 R1].
  destruct (proj2 (read_exact V s2 ops ts2 HV) (ex_intro _ k2 T2)) as [x2 R2].
  exists ts1, x1, ts2, x2. auto.
Qed.

(** One token: what follows the replaced whitespace is read alike. *)
Theorem trivia_replaced V op src1 k1 x1 g1 src2 k2 x2 g2 r t1 x1' : ucd_ok V ->
  rd_at src1 k1 (lx_rd x1) -> rd_at src2 k2 (lx_rd x2) -> lx_ahead x1 = [] -> lx_ahead x2 = [] ->
  skipn k1 src1 = g1 ++ r -> skipn k2 src2 = g2 ++ r ->
  trivia (lx_empty_line x1) g1 r -> trivia (lx_empty_line x2) g2 r ->
  (has_newline g1 <-> has_newline g2) ->
  read_token V op x1 = Ok (t1, x1') ->
  exists n t2 x2', read_token V op x2 = Ok (t2, x2') /\ unplaced t2 = unplaced t1
    /\ tk_loc t1 = Span (posn_at src1 (k1 + length g1)) (posn_at src1 (k1 + length g1 + n))
    /\ tk_loc t2 = Span (posn_at src2 (k2 + length g2)) (posn_at src2 (k2 + length g2 + n))
    /\ rest (lx_rd x1') = skipn n r /\ rest (lx_rd x2') = skipn n r.
Proof.
  intros HV A1 A2 L1 L2 S1 S2 T1 T2 Hn R1.
  destruct (wp_ok _ _ _ _ _ _ _ (read_token_wp V src1 op x1 k1 HV A1 L1) R1)
    as (k1' & (g & w & l & Hs & Hk & Ht & Hl & Hloc & Hnl) & B1 & _).
  assert (Eg : g = g1 /\ w ++ l = r).
  { rewrite S1 in Hs.
    destruct (trivia_goes _ _ _ T1 (S (length (g1 ++ r))) false origin ltac:(lia)) as (n1 & b1 & G1 & _).
    destruct (trivia_goes _ _ _ Ht (S (length (g1 ++ r))) false origin) as (n2 & b2 & G2 & _).
    { rewrite <- Hs. lia. }
    unfold goes in G1, G2. rewrite <- Hs in G2. rewrite G1 in G2.
    assert (E : w ++ l = r) by congruence. split; [|exact E]. rewrite E in Hs.
    apply app_inv_tail in Hs. congruence. }
  destruct Eg as [-> Er].
  assert (N2 : next_token V src2 op (lx_empty_line x2) k2
      (Token (Span (posn_at src2 (k2 + length g2)) (posn_at src2 (k2 + length g2 + length w)))
             (tk_newline t1) (tk_value t1)) (k2 + length g2 + length w)).
  { eapply next_token_of_text; [exact S2|rewrite Er; reflexivity|rewrite Er; exact T2|exact Hl|].
    rewrite Hnl. exact Hn. }
  destruct (next_token_read V src2 op x2 k2 _ _ HV A2 L2 N2) as (x2' & R2 & B2 & _).
  exists (length w). eexists _, x2'. split; [exact R2|]. split; [reflexivity|].
  split; [rewrite Hloc, Hk; reflexivity|]. split; [reflexivity|].
  destruct B1 as (_ & B1 & _), B2 as (_ & B2 & _). rewrite B1, B2, Hk.
  assert (El : skipn (length w) r = l) by (rewrite <- Er; apply skipn_len).
  rewrite El. split; [apply skipn_two; rewrite S1, <- Er; reflexivity|].
  apply skipn_two. rewrite S2, <- Er. reflexivity.
Qed.

(** ** How much of the following text a lexeme depends on *)

Lemma cooks_tail V q b v t : cooks V q b v t -> forall l l', t = q :: l -> cooks V q b v (q :: l').
Proof.
  intros H. induction H as [t|c b v t H1 H2 H3 H IH|c b v t H1 H2 H3 H4 H IH|ds c b v t H1 H2 H IH
                 |x y c b v t H1 H2 H3 H IH|e n c b v t H1 H2 H IH|nl b v t H1 H IH]; intros l l' ->.
  - constructor.
  - constructor; try assumption. eapply IH. reflexivity.
  - apply ck_single; try assumption. eapply IH. reflexivity.
  - apply ck_octal; [|assumption|eapply IH; reflexivity].
    destruct H1 as (A & B & C & D & E). split; [exact A|]. split; [exact B|]. split; [exact C|].
    split; [exact D|]. intros Hlt c' t' Ht Hc'.
    destruct b as [|x b]; cbn [app] in Ht; injection Ht as -> Ht.
    + eapply E; [exact Hlt|reflexivity|exact Hc'].
    + eapply E; [exact Hlt|reflexivity|exact Hc'].
  - apply ck_hex; try assumption. eapply IH. reflexivity.
  - eapply ck_unicode; try eassumption. eapply IH. reflexivity.
  - apply ck_continuation; [|eapply IH; reflexivity].
    destruct H1 as [->|(c & -> & Hc & Hx)]; [left; reflexivity|right].
    exists c. split; [reflexivity|]. split; [exact Hc|]. intros E. specialize (Hx E).
    intros [tl Ht]. apply Hx. destruct b as [|x b]; cbn [app] in *; injection Ht as -> _; eexists; reflexivity.
Qed.

Lemma punc_length p : length (punc_text p) <= 4.
Proof. destruct p; cbn; lia. Qed.

Lemma firstn_hd n (l l' : str) : firstn (S n) l = firstn (S n) l' -> hd_error l = hd_error l'.
Proof. destruct l, l'; cbn; intros H; try discriminate; [reflexivity|]. injection H as -> _. reflexivity. Qed.

Lemma starts_hd P l l' : hd_error l = hd_error l' -> starts_with P l' -> starts_with P l.
Proof. destruct l, l'; cbn; intros H; try discriminate; try contradiction. injection H as ->. trivial. Qed.

Lemma prefix_one c l l' : hd_error l = hd_error l' -> prefix [c] l' -> prefix [c] l.
Proof.
  intros H [tl ->]. destruct l as [|x l]; [discriminate|]. injection H as ->. exists l. reflexivity.
Qed.

Lemma word_end_hd V l l' : hd_error l = hd_error l' -> word_end V l -> word_end V l'.
Proof.
  intros H [H1 H2]. split.
  - intros X. apply H1. eapply starts_hd; [exact H|exact X].
  - intros X. apply H2. eapply (prefix_one (chr "\")); [exact H|exact X].
Qed.

Theorem lexeme_context V op d w l l' : firstn 3 l = firstn 3 l' ->
  lexeme V op d w l -> lexeme V op d w l'.
Proof.
  intros E H. pose proof (firstn_hd 2 l l' E) as Eh.
  destruct H as [|p l H1 H2 H3|r l H|n w v esc l H1 H2 H3 H4 H5|q b v l H1 H2
                          |b fw fv esc l H1 H2 H3 H4|s v l H1 H2 H3 H4 H5].
  - destruct l'; [constructor|discriminate].
  - constructor; [exact H1| |].
    + intros p' Hp' [tl Htl]. apply H2; [exact Hp'|].
      assert (Hlen : length (punc_text p') <= length (punc_text p) + 3).
      { pose proof (punc_length p'). destruct p; cbn; try lia. destruct H1 as [H1 _]. congruence. }
      exists (skipn (length (punc_text p')) (punc_text p ++ l)).
      rewrite <- (firstn_skipn (length (punc_text p')) (punc_text p ++ l)) at 1. f_equal.
      rewrite firstn_app.
      assert (Ef : firstn (length (punc_text p') - length (punc_text p)) l
                   = firstn (length (punc_text p') - length (punc_text p)) l').
      { rewrite <- (firstn_firstn l _ 3), <- (firstn_firstn l' _ 3) || idtac.
        replace (length (punc_text p') - length (punc_text p))
          with (Nat.min (length (punc_text p') - length (punc_text p)) 3) by lia.
        rewrite <- !firstn_firstn, E. reflexivity. }
      rewrite Ef, <- firstn_app, Htl, firstn_app, Nat.sub_diag, firstn_O, app_nil_r. apply firstn_all.
    + intros Hd X. apply (H3 Hd). eapply starts_hd; [exact Eh|exact X].
  - constructor. eapply word_end_hd; eassumption.
  - eapply lx_ident; try eassumption. eapply word_end_hd; eassumption.
  - constructor; [exact H1|]. eapply cooks_tail; [exact H2|reflexivity].
  - eapply lx_regexp; try eassumption. eapply word_end_hd; eassumption.
  - constructor; try assumption.
    + intros X. apply H3. eapply starts_hd; [exact Eh|exact X].
    + intros X. apply H4. eapply starts_hd; [exact Eh|exact X].
    + intros m Hm X. apply (H5 m Hm). eapply (prefix_one (chr ".")); [exact Eh|exact X].
Qed.

Lemma blank_not_part V l : ucd_ok V -> blank_start l -> ~ starts_with (id_part V) l.
Proof.
  intros HV Hb X. destruct Hb as [->|Hb]; [exact X|]. destruct l as [|c l]; [exact X|]. cbn in X, Hb.
  apply id_part_iff in X. unfold is_es_identifier_continue in X.
  destruct Hb as [Hb|Hb].
  - apply white_space_iff in Hb. rewrite (ucd_cont_space V HV c Hb), orb_false_r in X.
    rewrite !orb_true_iff, !N.eqb_eq in X. destruct X as [[[->| ->]| ->]| ->]; discriminate Hb.
  - apply line_terminator_iff in Hb. rewrite (ucd_cont_newline V HV c Hb), orb_false_r in X.
    rewrite !orb_true_iff, !N.eqb_eq in X. destruct X as [[[->| ->]| ->]| ->]; discriminate Hb.
Qed.

Lemma blank_not_in l : blank_start l -> forall P : N -> Prop,
  (forall c, P c -> ~ white_space c /\ ~ line_terminator c) -> ~ starts_with P l.
Proof.
  intros Hb P HP X. destruct l as [|c l]; [exact X|]. cbn in X. destruct (HP c X) as [H1 H2].
  destruct Hb as [Hb|[Hb|Hb]]; [discriminate|exact (H1 Hb)|exact (H2 Hb)].
Qed.

Lemma blank_not_prefix x l : blank_start l -> ~ white_space x -> ~ line_terminator x -> forall w,
  ~ prefix (x :: w) l.
Proof.
  intros Hb H1 H2 w [tl ->]. destruct Hb as [Hb|[Hb|Hb]]; [discriminate|exact (H1 Hb)|exact (H2 Hb)].
Qed.

Theorem lexeme_before_blank V op d w l l' : ucd_ok V -> d <> TPunc T_EOF -> blank_start l' ->
  lexeme V op d w l -> lexeme V op d w l'.
Proof.
  intros HV Hd Hb H.
  assert (He : word_end V l').
  { split; [apply blank_not_part; assumption|].
    apply blank_not_prefix; [exact Hb| |]; cbn; [|intuition discriminate].
    intros [X _]. cbn in X. intuition discriminate. }
  assert (Hdd : ~ starts_with dec_digit l').
  { apply blank_not_in; [exact Hb|]. intros c [X1 X2]. split.
    - intros [Y _]. cbn in Y. lia.
    - intros Y. cbn in Y. lia. }
  destruct H as [|p l H1 H2 H3|r l H|n w v esc l H1 H2 H3 H4 H5|q b v l H1 H2
                          |b fw fv esc l H1 H2 H3 H4|s v l H1 H2 H3 H4 H5].
  - congruence.
  - constructor; [exact H1| |intros _; exact Hdd]. intros p' Hp' [tl Htl].
    destruct (le_gt_dec (length (punc_text p')) (length (punc_text p))) as [Hle|Hgt]; [exact Hle|].
    destruct (strip_prefix _ _ _ _ Hgt Htl) as (c & w & Hs & Hl). exfalso.
    assert (Hc : In c specials).
    { assert (Hst : forall a b t, strip a b = Some t -> b = a ++ t).
      { induction a as [|y a IH]; intros b' t Hx; [cbn in *; congruence|].
        destruct b' as [|z b']; cbn in Hx; [discriminate|].
        destruct (y =? z)%N eqn:Ey; [|discriminate]. apply N.eqb_eq in Ey. subst z. cbn. f_equal. auto. }
      apply Hst in Hs. assert (Hin : In c (punc_text p')) by (rewrite Hs; apply in_or_app; right; left; reflexivity).
      assert (Hall : forallb (fun c => existsb (N.eqb c) specials) (punc_text p') = true)
        by (destruct p'; reflexivity).
      rewrite forallb_forall in Hall. specialize (Hall c Hin). apply existsb_exists in Hall as (y & Hy & Ey).
      apply N.eqb_eq in Ey. subst y. exact Hy. }
    revert Hl. intros Hl. cbn [app] in Hl.
    apply (blank_not_prefix c l' Hb) with (w := w); [| |exists tl; exact Hl].
    + intros [Y _]. cbn in Y, Hc. intuition congruence.
    + intros Y. cbn in Y, Hc. intuition congruence.
  - constructor. exact He.
  - eapply lx_ident; eassumption.
  - constructor; [exact H1|]. eapply cooks_tail; [exact H2|reflexivity].
  - eapply lx_regexp; eassumption.
  - constructor; try assumption.
    + intros X. destruct He as [He _]. apply He.
      destruct l' as [|c l']; [exact X|]. exact (ucd_start_part V HV c X).
    + intros m Hm. apply blank_not_prefix; [exact Hb| |]; cbn; [|intuition discriminate].
      intros [X _]. cbn in X. intuition discriminate.
Qed.
