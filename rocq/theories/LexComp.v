(** The lexer reads every lexeme of the grammar of SpecLexer.v: forward execution
    of the reading functions on a text that is known to be a lexeme. *)
From Coq Require Import String Ascii List NArith Arith Bool Lia.
From Verif Require Import Base Chars F64 Word Token Reader Lexer Wp SpecReader ReaderProofs
  SpecLexer LexWp LexLit LexerProofs LexTheorems.
Import ListNotations.
Local Open Scope N_scope.

(** [goes m p w l a]: at position [p] with [w ++ l] to read, [m] consumes exactly
    [w] and returns [a]. *)
Definition goes {A} (m : LM A) (p : posn) (w l : str) (a : A) : Prop :=
  m (Rd (w ++ l) p) = Ok (a, Rd l (advance_all p w l)).

Lemma goes_ret {A} (a : A) p l : goes (ret a) p [] l a.
Proof. reflexivity. Qed.

Lemma goes_bind {A B} (m : LM A) (f : A -> LM B) p w1 w2 l a b :
  goes m p w1 (w2 ++ l) a -> goes (f a) (advance_all p w1 (w2 ++ l)) w2 l b ->
  goes (bind m f) p (w1 ++ w2) l b.
Proof.
  unfold goes, bind. intros H1 H2. rewrite <- app_assoc, H1, H2, advance_all_app. reflexivity.
Qed.

(** The same with the whole text given first. *)
Lemma goes_bind' {A B} (m : LM A) (f : A -> LM B) p w w1 w2 l a b : w = w1 ++ w2 ->
  goes m p w1 (w2 ++ l) a -> goes (f a) (advance_all p w1 (w2 ++ l)) w2 l b ->
  goes (bind m f) p w l b.
Proof. intros ->. apply goes_bind. Qed.

Lemma goes_peek {B} (f : option N -> LM B) p w l b :
  goes (f (hd_error (w ++ l))) p w l b -> goes (bind lx_peek f) p w l b.
Proof. intros H. exact H. Qed.
Lemma goes_peek_at {B} n (f : option N -> LM B) p w l b :
  goes (f (nth_error (w ++ l) n)) p w l b -> goes (bind (lx_peek_at n) f) p w l b.
Proof. intros H. exact H. Qed.
Lemma goes_posn {B} (f : posn -> LM B) p w l b :
  goes (f p) p w l b -> goes (bind lx_posn f) p w l b.
Proof. intros H. exact H. Qed.

Lemma goes_read c p l : goes lx_read p [c] l c.
Proof. reflexivity. Qed.
Lemma goes_skip c p l : goes lx_skip p [c] l tt.
Proof. reflexivity. Qed.
Lemma goes_reread c p l : goes (lx_reread c) p [c] l c.
Proof. unfold goes, lx_reread. cbn. rewrite N.eqb_refl. reflexivity. Qed.
Lemma goes_skip2 c d p l : goes lx_skip2 p [c; d] l tt.
Proof. reflexivity. Qed.
Lemma goes_skip_n : forall w p l, goes (lx_skip_n (length w)) p w l tt.
Proof.
  induction w as [|c w IH]; intros p l; [reflexivity|].
  cbn [length lx_skip_n]. apply (goes_bind' _ _ _ _ [c] w _ tt); [reflexivity|apply goes_skip|].
  apply IH.
Qed.
Lemma goes_match c p l : goes (lx_matches c) p [c] l true.
Proof. unfold goes, lx_matches. cbn. rewrite N.eqb_refl. reflexivity. Qed.
Lemma goes_nomatch c p l : is_c (hd_error l) c = false -> goes (lx_matches c) p [] l false.
Proof. intros H. unfold goes, lx_matches. cbn. rewrite H. reflexivity. Qed.

(** Where a run of characters ends. *)
Definition stops (pred : N -> bool) (l : str) : Prop :=
  match l with [] => True | c :: _ => pred c = true end.

Lemma goes_read_until pred : forall w p l,
  Forall (fun c => pred c = false) w -> stops pred l -> goes (lx_read_until pred) p w l w.
Proof.
  intros w p l Hw Hl. unfold goes, lx_read_until. cbn [rest pos]. f_equal.
  revert p. induction Hw as [|c w Hc Hw IH]; intros p; cbn [app read_until_from advance_all].
  - destruct l as [|c l]; [reflexivity|]. cbn in Hl |- *. rewrite Hl. reflexivity.
  - rewrite Hc, IH. reflexivity.
Qed.

Lemma skip_until_goes pred : forall w p l,
  Forall (fun c => pred c = false) w -> stops pred l ->
  skip_until_from pred (w ++ l) p = Rd l (advance_all p w l).
Proof.
  intros w p l Hw Hl. revert p.
  induction Hw as [|c w Hc Hw IH]; intros p; cbn [app skip_until_from advance_all].
  - destruct l as [|c l]; [reflexivity|]. cbn in Hl |- *. rewrite Hl. reflexivity.
  - rewrite Hc, IH. reflexivity.
Qed.

(** One iteration of a loop, then the rest. *)
Lemma goes_loop_step {A B} (body : A -> LM (A + B)) fuel a a' b p w w1 w2 l : w = w1 ++ w2 ->
  goes (body a) p w1 (w2 ++ l) (inl a') ->
  goes (loopM fuel body a') (advance_all p w1 (w2 ++ l)) w2 l b ->
  goes (loopM (S fuel) body a) p w l b.
Proof.
  intros -> H1 H2. cbn [loopM]. eapply goes_bind; [exact H1|exact H2].
Qed.
Lemma goes_loop_last {A B} (body : A -> LM (A + B)) fuel a b p w l :
  goes (body a) p w l (inr b) -> goes (loopM (S fuel) body a) p w l b.
Proof.
  intros H. cbn [loopM]. apply (goes_bind' _ _ _ w w [] l (inr b)).
  - symmetry; apply app_nil_r.
  - exact H.
  - apply goes_ret.
Qed.

(** The loop of [read_until_with]: the pieces it reads. *)
Inductive pieces {A} (pred : N -> bool) (read : A -> LM A) (l : str) : A -> str -> A -> Prop :=
| pc_stop : forall a, stops pred l -> pieces pred read l a [] a
| pc_step : forall a c w1 w2 a' b, pred c = false ->
    (forall p, goes (read a) p (c :: w1) (w2 ++ l) a') -> pieces pred read l a' w2 b ->
    pieces pred read l a (c :: w1 ++ w2) b.

Lemma goes_until_with {A} pred (read : A -> LM A) l a w b : pieces pred read l a w b ->
  forall p, goes (lx_read_until_with pred read a) p w l b.
Proof.
  intros H p. unfold goes, lx_read_until_with. cbn [rest].
  assert (Hf : (length (w ++ l) < S (length (w ++ l)))%nat) by lia.
  revert Hf. generalize (S (length (w ++ l))). revert p.
  induction H as [a Hs|a c w1 w2 a' b Hc Hr H IH]; intros p fuel Hf;
    destruct fuel as [|fuel]; try lia.
  - apply (goes_loop_last _ _ _ _ p [] l). apply goes_peek. cbn [app].
    destruct l as [|c l]; cbn [hd_error]; [apply goes_ret|]. cbn in Hs. rewrite Hs. apply goes_ret.
  - eapply (goes_loop_step _ _ _ a' b p _ (c :: w1) w2 l); [reflexivity| |].
    + apply goes_peek. cbn [app hd_error]. rewrite Hc.
      apply (goes_bind' _ _ _ _ (c :: w1) [] _ a'); [symmetry; apply app_nil_r|apply Hr|apply goes_ret].
    + apply IH. cbn [app length] in Hf. rewrite !app_length in Hf. rewrite app_length. lia.
Qed.

(** ** Digits and escapes *)

Lemma goes_digit pred radix s missing c p l :
  pred c = true -> to_digit c radix = Some (digit_value c) ->
  goes (lx_read_digit_into s radix pred missing) p [c] l (digit_value c, s ++ [c]).
Proof.
  intros Hp Hd. unfold lx_read_digit_into. apply goes_peek. cbn [app hd_error]. rewrite Hp.
  apply (goes_bind' _ _ _ _ [c] [] _ c); [reflexivity|apply goes_reread|]. rewrite Hd. apply goes_ret.
Qed.
Lemma goes_hex s c p l : hex_digit c ->
  goes (lx_read_hex_digit_into s) p [c] l (digit_value c, s ++ [c]).
Proof. intros H. apply goes_digit; [apply hex_digit_iff, H|apply to_digit_hex, H]. Qed.

Lemma goes_hex_four s a b c d p l : Forall hex_digit [a; b; c; d] ->
  goes (lx_read_hex_digits 4 0 4096 s) p [a; b; c; d] l
       (digits_value 16 [a; b; c; d], s ++ [a; b; c; d]).
Proof.
  intros H. inversion H as [|? ? Ha H1]; subst. inversion H1 as [|? ? Hb H2]; subst.
  inversion H2 as [|? ? Hc H3]; subst. inversion H3 as [|? ? Hd _]; subst.
  cbn [lx_read_hex_digits].
  eapply (goes_bind' _ _ _ _ [a] [b; c; d]); [reflexivity|apply goes_hex, Ha|]. cbn beta iota.
  eapply (goes_bind' _ _ _ _ [b] [c; d]); [reflexivity|apply goes_hex, Hb|]. cbn beta iota.
  eapply (goes_bind' _ _ _ _ [c] [d]); [reflexivity|apply goes_hex, Hc|]. cbn beta iota.
  eapply (goes_bind' _ _ _ _ [d] []); [reflexivity|apply goes_hex, Hd|]. cbn beta iota.
  rewrite <- !app_assoc. cbn [app].
  replace (digits_value 16 [a; b; c; d]) with
    (0 + digit_value a * 4096 + digit_value b * N.shiftr 4096 4
     + digit_value c * N.shiftr (N.shiftr 4096 4) 4
     + digit_value d * N.shiftr (N.shiftr (N.shiftr 4096 4) 4) 4).
  - apply goes_ret.
  - change (N.shiftr (N.shiftr (N.shiftr 4096 4) 4) 4) with 1.
    change (N.shiftr (N.shiftr 4096 4) 4) with 16. change (N.shiftr 4096 4) with 256.
    unfold digits_value. cbn [fold_left]. lia.
Qed.

Section WithEnv.
Context (V : env).

Lemma goes_unicode_escape s e n p l : unicode_escape V e n ->
  goes (lx_read_unicode_escape_seq V s) p e l (n, s ++ e).
Proof.
  intros H. unfold lx_read_unicode_escape_seq. destruct H as [a b c d H|ds Hne Hds Hlen].
  - apply (goes_bind' _ _ _ _ [] [a; b; c; d] _ false); [reflexivity| |].
    + apply goes_nomatch. cbn. inversion H as [|? ? Ha _]; subst.
      apply N.eqb_neq. intros ->. unfold hex_digit, in_range in Ha. cbn in Ha. lia.
    + apply goes_hex_four, H.
  - destruct ds as [|c ds]; [congruence|]. inversion Hds as [|? ? Hc Hds']; subst.
    apply (goes_bind' _ _ _ _ [chr "{"] ((c :: ds) ++ lit "}") _ true); [reflexivity|apply goes_match|].
    cbn beta iota.
    eapply (goes_bind' _ _ _ _ [c] (ds ++ lit "}")); [reflexivity|apply goes_hex, Hc|].
    cbn beta iota.
    apply (goes_bind' _ _ _ _ ds (lit "}") _
             (map digit_value (c :: ds), s ++ lit "{" ++ c :: ds)); [reflexivity| |].
    + apply goes_until_with.
      replace (s ++ lit "{" ++ c :: ds) with (((s ++ [chr "{"]) ++ [c]) ++ ds)
        by (rewrite <- !app_assoc; reflexivity).
      change (map digit_value (c :: ds)) with ([digit_value c] ++ map digit_value ds).
      generalize [digit_value c] as vs. generalize ((s ++ [chr "{"]) ++ [c]) as s1.
      clear - Hds'. induction Hds' as [|d ds Hd Hds IH]; intros s1 vs.
      * rewrite !app_nil_r. constructor. reflexivity.
      * change (d :: ds) with (d :: [] ++ ds) at 1.
        apply (pc_step _ _ _ _ _ [] ds (vs ++ [digit_value d], s1 ++ [d])).
        -- apply N.eqb_neq. intros ->. unfold hex_digit, in_range in Hd. cbn in Hd. lia.
        -- intros q. eapply (goes_bind' _ _ _ _ [d] []); [reflexivity|apply goes_hex, Hd|].
           apply goes_ret.
        -- cbn [map]. replace (s1 ++ d :: ds) with ((s1 ++ [d]) ++ ds)
             by (rewrite <- app_assoc; reflexivity).
           replace (vs ++ digit_value d :: map digit_value ds)
             with ((vs ++ [digit_value d]) ++ map digit_value ds)
             by (rewrite <- app_assoc; reflexivity).
           apply IH.
    + cbn beta iota. apply (goes_bind' _ _ _ _ (lit "}") [] _ (chr "}"));
        [reflexivity|apply goes_reread|].
      pose proof (add_digits_spec V (c :: ds) Hds) as Had.
      destruct (add_digits V (map digit_value (c :: ds)) 16) as [code|].
      * destruct Had as [-> _].
        replace (s ++ lit "{" ++ (c :: ds) ++ lit "}") with ((s ++ lit "{" ++ c :: ds) ++ [chr "}"])
          by (rewrite <- !app_assoc; reflexivity).
        apply goes_ret.
      * destruct Had as [H1 H2]. specialize (Hlen H1). lia.
Qed.

(** ** Words *)

Lemma word_pieces l : ucd_ok V -> word_end V l -> forall w v esc, word_text V w v esc ->
  forall e0 t0,
  pieces (fun ch => negb (ch =? chr "\") && negb (is_es_identifier_continue V ch))
    (fun w => c <- lx_read ;;
       if c =? chr "\" then lx_read_word_escape V w
       else ret (Word (had_escape w) (text w ++ [c])))
    l (Word e0 t0) w (Word (e0 || esc) (t0 ++ v)).
Proof.
  intros HV He w v esc H. induction H as [|c w v esc Hc H IH|e n w v esc He' Hn H IH]; intros e0 t0.
  - rewrite orb_false_r, app_nil_r. constructor. destruct He as [H1 H2].
    destruct l as [|c l]; [exact I|]. cbn in H1 |- *. apply andb_true_iff. split.
    + apply negb_true_iff, N.eqb_neq. intros ->. apply H2. exists l. reflexivity.
    + apply negb_true_iff, id_part_false, H1.
  - assert (Hb : (c =? chr "\") = false).
    { apply N.eqb_neq. intros ->. apply id_part_iff in Hc. unfold is_es_identifier_continue in Hc.
      rewrite (ucd_cont_ascii V HV) in Hc by (vm_compute; reflexivity). discriminate Hc. }
    change (c :: w) with (c :: [] ++ w).
    apply (pc_step _ _ _ _ _ [] w (Word e0 (t0 ++ [c]))).
    + rewrite Hb, (proj2 (id_part_iff V c) Hc). reflexivity.
    + intros p. apply (goes_bind' _ _ _ _ [c] [] _ c); [reflexivity|apply goes_read|].
      rewrite Hb. apply goes_ret.
    + replace (t0 ++ c :: v) with ((t0 ++ [c]) ++ v) by (rewrite <- app_assoc; reflexivity).
      apply IH.
  - change (lit "\u" ++ e ++ w) with (chr "\" :: (chr "u" :: e) ++ w).
    apply (pc_step _ _ _ _ _ (chr "u" :: e) w (Word true (t0 ++ [n]))).
    + reflexivity.
    + intros p. apply (goes_bind' _ _ _ _ [chr "\"] (chr "u" :: e) _ (chr "\"));
        [reflexivity|apply goes_read|].
      rewrite N.eqb_refl. unfold lx_read_word_escape. apply goes_peek. cbn [app hd_error is_c].
      rewrite N.eqb_refl.
      apply (goes_bind' _ _ _ _ [chr "u"] e _ (chr "u")); [reflexivity|apply goes_reread|].
      eapply (goes_bind' _ _ _ _ e []); [symmetry; apply app_nil_r|apply goes_unicode_escape, He'|].
      cbn beta iota. destruct (from_u32_scalar n) as [[-> _]|[_ Hx]]; [apply goes_ret|contradiction].
    + rewrite orb_true_r. replace (t0 ++ n :: v) with ((t0 ++ [n]) ++ v)
        by (rewrite <- app_assoc; reflexivity).
      apply (IH true).
Qed.

Lemma goes_word_parts w v esc p l : ucd_ok V -> word_text V w v esc -> word_end V l ->
  goes (lx_read_word_parts V) p w l (Word esc v).
Proof.
  intros HV Hw He. unfold lx_read_word_parts. apply goes_until_with.
  exact (word_pieces l HV He w v esc Hw false []).
Qed.

(** Reading a token: the text, its span, its value. *)
Definition goes_tok (m : LM token) (w l : str) (d : token_data) : Prop :=
  forall p, goes m p w l (token_new p (advance_all p w l) d).

Lemma goes_end p0 p l d : goes (lx_end p0 d) p [] l (token_new p0 p d).
Proof. reflexivity. Qed.

Lemma goes_word w v esc l d : ucd_ok V -> word_text V w v esc -> word_end V l ->
  starts_with (id_start V) w \/ prefix (lit "\") w -> tokenize (Word esc v) = inr d ->
  goes_tok (lx_read_word V) w l d.
Proof.
  intros HV Hw He Hs Ht p. unfold lx_read_word. apply goes_peek.
  destruct w as [|c w]; [destruct Hs as [[]|[tl H]]; discriminate|]. cbn [app hd_error].
  assert (E : (c =? chr "\") || is_es_identifier_start V c = true).
  { destruct Hs as [H|[tl H]].
    - cbn in H. apply id_start_iff in H. rewrite H. apply orb_true_r.
    - injection H as -> _. reflexivity. }
  rewrite E. apply goes_posn.
  apply (goes_bind' _ _ _ _ (c :: w) [] _ (Word esc v)); [symmetry; apply app_nil_r| |].
  { apply goes_word_parts; assumption. }
  cbn [text]. destruct v as [|x v]; [inversion Hw|]. rewrite Ht. apply goes_end.
Qed.

(** ** Strings *)

Lemma goes_octal n : forall ds pre code source p l,
  Forall oct_digit ds -> (length ds <= n)%nat -> code = digits_value 8 pre ->
  digits_value 8 (pre ++ ds) <= 255 ->
  ((length ds < n)%nat -> forall c l', l = c :: l' -> oct_digit c ->
     255 < digits_value 8 (pre ++ ds ++ [c])) ->
  goes (lx_read_octal n code source) p ds l (digits_value 8 (pre ++ ds), source ++ ds).
Proof.
  induction n as [|n IH]; intros ds pre code source p l Hds Hlen Hcode Hle Hmax.
  - destruct ds; [|cbn in Hlen; lia]. rewrite !app_nil_r. subst code. apply goes_ret.
  - cbn [lx_read_octal]. apply goes_peek. destruct ds as [|c ds].
    + cbn [app]. rewrite !app_nil_r in *. subst code. destruct l as [|c l]; [apply goes_ret|].
      cbn [hd_error]. destruct (is_es_oct_digit c) eqn:Ec; [|apply goes_ret].
      apply oct_digit_iff in Ec. rewrite (to_digit_oct _ Ec). cbv zeta.
      specialize (Hmax ltac:(cbn; lia) c l eq_refl Ec). cbn [app] in Hmax; rewrite digits_value_snoc in Hmax.
      rewrite N.shiftl_mul_pow2. change (2 ^ 3) with 8.
      rewrite (proj2 (N.ltb_lt _ _) Hmax). apply goes_ret.
    + cbn [app hd_error]. inversion Hds as [|? ? Hc Hds']; subst.
      rewrite (proj2 (oct_digit_iff c) Hc), (to_digit_oct _ Hc). cbv zeta.
      rewrite N.shiftl_mul_pow2. change (2 ^ 3) with 8. rewrite <- digits_value_snoc.
      assert (Hge : forall a b, digits_value 8 a <= digits_value 8 (a ++ b)).
      { intros a b. rewrite digits_value_app. generalize (digits_value 8 a) as m.
        induction b as [|x b IHb]; intros m; cbn [fold_left]; [lia|]. specialize (IHb (m * 8 + digit_value x)). lia. }
      specialize (Hge (pre ++ [c]) ds). rewrite <- app_assoc in Hge. cbn [app] in Hge.
      replace (255 <? digits_value 8 (pre ++ [c])) with false
        by (symmetry; apply N.ltb_ge; lia).
      apply (goes_bind' _ _ _ _ [c] ds _ c); [reflexivity|apply goes_reread|].
      replace (pre ++ c :: ds) with ((pre ++ [c]) ++ ds) by (rewrite <- app_assoc; reflexivity).
      replace (source ++ c :: ds) with ((source ++ [c]) ++ ds) by (rewrite <- app_assoc; reflexivity).
      apply IH; [exact Hds'|cbn in Hlen; lia|reflexivity| |].
      * rewrite <- app_assoc. exact Hle.
      * intros Hl c' l' -> Hc'. rewrite <- app_assoc. cbn [app].
        apply (Hmax ltac:(cbn; lia) c' l' eq_refl Hc').
Qed.

Lemma code_char_fun : forall n c, code_char n c -> from_u32_or_q n = c.
Proof.
  intros n c H. unfold from_u32_or_q. destruct (from_u32_scalar n) as [[-> Hs]|[-> Hs]];
    destruct H as [[H ->]|[H ->]]; try contradiction; reflexivity.
Qed.

Lemma goes_newline nl p l : continuation nl l -> goes lx_read_newline p nl l nl.
Proof.
  intros [->|(c & -> & Hc & Hx)].
  - reflexivity.
  - unfold lx_read_newline. apply goes_peek, goes_peek_at. cbn [app hd_error].
    change (nth_error (c :: l) 1) with (nth_error l 0).
    rewrite (proj2 (line_terminator_iff c) Hc).
    assert (E : (c =? 13) && is_c (nth_error l 0) 10 = false).
    { destruct (c =? 13) eqn:E; [|reflexivity]. apply N.eqb_eq in E. cbn [andb].
      destruct l as [|d l]; [reflexivity|]. cbn. apply N.eqb_neq. intros ->.
      apply (Hx E). exists l. reflexivity. }
    rewrite E. apply (goes_bind' _ _ _ _ [c] [] _ c); [reflexivity|apply goes_read|apply goes_ret].
Qed.

Definition string_body (q : N) : str * str -> LM (str * str + str * str) :=
  fun '(source, value) =>
            '(source, value) <- lx_read_into2_until source value
               (fun ch => (ch =? q) || (ch =? chr "\") || is_es_newline ch) ;;
            c <- lx_peek ;;
            match c with
            | Some ch =>
                if ch =? chr "\" then
                  sv <- lx_read_string_escape V source value ;; ret (inl sv)
                else if is_es_newline ch then err (UnterminatedString (Some ch))
                else lx_skip ;;; ret (inr (source ++ [q], value))
            | None => err (UnterminatedString None)
            end.

Lemma bind_same {A B} (m1 m2 : LM A) (f : A -> LM B) r1 r2 :
  m1 r1 = m2 r2 -> bind m1 f r1 = bind m2 f r2.
Proof. intros H. unfold bind. rewrite H. reflexivity. Qed.

(** A plain character joins the run. *)
Lemma string_body_char q c s v p l : c <> q -> c <> chr "\" -> ~ line_terminator c ->
  string_body q (s, v) (Rd (c :: l) p)
  = string_body q (s ++ [c], v ++ [c]) (Rd l (advance p c (hd_error l))).
Proof.
  intros H1 H2 H3. unfold string_body. apply bind_same.
  unfold lx_read_into2_until, bind, lx_read_until, ret. cbn [rest pos read_until_from].
  rewrite (proj2 (N.eqb_neq c q) H1), (proj2 (N.eqb_neq c _) H2), (proj2 (line_terminator_false c) H3).
  cbn [orb].
  destruct (read_until_from _ l _) as [w r']. rewrite <- !app_assoc. reflexivity.
Qed.

Lemma escape_step q s v s' v' p b l : b <> [] -> hd_error (b ++ l) = Some (chr "\") -> q <> chr "\" ->
  goes (lx_read_string_escape V s v) p b l (s', v') ->
  goes (string_body q (s, v)) p b l (inl (s', v')).
Proof.
  intros Hne Hh Hq H. unfold string_body.
  apply (goes_bind' _ _ _ _ [] b _ (s, v)); [reflexivity| |].
  - unfold lx_read_into2_until. apply (goes_bind' _ _ _ _ [] [] _ []); [reflexivity| |].
    + apply goes_read_until; [constructor|]. cbn [app]. unfold stops.
      destruct (b ++ l) as [|c t]; [exact I|]. injection Hh as ->.
      rewrite N.eqb_refl. rewrite orb_true_r. reflexivity.
    + rewrite !app_nil_r. apply goes_ret.
  - cbn beta iota. apply goes_peek. rewrite Hh, N.eqb_refl.
    apply (goes_bind' _ _ _ _ b [] _ (s', v')); [symmetry; apply app_nil_r|exact H|apply goes_ret].
Qed.

Lemma goes_string_loop q l b v : q = 34 \/ q = 39 -> cooks V q b v (q :: l) ->
  forall fuel s0 v0 p, (length (b ++ q :: l) < fuel)%nat ->
  goes (loopM fuel (string_body q) (s0, v0)) p (b ++ [q]) l (s0 ++ b ++ [q], v0 ++ v).
Proof.
  intros Hq H. assert (Hqb : q <> chr "\") by (destruct Hq as [->| ->]; discriminate).
  remember (q :: l) as ql eqn:Eql.
  induction H as [l1|c b v l1 H1 H2 H3 H IH|c b v l1 H1 H2 H3 H4 H IH|ds c b v l1 H1 H2 H IH
                 |x y c b v l1 H1 H2 H3 H IH|e n c b v l1 H1 H2 H IH|nl b v l1 H1 H IH];
    subst l1; intros fuel s0 v0 p Hf; destruct fuel as [|fuel]; try lia.
  - rewrite app_nil_r. cbn [app]. apply goes_loop_last. unfold string_body.
    apply (goes_bind' _ _ _ _ [] [q] _ (s0, v0)); [reflexivity| |].
    + unfold lx_read_into2_until. apply (goes_bind' _ _ _ _ [] [] _ []); [reflexivity| |].
      * apply goes_read_until; [constructor|]. cbn. rewrite N.eqb_refl. reflexivity.
      * rewrite !app_nil_r. apply goes_ret.
    + cbn beta iota. apply goes_peek. cbn [app hd_error]. rewrite (proj2 (N.eqb_neq _ _) Hqb).
      replace (is_es_newline q) with false by (destruct Hq as [->| ->]; reflexivity).
      apply (goes_bind' _ _ _ _ [q] [] _ tt); [reflexivity|apply goes_skip|apply goes_ret].
  - assert (Hs : loopM (S fuel) (string_body q) (s0, v0) (Rd (c :: b ++ q :: l) p)
               = loopM (S fuel) (string_body q) (s0 ++ [c], v0 ++ [c])
                   (Rd (b ++ q :: l) (advance p c (hd_error (b ++ q :: l))))).
    { cbn [loopM]. apply bind_same, string_body_char; assumption. }
    specialize (IH eq_refl (S fuel) (s0 ++ [c]) (v0 ++ [c]) (advance p c (hd_error (b ++ q :: l)))).
    unfold goes in IH |- *. cbn [app advance_all].
    replace ((b ++ [q]) ++ l) with (b ++ q :: l) in * by (rewrite <- app_assoc; reflexivity).
    rewrite Hs. etransitivity; [apply IH; cbn [app length] in Hf; lia|]. rewrite <- !app_assoc. reflexivity.
  - assert (E : (lit "\" ++ c :: b) ++ [q] = (lit "\" ++ [c]) ++ b ++ [q]) by (rewrite <- !app_assoc; reflexivity).
    eapply (goes_loop_step _ _ _ (s0 ++ lit "\" ++ [c], v0 ++ [single_escape c])); [exact E| |].
    + apply escape_step; [discriminate|reflexivity|exact Hqb|]. unfold lx_read_string_escape.
      apply (goes_bind' _ _ _ _ (lit "\") [c] _ (chr "\")); [reflexivity|apply goes_reread|].
      cbv zeta. apply goes_peek. cbn [app hd_error].
      rewrite (proj2 (oct_digit_false c) H1), (proj2 (N.eqb_neq _ _) H2), (proj2 (N.eqb_neq _ _) H3),
        (proj2 (line_terminator_false c) H4).
      apply (goes_bind' _ _ _ _ [c] [] _ c); [reflexivity|apply goes_reread|].
      rewrite <- app_assoc. apply goes_ret.
    + replace (s0 ++ (lit "\" ++ c :: b) ++ [q]) with ((s0 ++ lit "\" ++ [c]) ++ b ++ [q])
        by (rewrite <- !app_assoc; reflexivity).
      replace (v0 ++ single_escape c :: v) with ((v0 ++ [single_escape c]) ++ v)
        by (rewrite <- app_assoc; reflexivity).
      apply IH; [reflexivity|]. cbn [app length] in Hf. change (length (lit "\" ++ c :: b ++ q :: l)) with (S (S (length (b ++ q :: l)))) in Hf. cbn in Hf. lia.
  - assert (E : (lit "\" ++ ds ++ b) ++ [q] = (lit "\" ++ ds) ++ b ++ [q]) by (rewrite <- !app_assoc; reflexivity).
    destruct H1 as (Hne & Hl3 & Hds & H255 & Hmax). destruct ds as [|d ds]; [congruence|].
    eapply (goes_loop_step _ _ _ (s0 ++ lit "\" ++ d :: ds, v0 ++ [c])); [exact E| |].
    + apply escape_step; [discriminate|reflexivity|exact Hqb|]. unfold lx_read_string_escape.
      apply (goes_bind' _ _ _ _ (lit "\") (d :: ds) _ (chr "\")); [reflexivity|apply goes_reread|].
      cbv zeta. apply goes_peek. cbn [app hd_error].
      rewrite (proj2 (oct_digit_iff d) (Forall_inv Hds)).
      eapply (goes_bind' _ _ _ _ (d :: ds) []); [symmetry; apply app_nil_r| |].
      * apply (goes_octal 3 (d :: ds) [] 0); [exact Hds|exact Hl3|reflexivity|exact H255|].
        intros Hlt c' l' Hl' Hc'. apply (Hmax Hlt c' l'); [|exact Hc'].
        cbn [app] in Hl'. rewrite <- app_assoc in Hl'. exact Hl'.
      * cbn beta iota. cbn [app]. rewrite (code_char_fun _ _ H2), <- app_assoc. apply goes_ret.
    + replace (s0 ++ (lit "\" ++ (d :: ds) ++ b) ++ [q]) with ((s0 ++ lit "\" ++ d :: ds) ++ b ++ [q])
        by (rewrite <- !app_assoc; reflexivity).
      replace (v0 ++ c :: v) with ((v0 ++ [c]) ++ v) by (rewrite <- app_assoc; reflexivity).
      apply IH; [reflexivity|]. rewrite !app_length in *. cbn [app length] in Hf. cbn [length] in *. cbn in Hf. rewrite ?app_length in Hf. lia.
  - assert (E : (lit "\x" ++ x :: y :: b) ++ [q] = (lit "\x" ++ [x; y]) ++ b ++ [q]) by (rewrite <- !app_assoc; reflexivity).
    eapply (goes_loop_step _ _ _ (s0 ++ lit "\x" ++ [x; y], v0 ++ [c])); [exact E| |].
    + apply escape_step; [discriminate|reflexivity|exact Hqb|]. unfold lx_read_string_escape.
      apply (goes_bind' _ _ _ _ (lit "\") (chr "x" :: [x; y]) _ (chr "\")); [reflexivity|apply goes_reread|].
      cbv zeta. apply goes_peek. cbn [app hd_error].
      change (is_es_oct_digit (chr "x")) with false. rewrite N.eqb_refl.
      apply (goes_bind' _ _ _ _ [chr "x"] [x; y] _ (chr "x")); [reflexivity|apply goes_reread|].
      eapply (goes_bind' _ _ _ _ [x] [y]); [reflexivity|apply goes_hex, H1|]. cbn beta iota.
      eapply (goes_bind' _ _ _ _ [y] []); [reflexivity|apply goes_hex, H2|]. cbn beta iota.
      rewrite N.shiftl_mul_pow2. change (2 ^ 4) with 16.
      replace (digit_value x * 16 + digit_value y) with (digits_value 16 [x; y])
        by (unfold digits_value; cbn [fold_left]; lia).
      rewrite (code_char_fun _ _ H3), <- !app_assoc. apply goes_ret.
    + replace (s0 ++ (lit "\x" ++ x :: y :: b) ++ [q]) with ((s0 ++ lit "\x" ++ [x; y]) ++ b ++ [q])
        by (rewrite <- !app_assoc; reflexivity).
      replace (v0 ++ c :: v) with ((v0 ++ [c]) ++ v) by (rewrite <- app_assoc; reflexivity).
      apply IH; [reflexivity|]. cbn [app length] in Hf. rewrite !app_length in *. cbn in Hf. rewrite ?app_length in Hf. cbn [length] in *. lia.
  - assert (E : (lit "\u" ++ e ++ b) ++ [q] = (lit "\u" ++ e) ++ b ++ [q]) by (rewrite <- !app_assoc; reflexivity).
    eapply (goes_loop_step _ _ _ (s0 ++ lit "\u" ++ e, v0 ++ [c])); [exact E| |].
    + apply escape_step; [discriminate|reflexivity|exact Hqb|]. unfold lx_read_string_escape.
      apply (goes_bind' _ _ _ _ (lit "\") (chr "u" :: e) _ (chr "\")); [reflexivity|apply goes_reread|].
      cbv zeta. apply goes_peek. cbn [app hd_error].
      change (is_es_oct_digit (chr "u")) with false. change (chr "u" =? chr "x") with false.
      rewrite N.eqb_refl.
      apply (goes_bind' _ _ _ _ [chr "u"] e _ (chr "u")); [reflexivity|apply goes_reread|].
      eapply (goes_bind' _ _ _ _ e []); [symmetry; apply app_nil_r|apply goes_unicode_escape, H1|].
      cbn beta iota. rewrite (code_char_fun _ _ H2), <- !app_assoc. apply goes_ret.
    + replace (s0 ++ (lit "\u" ++ e ++ b) ++ [q]) with ((s0 ++ lit "\u" ++ e) ++ b ++ [q])
        by (rewrite <- !app_assoc; reflexivity).
      replace (v0 ++ c :: v) with ((v0 ++ [c]) ++ v) by (rewrite <- app_assoc; reflexivity).
      apply IH; [reflexivity|]. rewrite !app_length in *. cbn [length] in *. cbn in Hf. lia.
  - assert (E : (lit "\" ++ nl ++ b) ++ [q] = (lit "\" ++ nl) ++ b ++ [q]) by (rewrite <- !app_assoc; reflexivity).
    assert (Hh : exists c t, nl = c :: t /\ line_terminator c).
    { destruct H1 as [->|(c & -> & Hc & _)]; [exists 13, [10]; split; [reflexivity|cbn; tauto]|eauto]. }
    destruct Hh as (c & t & -> & Hc).
    eapply (goes_loop_step _ _ _ (s0 ++ lit "\" ++ c :: t, v0)); [exact E| |].
    + apply escape_step; [discriminate|reflexivity|exact Hqb|]. unfold lx_read_string_escape.
      apply (goes_bind' _ _ _ _ (lit "\") (c :: t) _ (chr "\")); [reflexivity|apply goes_reread|].
      cbv zeta. apply goes_peek. cbn [app hd_error].
      replace (is_es_oct_digit c) with false
        by (destruct Hc as [<-|[<-|[<-|[<-|[]]]]]; reflexivity).
      replace (c =? chr "x") with false by (destruct Hc as [<-|[<-|[<-|[<-|[]]]]]; reflexivity).
      replace (c =? chr "u") with false by (destruct Hc as [<-|[<-|[<-|[<-|[]]]]]; reflexivity).
      rewrite (proj2 (line_terminator_iff c) Hc).
      eapply (goes_bind' _ _ _ _ (c :: t) []); [symmetry; apply app_nil_r| |].
      * apply goes_newline. cbn [app]. rewrite <- app_assoc. exact H1.
      * rewrite <- app_assoc. apply goes_ret.
    + replace (s0 ++ (lit "\" ++ (c :: t) ++ b) ++ [q]) with ((s0 ++ lit "\" ++ c :: t) ++ b ++ [q])
        by (rewrite <- !app_assoc; reflexivity).
      apply IH; [reflexivity|]. rewrite !app_length in *. cbn [length] in *. cbn in Hf. rewrite ?app_length in Hf. lia.
Qed.

Lemma goes_string q b v l : q = 34 \/ q = 39 -> cooks V q b v (q :: l) ->
  goes_tok (lx_read_string V) (q :: b ++ [q]) l (TString (StringLiteral (Some (q :: b ++ [q])) v)).
Proof.
  intros Hq H p. unfold lx_read_string. apply goes_posn.
  apply (goes_bind' _ _ _ _ [q] (b ++ [q]) _ q); [reflexivity|apply goes_read|].
  apply (goes_bind' _ _ _ _ (b ++ [q]) [] _ (q :: b ++ [q], v)); [symmetry; apply app_nil_r| |].
  - pose proof (goes_string_loop q l b v Hq H (S (length (b ++ q :: l))) [q] []
      (advance_all p [q] ((b ++ [q]) ++ l)) ltac:(lia)) as G.
    unfold goes in *. cbn [rest]. cbn [app] in *.
    replace ((b ++ [q]) ++ l) with (b ++ q :: l) in * by (rewrite <- app_assoc; reflexivity).
    exact G.
  - cbn beta iota. apply goes_end.
Qed.
End WithEnv.
