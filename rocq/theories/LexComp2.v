(** The lexer reads every lexeme of the grammar: regular expressions, numbers,
    punctuators, whitespace and comments, whole tokens. *)
From Coq Require Import String Ascii List NArith Arith Bool Lia.
From Verif Require Import Base Chars F64 Word Token Reader Lexer Wp SpecReader ReaderProofs
  SpecLexer LexWp LexLit LexerProofs LexTheorems LexComp.
Import ListNotations.
Local Open Scope N_scope.

(** ** Regular expressions *)

Lemma goes_re_backslash s c p l : ~ line_terminator c ->
  goes (lx_read_regexp_backslash s) p (lit "\" ++ [c]) l (s ++ lit "\" ++ [c]).
Proof.
  intros H. unfold lx_read_regexp_backslash.
  apply (goes_bind' _ _ _ _ (lit "\") [c] _ (chr "\")); [reflexivity|apply goes_reread|].
  apply goes_peek. cbn [app hd_error]. rewrite (proj2 (line_terminator_false c) H).
  apply (goes_bind' _ _ _ _ [c] [] _ c); [reflexivity|apply goes_reread|]. apply goes_ret.
Qed.

Lemma class_pieces l k : re_class k -> forall s,
  pieces (fun ch => ch =? chr "]") lx_read_regexp_class_char (chr "]" :: l) s k (s ++ k).
Proof.
  intros H. induction H as [|c w H1 H2 H IH|c w H1 H IH]; intros s.
  - rewrite app_nil_r. constructor. reflexivity.
  - change (c :: w) with (c :: [] ++ w) at 1.
    apply (pc_step _ _ _ _ _ [] w (s ++ [c])).
    + apply N.eqb_neq, H1.
    + intros p. unfold lx_read_regexp_class_char. apply goes_peek. cbn [app hd_error].
      rewrite (proj2 (N.eqb_neq _ _) H2).
      apply (goes_bind' _ _ _ _ [c] [] _ c); [reflexivity|apply goes_reread|apply goes_ret].
    + replace (s ++ c :: w) with ((s ++ [c]) ++ w) by (rewrite <- app_assoc; reflexivity). apply IH.
  - change (lit "\" ++ c :: w) with (chr "\" :: [c] ++ w) at 1.
    apply (pc_step _ _ _ _ _ [c] w (s ++ lit "\" ++ [c])).
    + reflexivity.
    + intros p. unfold lx_read_regexp_class_char. apply goes_peek. cbn [app hd_error].
      rewrite N.eqb_refl. apply goes_re_backslash, H1.
    + replace (s ++ lit "\" ++ c :: w) with ((s ++ lit "\" ++ [c]) ++ w)
        by (rewrite <- !app_assoc; reflexivity). apply IH.
Qed.

Lemma body_pieces l b : re_body b -> forall s,
  pieces (fun ch => ch =? chr "/") lx_read_regexp_char (chr "/" :: l) s b (s ++ b).
Proof.
  intros H. induction H as [|c w H1 H2 H3 H4 H IH|c w H1 H IH|k w H1 H IH]; intros s.
  - rewrite app_nil_r. constructor. reflexivity.
  - change (c :: w) with (c :: [] ++ w) at 1.
    apply (pc_step _ _ _ _ _ [] w (s ++ [c])).
    + apply N.eqb_neq, H1.
    + intros p. unfold lx_read_regexp_char. apply goes_peek. cbn [app hd_error].
      rewrite (proj2 (N.eqb_neq _ _) H2), (proj2 (N.eqb_neq _ _) H3),
        (proj2 (line_terminator_false c) H4).
      apply (goes_bind' _ _ _ _ [c] [] _ c); [reflexivity|apply goes_reread|apply goes_ret].
    + replace (s ++ c :: w) with ((s ++ [c]) ++ w) by (rewrite <- app_assoc; reflexivity). apply IH.
  - change (lit "\" ++ c :: w) with (chr "\" :: [c] ++ w) at 1.
    apply (pc_step _ _ _ _ _ [c] w (s ++ lit "\" ++ [c])).
    + reflexivity.
    + intros p. unfold lx_read_regexp_char. apply goes_peek. cbn [app hd_error].
      rewrite N.eqb_refl. apply goes_re_backslash, H1.
    + replace (s ++ lit "\" ++ c :: w) with ((s ++ lit "\" ++ [c]) ++ w)
        by (rewrite <- !app_assoc; reflexivity). apply IH.
  - replace (lit "[" ++ k ++ lit "]" ++ w) with (chr "[" :: (k ++ lit "]") ++ w) at 1
      by (rewrite <- app_assoc; reflexivity).
    apply (pc_step _ _ _ _ _ (k ++ lit "]") w (s ++ lit "[" ++ k ++ lit "]")).
    + reflexivity.
    + intros p. unfold lx_read_regexp_char. apply goes_peek. cbn [app hd_error].
      change (chr "[" =? chr "\") with false. rewrite N.eqb_refl. unfold lx_read_regexp_class.
      apply (goes_bind' _ _ _ _ [chr "["] (k ++ lit "]") _ (chr "[")); [reflexivity|apply goes_reread|].
      apply (goes_bind' _ _ _ _ k (lit "]") _ ((s ++ [chr "["]) ++ k)); [reflexivity| |].
      * apply goes_until_with. apply class_pieces, H1.
      * apply (goes_bind' _ _ _ _ [chr "]"] [] _ (chr "]")); [reflexivity|apply goes_reread|].
        replace (s ++ lit "[" ++ k ++ lit "]") with (((s ++ [chr "["]) ++ k) ++ [chr "]"])
          by (rewrite <- !app_assoc; reflexivity).
        apply goes_ret.
    + replace (s ++ lit "[" ++ k ++ lit "]" ++ w) with ((s ++ lit "[" ++ k ++ lit "]") ++ w)
        by (rewrite <- !app_assoc; reflexivity). apply IH.
Qed.

Section WithEnv.
Context (V : env) (HV : ucd_ok V).

Lemma goes_regexp b fw fv esc l : re_body b -> word_text V fw fv esc -> word_end V l ->
  goes_tok (lx_read_regexp V) (lit "/" ++ b ++ lit "/" ++ fw) l (TRegExp (RegExpLiteral b fv)).
Proof.
  intros Hb Hf He p. unfold lx_read_regexp. apply goes_posn.
  apply (goes_bind' _ _ _ _ [chr "/"] (b ++ lit "/" ++ fw) _ (chr "/")); [reflexivity|apply goes_reread|].
  apply (goes_bind' _ _ _ _ b (lit "/" ++ fw) _ b); [reflexivity| |].
  - apply goes_until_with. exact (body_pieces (fw ++ l) b Hb []).
  - apply (goes_bind' _ _ _ _ [chr "/"] fw _ (chr "/")); [reflexivity|apply goes_reread|].
    apply (goes_bind' _ _ _ _ fw [] _ (Word esc fv)); [symmetry; apply app_nil_r| |].
    + apply goes_word_parts; assumption.
    + cbn [text].
      replace (advance_all p (lit "/" ++ b ++ lit "/" ++ fw) l) with
        (advance_all (advance_all (advance_all (advance_all p [chr "/"] ((b ++ lit "/" ++ fw) ++ l)) b
            ((lit "/" ++ fw) ++ l)) [chr "/"] (fw ++ l)) fw ([] ++ l)).
      * apply goes_end.
      * rewrite !advance_all_app, <- !app_assoc. reflexivity.
Qed.

(** ** Numbers *)

Lemma start_of_letter : forall c, ascii_alpha c = true -> id_start V c.
Proof.
  intros c H. right. right. rewrite (ucd_start_ascii V HV); [exact H|].
  unfold ascii_alpha in H. apply orb_true_iff in H as [H|H]; apply between_iff in H as [_ H]; lia.
Qed.

Lemma dec_run ds : Forall dec_digit ds -> Forall (fun c => negb (is_es_dec_digit c) = false) ds.
Proof.
  intros H. eapply Forall_impl; [|exact H]. intros c Hc. cbn. apply dec_digit_iff in Hc.
  rewrite Hc. reflexivity.
Qed.
Lemma dec_stop l : ~ starts_with dec_digit l -> stops (fun c => negb (is_es_dec_digit c)) l.
Proof.
  destruct l as [|c l]; cbn; [trivial|]. intros H. apply dec_digit_false in H. rewrite H. reflexivity.
Qed.
Lemma goes_dec_digits ds p l : Forall dec_digit ds -> ~ starts_with dec_digit l ->
  goes lx_read_decimal_digits p ds l ds.
Proof. intros H1 H2. apply goes_read_until; [apply dec_run, H1|apply dec_stop, H2]. Qed.

Lemma goes_exp e p l : exp_ok e -> ~ starts_with dec_digit l -> ~ starts_with (id_start V) l ->
  goes lx_read_exp_part p (exp_text e) l e.
Proof.
  intros He Hd Hi. unfold lx_read_exp_part. apply goes_peek.
  destruct e as [[cc sg ds]|].
  - cbn [exp_ok exp_value] in He. destruct He as [Hne Hds].
    destruct ds as [|d ds]; [congruence|]. inversion Hds as [|? ? Hd1 Hds']; subst.
    assert (Hsig : forall q, goes (sg0 <- (c <- lx_peek ;; (if is_c c (chr "+") then lx_skip ;;; ret (Some Plus)
           else if is_c c (chr "-") then lx_skip ;;; ret (Some Minus)
           else ret None)) ;;
        c <- lx_peek ;;
        match c with
        | Some ch =>
            if negb (is_es_dec_digit ch) then err (MissingExponent (Some ch))
            else v <- lx_read_decimal_digits ;; ret (Some (Exp cc sg0 v))
        | None => err (MissingExponent None)
        end) q (match sg with None => [] | Some Plus => lit "+" | Some Minus => lit "-" end ++ d :: ds)
        l (Some (Exp cc sg (d :: ds)))).
    { intros q. apply (goes_bind' _ _ _ _ (match sg with None => [] | Some Plus => lit "+" | Some Minus => lit "-" end)
                         (d :: ds) _ sg); [reflexivity| |].
      - destruct sg as [[]|]; [reflexivity|reflexivity|]. apply goes_peek. cbn [app hd_error is_c].
        assert (E1 : (d =? chr "+") = false) by (apply N.eqb_neq; intros ->; destruct Hd1 as [H1 H2]; cbn in *; lia).
        assert (E2 : (d =? chr "-") = false) by (apply N.eqb_neq; intros ->; destruct Hd1 as [H1 H2]; cbn in *; lia).
        rewrite E1, E2. apply goes_ret.
      - apply goes_peek. cbn [app hd_error]. rewrite (proj2 (dec_digit_iff d) Hd1). cbn [negb].
        apply (goes_bind' _ _ _ _ (d :: ds) [] _ (d :: ds)); [symmetry; apply app_nil_r| |apply goes_ret].
        apply goes_dec_digits; [exact Hds|exact Hd]. }
    destruct cc; cbn [exp_text case_text exp_e exp_sign exp_value app hd_error is_c].
    + change (chr "e" =? chr "e") with true.
      apply (goes_bind' _ _ _ _ [chr "e"] (match sg with None => [] | Some Plus => lit "+" | Some Minus => lit "-" end ++ d :: ds) _ tt);
        [reflexivity|apply goes_skip|]. apply Hsig.
    + change (chr "E" =? chr "e") with false. change (chr "E" =? chr "E") with true.
      apply (goes_bind' _ _ _ _ [chr "E"] (match sg with None => [] | Some Plus => lit "+" | Some Minus => lit "-" end ++ d :: ds) _ tt);
        [reflexivity|apply goes_skip|]. apply Hsig.
  - cbn [exp_text app]. destruct l as [|c l]; [apply goes_ret|]. cbn [hd_error is_c].
    assert (E1 : (c =? chr "e") = false).
    { apply N.eqb_neq. intros ->. apply Hi. apply start_of_letter. reflexivity. }
    assert (E2 : (c =? chr "E") = false).
    { apply N.eqb_neq. intros ->. apply Hi. apply start_of_letter. reflexivity. }
    rewrite E1, E2. apply goes_ret.
Qed.

Lemma goes_number_token p0 p l s v : number_value s = Some v ->
  goes (lx_number_token p0 s) p [] l (token_new p0 p (TNumber (NumberLiteral (Some s) v))).
Proof. intros H. unfold lx_number_token. rewrite H. apply goes_end. Qed.

Lemma goes_radix radix pred (cons : char_case -> str -> number_source) missing (P : N -> Prop) f cc ds l v :
  (forall c, pred c = true <-> P c) -> (forall c, P c -> to_digit c radix = Some (digit_value c)) ->
  is_alphabetic f = true -> (if is_lowercase f then LowerCase else UpperCase) = cc ->
  digits P ds -> stops (fun c => negb (pred c)) l -> number_value (cons cc ds) = Some v ->
  goes_tok (lx_read_radix_int radix pred cons missing) (chr "0" :: f :: ds) l
           (TNumber (NumberLiteral (Some (cons cc ds)) v)).
Proof.
  intros HP Hd Hf Hcc [Hne Hds] Hl Hv p. unfold lx_read_radix_int. apply goes_peek, goes_peek_at.
  cbn [app hd_error nth_error is_c]. rewrite N.eqb_refl, Hf. cbn [andb]. apply goes_posn.
  apply (goes_bind' _ _ _ _ [chr "0"] (f :: ds) _ tt); [reflexivity|apply goes_skip|].
  apply (goes_bind' _ _ _ _ [f] ds _ f); [reflexivity|apply goes_read|]. cbv zeta. rewrite Hcc.
  destruct ds as [|d ds]; [congruence|]. inversion Hds as [|? ? Hd1 Hds']; subst.
  apply (goes_bind' _ _ _ _ [d] ds _ (digit_value d, [d])); [reflexivity| |].
  { apply (goes_digit pred radix []); [apply HP, Hd1|apply Hd, Hd1]. }
  cbn beta iota.
  apply (goes_bind' _ _ _ _ ds [] _ ds); [symmetry; apply app_nil_r| |].
  { apply goes_read_until; [|exact Hl]. eapply Forall_impl; [|exact Hds']. intros c Hc. cbn.
    apply HP in Hc. rewrite Hc. reflexivity. }
  cbn [app]. apply goes_number_token, Hv.
Qed.

Lemma legacy_test : forall d ds, Forall dec_digit (d :: ds) ->
  ((d =? chr "0") && Nat.ltb 1 (length (d :: ds)) && forallb is_es_oct_digit (tl (d :: ds)) = true
   <-> legacy_octal (d :: ds)).
Proof.
  intros d ds Hds. rewrite !andb_true_iff, N.eqb_eq, Nat.ltb_lt, forallb_forall. cbn [tl length].
  split.
  - intros [[-> Hl] Ho]. exists ds. split; [reflexivity|]. split.
    + destruct ds; [cbn in Hl; lia|discriminate].
    + apply Forall_forall. intros c Hc. apply oct_digit_iff, Ho, Hc.
  - intros (ds' & H & Hn & Ho). injection H as -> ->. split; [split; [reflexivity|]|].
    + destruct ds'; [congruence|cbn; lia].
    + intros c Hc. apply oct_digit_iff. rewrite Forall_forall in Ho. apply Ho, Hc.
Qed.

(** What [read_number] makes of a literal before it looks at the next character. *)
Lemma goes_decimal_int d m e l v : Forall dec_digit (d :: m) -> ~ legacy_octal (d :: m) -> exp_ok e ->
  number_value (DecimalInt (d :: m) e) = Some v ->
  ~ starts_with dec_digit l -> ~ starts_with (id_start V) l ->
  (e = None -> ~ prefix (lit ".") l) ->
  goes_tok (lx_read_decimal d) ((d :: m) ++ exp_text e) l
           (TNumber (NumberLiteral (Some (DecimalInt (d :: m) e)) v)).
Proof.
  intros Hm Hno He Hv Hd Hi Hdot p. unfold lx_read_decimal.
  inversion Hm as [|? ? Hd1 Hm']; subst. rewrite (proj2 (dec_digit_iff d) Hd1). apply goes_posn.
  assert (Hnd : is_c (hd_error (exp_text e ++ l)) (chr ".") = false
                /\ ~ starts_with dec_digit (exp_text e ++ l)).
  { destruct e as [[cc sg ds]|].
    - destruct cc; cbn; (split; [reflexivity|]); intros [H1 H2]; cbn in *; lia.
    - cbn [exp_text app]. split; [|exact Hd]. destruct l as [|c l]; [reflexivity|]. cbn.
      apply N.eqb_neq. intros ->. apply (Hdot eq_refl). exists l. reflexivity. }
  destruct Hnd as [Hnd1 Hnd2].
  apply (goes_bind' _ _ _ _ (d :: m) (exp_text e) _ (d :: m)); [reflexivity| |].
  { apply goes_dec_digits; [exact Hm|exact Hnd2]. }
  apply (goes_bind' _ _ _ _ (exp_text e) [] _ (DecimalInt (d :: m) e)); [symmetry; apply app_nil_r| |].
  - destruct ((d =? chr "0") && Nat.ltb 1 (length (d :: m)) && forallb is_es_oct_digit (tl (d :: m))) eqn:E.
    { apply (legacy_test d m Hm) in E. contradiction. }
    apply (goes_bind' _ _ _ _ [] (exp_text e) _ false); [reflexivity|apply goes_nomatch, Hnd1|].
    cbn beta iota.
    apply (goes_bind' _ _ _ _ [] (exp_text e) _ []); [reflexivity|apply goes_ret|].
    apply (goes_bind' _ _ _ _ (exp_text e) [] _ e); [symmetry; apply app_nil_r| |apply goes_ret].
    apply goes_exp; [exact He|exact Hd|exact Hi].
  - rewrite advance_all_app. apply goes_number_token, Hv.
Qed.

Lemma goes_legacy d m l v : Forall dec_digit (d :: m) -> legacy_octal (d :: m) ->
  number_value (RadixInt (Oct None) (d :: m)) = Some v -> ~ starts_with dec_digit l ->
  goes_tok (lx_read_decimal d) (d :: m) l (TNumber (NumberLiteral (Some (RadixInt (Oct None) (d :: m))) v)).
Proof.
  intros Hm Hleg Hv Hd p. unfold lx_read_decimal.
  inversion Hm as [|? ? Hd1 Hm']; subst. rewrite (proj2 (dec_digit_iff d) Hd1). apply goes_posn.
  apply (goes_bind' _ _ _ _ (d :: m) [] _ (d :: m)); [symmetry; apply app_nil_r| |].
  { apply goes_dec_digits; [exact Hm|exact Hd]. }
  rewrite (proj2 (legacy_test d m Hm) Hleg).
  apply (goes_bind' _ _ _ _ [] [] _ (RadixInt (Oct None) (d :: m))); [reflexivity|apply goes_ret|].
  apply goes_number_token, Hv.
Qed.

Lemma goes_float d m fp e l v : Forall dec_digit (d :: m) -> ~ legacy_octal (d :: m) ->
  Forall dec_digit fp -> exp_ok e ->
  number_value (Float (Some (d :: m)) (Some fp) e) = Some v ->
  ~ starts_with dec_digit l -> ~ starts_with (id_start V) l ->
  goes_tok (lx_read_decimal d) ((d :: m) ++ lit "." ++ fp ++ exp_text e) l
           (TNumber (NumberLiteral (Some (Float (Some (d :: m)) (Some fp) e)) v)).
Proof.
  intros Hm Hno Hfp He Hv Hd Hi p. unfold lx_read_decimal.
  inversion Hm as [|? ? Hd1 Hm']; subst. rewrite (proj2 (dec_digit_iff d) Hd1). apply goes_posn.
  assert (Hnd : ~ starts_with dec_digit (exp_text e ++ l)).
  { destruct e as [[cc sg ds]|]; [|exact Hd]. destruct cc; cbn; intros [H1 H2]; cbn in *; lia. }
  apply (goes_bind' _ _ _ _ (d :: m) (lit "." ++ fp ++ exp_text e) _ (d :: m)); [reflexivity| |].
  { apply goes_dec_digits; [exact Hm|]. intros [H1 H2]; cbn in *; lia. }
  apply (goes_bind' _ _ _ _ (lit "." ++ fp ++ exp_text e) [] _ (Float (Some (d :: m)) (Some fp) e));
    [symmetry; apply app_nil_r| |].
  - destruct ((d =? chr "0") && Nat.ltb 1 (length (d :: m)) && forallb is_es_oct_digit (tl (d :: m))) eqn:E.
    { apply (legacy_test d m Hm) in E. contradiction. }
    apply (goes_bind' _ _ _ _ (lit ".") (fp ++ exp_text e) _ true); [reflexivity|apply goes_match|].
    cbn beta iota.
    apply (goes_bind' _ _ _ _ fp (exp_text e) _ fp); [reflexivity| |].
    + apply goes_peek. destruct fp as [|f fp].
      * cbn [app]. destruct (exp_text e ++ l) as [|c t]; [apply goes_ret|]. cbn [hd_error].
        cbn in Hnd. rewrite (proj2 (dec_digit_false c) Hnd). apply goes_ret.
      * cbn [app hd_error]. rewrite (proj2 (dec_digit_iff f) (Forall_inv Hfp)).
        apply goes_dec_digits; [exact Hfp|exact Hnd].
    + apply (goes_bind' _ _ _ _ (exp_text e) [] _ e); [symmetry; apply app_nil_r| |apply goes_ret].
      apply goes_exp; [exact He|exact Hd|exact Hi].
  - rewrite (advance_all_app (d :: m)). apply goes_number_token, Hv.
Qed.

(** A number literal is read whole. *)
Lemma goes_number s v l : number_ok s -> number_value s = Some v ->
  ~ starts_with dec_digit l -> ~ starts_with (id_start V) l ->
  (forall m, s = DecimalInt m None -> ~ prefix (lit ".") l) ->
  goes_tok (lx_read_number V) (number_text s) l (TNumber (NumberLiteral (Some s) v)).
Proof.
  intros Hok Hv Hd Hi Hdot p. unfold lx_read_number. apply goes_peek, goes_peek_at.
  apply (goes_bind' _ _ _ _ (number_text s) [] _
           (token_new p (advance_all p (number_text s) l) (TNumber (NumberLiteral (Some s) v))));
    [symmetry; apply app_nil_r| |].
  2:{ apply goes_peek. cbn [app]. destruct l as [|c l]; [apply goes_ret|]. cbn [hd_error].
      cbn in Hd, Hi. rewrite (proj2 (id_start_false V c) Hi), (proj2 (dec_digit_false c) Hd).
      apply goes_ret. }
  cbn [app].
  assert (Hstop : forall pred : N -> bool,
            (forall c, pred c = true -> dec_digit c \/ ascii_alpha c = true) ->
            stops (fun c => negb (pred c)) l).
  { intros pred Hp. destruct l as [|c l]; cbn; [trivial|]. cbn in Hd, Hi.
    destruct (pred c) eqn:E; [|reflexivity]. destruct (Hp c E) as [H|H]; [contradiction|].
    destruct (Hi (start_of_letter c H)). }
  assert (Hx : forall c2, is_c (Some c2) (chr "x") = false -> True) by trivial. clear Hx.
  assert (Hdec : forall d m, Forall dec_digit (d :: m) -> forall tl0,
     ~ starts_with (id_start V) tl0 \/ (exists c t, tl0 = c :: t /\ (c = chr "e" \/ c = chr "E")) ->
     (d =? chr "0") && (is_c (nth_error ((d :: m) ++ tl0) 1) (chr "x") || is_c (nth_error ((d :: m) ++ tl0) 1) (chr "X")) = false
     /\ (d =? chr "0") && (is_c (nth_error ((d :: m) ++ tl0) 1) (chr "o") || is_c (nth_error ((d :: m) ++ tl0) 1) (chr "O")) = false
     /\ (d =? chr "0") && (is_c (nth_error ((d :: m) ++ tl0) 1) (chr "b") || is_c (nth_error ((d :: m) ++ tl0) 1) (chr "B")) = false
     /\ (d =? chr ".") = false).
  { intros d m Hm tl0 Ht.
    assert (Hc2 : forall x, ascii_alpha x = true -> x <> chr "e" -> x <> chr "E" ->
              is_c (nth_error ((d :: m) ++ tl0) 1) x = false).
    { intros x Hx He1 He2. change (nth_error ((d :: m) ++ tl0) 1) with (nth_error (m ++ tl0) 0).
      destruct m as [|y m].
      - cbn [app]. destruct tl0 as [|y t]; [reflexivity|]. cbn. apply N.eqb_neq. intros ->.
        destruct Ht as [Ht|(c & t' & Ht & Hc)]; [apply Ht, start_of_letter, Hx|].
        injection Ht as -> ->. destruct Hc; congruence.
      - cbn. apply N.eqb_neq. intros ->. inversion Hm as [|? ? _ Hm']; subst.
        inversion Hm' as [|? ? Hy _]; subst. unfold ascii_alpha in Hx.
        destruct Hy as [H1 H2]. apply orb_true_iff in Hx as [Hx|Hx]; apply between_iff in Hx as [Hx1 Hx2]; lia. }
    inversion Hm as [|? ? Hd1 _]; subst.
    assert (Ed : (d =? chr ".") = false) by (apply N.eqb_neq; intros ->; destruct Hd1; cbn in *; lia).
    split; [|split; [|split; [|exact Ed]]];
      rewrite !Hc2 by (try reflexivity; discriminate); apply andb_false_r. }
  assert (Hexp : forall e, ~ starts_with (id_start V) (exp_text e ++ l)
                 \/ (exists c t, exp_text e ++ l = c :: t /\ (c = chr "e" \/ c = chr "E"))).
  { intros [[cc sg ds]|]; [|left; exact Hi]. right. destruct cc; cbn; eauto. }
  destruct s as [m e|r ds|ip fp e].
  - cbn [number_ok] in Hok. destruct Hok as ([Hne Hm] & Hno & He).
    destruct m as [|d m]; [congruence|]. cbn [number_text].
    destruct (Hdec d m Hm (exp_text e ++ l) (Hexp e)) as (E1 & E2 & E3 & E4).
    rewrite <- app_assoc. cbn [app hd_error]. cbn [app] in E1, E2, E3. rewrite E1, E2, E3, E4.
    apply (goes_decimal_int d m e l v); try assumption. intros ->. apply (Hdot _ eq_refl).
  - destruct r as [cc|[cc|]|cc]; cbn [number_ok] in Hok; cbn [number_text].
    + destruct cc; cbn [case_text];
        [change (lit "0b" ++ ds) with (chr "0" :: chr "b" :: ds)
        |change (lit "0B" ++ ds) with (chr "0" :: chr "B" :: ds)];
        cbn [app hd_error nth_error].
      * apply (goes_radix 2 is_es_bin_digit (fun cc s => RadixInt (Bin cc) s) _ bin_digit);
          try reflexivity; try assumption; [apply bin_digit_iff|apply to_digit_bin|].
        apply Hstop. intros c Hc. left. apply bin_digit_iff in Hc. unfold bin_digit, dec_digit, in_range in *. lia.
      * apply (goes_radix 2 is_es_bin_digit (fun cc s => RadixInt (Bin cc) s) _ bin_digit);
          try reflexivity; try assumption; [apply bin_digit_iff|apply to_digit_bin|].
        apply Hstop. intros c Hc. left. apply bin_digit_iff in Hc. unfold bin_digit, dec_digit, in_range in *. lia.
    + destruct cc; cbn [case_text];
        [change (lit "0o" ++ ds) with (chr "0" :: chr "o" :: ds)
        |change (lit "0O" ++ ds) with (chr "0" :: chr "O" :: ds)];
        cbn [app hd_error nth_error].
      * apply (goes_radix 8 is_es_oct_digit (fun cc s => RadixInt (Oct (Some cc)) s) _ oct_digit);
          try reflexivity; try assumption; [apply oct_digit_iff|apply to_digit_oct|].
        apply Hstop. intros c Hc. left. apply oct_digit_iff in Hc. unfold oct_digit, dec_digit, in_range in *. lia.
      * apply (goes_radix 8 is_es_oct_digit (fun cc s => RadixInt (Oct (Some cc)) s) _ oct_digit);
          try reflexivity; try assumption; [apply oct_digit_iff|apply to_digit_oct|].
        apply Hstop. intros c Hc. left. apply oct_digit_iff in Hc. unfold oct_digit, dec_digit, in_range in *. lia.
    + assert (Hds : Forall dec_digit ds).
      { destruct Hok as (ds' & -> & _ & Ho). constructor; [split; cbn; lia|].
        eapply Forall_impl; [|exact Ho]. intros c [H1 H2]. split; lia. }
      destruct ds as [|d m]; [destruct Hok as (ds' & H & _); discriminate|].
      destruct (Hdec d m Hds l (or_introl Hi)) as (E1 & E2 & E3 & E4).
      cbn [app hd_error]. cbn [app] in E1, E2, E3. rewrite E1, E2, E3, E4.
      apply goes_legacy; assumption.
    + assert (Hh : forall c, is_es_hex_digit c = true -> dec_digit c \/ ascii_alpha c = true).
      { intros c Hc. apply hex_digit_iff in Hc. destruct Hc as [H|[H|H]]; [left; exact H| |];
          right; unfold ascii_alpha; apply orb_true_iff; [left|right]; apply between_iff;
          unfold in_range in *; lia. }
      destruct cc; cbn [case_text];
        [change (lit "0x" ++ ds) with (chr "0" :: chr "x" :: ds)
        |change (lit "0X" ++ ds) with (chr "0" :: chr "X" :: ds)];
        cbn [app hd_error nth_error].
      * apply (goes_radix 16 is_es_hex_digit (fun cc s => RadixInt (Hex cc) s) _ hex_digit);
          try reflexivity; try assumption; [apply hex_digit_iff|apply to_digit_hex|].
        apply Hstop, Hh.
      * apply (goes_radix 16 is_es_hex_digit (fun cc s => RadixInt (Hex cc) s) _ hex_digit);
          try reflexivity; try assumption; [apply hex_digit_iff|apply to_digit_hex|].
        apply Hstop, Hh.
  - destruct ip as [ip|]; destruct fp as [fp|]; cbn [number_ok] in Hok; try contradiction.
    + destruct Hok as ([Hne Hip] & Hno & Hfp & He).
      destruct ip as [|d m]; [congruence|]. cbn [number_text].
      destruct (Hdec d m Hip (lit "." ++ (fp ++ exp_text e) ++ l)) as (E1 & E2 & E3 & E4).
      { left. cbn. intros H. apply id_start_iff in H. unfold is_es_identifier_start in H.
        rewrite (ucd_start_ascii V HV) in H by (vm_compute; reflexivity). discriminate H. }
      replace (((d :: m) ++ lit "." ++ fp ++ exp_text e) ++ l)
        with ((d :: m) ++ lit "." ++ (fp ++ exp_text e) ++ l) by (rewrite <- !app_assoc; reflexivity).
      cbn [app hd_error]. cbn [app] in E1, E2, E3. rewrite E1, E2, E3, E4.
      apply (goes_float d m fp e l v); assumption.
    + destruct Hok as ([Hne Hfp] & He). cbn [number_text app hd_error].
      change (lit ".") with [chr "."]. cbn [app hd_error].
      change (chr "." =? chr "0") with false. change (chr "." =? chr ".") with true. cbn [andb].
      apply goes_posn.
      apply (goes_bind' _ _ _ _ [chr "."] (fp ++ exp_text e) _ tt); [reflexivity|apply goes_skip|].
      apply (goes_bind' _ _ _ _ fp (exp_text e) _ fp); [reflexivity| |].
      * apply goes_dec_digits; [exact Hfp|].
        destruct e as [[cc sg ds]|]; [|exact Hd]. destruct cc; cbn; intros [H1 H2]; cbn in *; lia.
      * apply (goes_bind' _ _ _ _ (exp_text e) [] _ e); [symmetry; apply app_nil_r| |].
        { apply goes_exp; [exact He|exact Hd|exact Hi]. }
        change (chr "." :: fp ++ exp_text e) with ([chr "."] ++ fp ++ exp_text e).
        rewrite (advance_all_app [chr "."]), (advance_all_app fp).
        apply goes_number_token, Hv.
Qed.
End WithEnv.
