(** The lexer reads a token exactly where the grammar of SpecLexer.v has one. *)
From Coq Require Import String Ascii List NArith Arith Bool Lia.
From Verif Require Import Base Chars F64 Word Token Reader Lexer Wp SpecReader ReaderProofs
  SpecLexer LexWp LexLit LexerProofs LexTheorems LexComp LexComp2.
Import ListNotations.
Local Open Scope N_scope.

(** ** Punctuators *)

Lemma not_longer op p l : is_punctuator op p ->
  (forall p', is_punctuator op p' -> prefix (punc_text p') (punc_text p ++ l) ->
     (length (punc_text p') <= length (punc_text p))%nat) ->
  forall p' x w, In p' all_puncs -> strip (punc_text p) (punc_text p') = Some (x :: w) ->
  ~ prefix (x :: w) l.
Proof.
  intros Hp Hmax p' x w Hin Hs [tl ->].
  assert (Hst : forall a b t, strip a b = Some t -> b = a ++ t).
  { induction a as [|y a IH]; intros b t H; [cbn in *; congruence|].
    destruct b as [|z b]; cbn in H; [discriminate|]. destruct (y =? z) eqn:E; [|discriminate]. apply N.eqb_eq in E. subst z. cbn. f_equal. auto. }
  apply Hst in Hs. specialize (Hmax p').
  assert (Hop : is_punctuator op p').
  { destruct op; [split; [|split; [|discriminate]]; intros ->; cbn in Hin;
      repeat (destruct Hin as [Hin|Hin]; [discriminate|]); destruct Hin|].
    destruct Hp as (Hp0 & _ & Hp). destruct (Hp eq_refl) as [H1 H2].
    split; [|split]; [intros ->; cbn in Hin; repeat (destruct Hin as [Hin|Hin]; [discriminate|]); destruct Hin..|].
    intros _. split; intros ->; destruct p; try discriminate Hs; try congruence.  }
  specialize (Hmax Hop). rewrite Hs in Hmax.
  assert (H : prefix (punc_text p ++ x :: w) (punc_text p ++ (x :: w) ++ tl)).
  { exists tl. rewrite <- app_assoc. reflexivity. }
  specialize (Hmax H). rewrite app_length in Hmax. cbn [length] in Hmax. lia.
Qed.

Lemma goes_punc_n w l v : goes_tok (lx_read_punc_n (length w) v) w l (TPunc v).
Proof.
  intros p. unfold lx_read_punc_n. apply goes_posn.
  apply (goes_bind' _ _ _ _ w [] _ tt); [symmetry; apply app_nil_r|apply goes_skip_n|]. apply goes_end.
Qed.

(** Evaluate tests on known characters. *)
Ltac ev1 :=
  match goal with
  | |- context [N.eqb ?a ?b] =>
      let v := eval vm_compute in (N.eqb a b) in
      match v with true => idtac | false => idtac end; change (N.eqb a b) with v
  | |- context [assoc_c punc1_table ?c] =>
      let v := eval vm_compute in (assoc_c punc1_table c) in
      match v with Some _ => idtac | None => idtac end; change (assoc_c punc1_table c) with v
  | |- context [is_es_dec_digit ?c] =>
      let v := eval vm_compute in (is_es_dec_digit c) in
      match v with true => idtac | false => idtac end; change (is_es_dec_digit c) with v
  end; cbn [andb orb negb is_c].
Ltac ev := cbn [andb orb negb is_c]; repeat ev1.
(** What cannot follow the punctuator. *)
Ltac lf1 Hc p' := 
  match goal with
  | |- context [is_c (hd_error ?l) ?x] =>
      rewrite (Hc p' x) by (first [reflexivity|cbn; tauto])
  end.
Ltac longer_facts Hc :=
  repeat first
    [ lf1 Hc T_LEq | lf1 Hc T_GEq | lf1 Hc T_Eq | lf1 Hc T_NEq | lf1 Hc T_StrictEq | lf1 Hc T_StrictNEq
    | lf1 Hc T_Inc | lf1 Hc T_Dec | lf1 Hc T_LShift | lf1 Hc T_RShift | lf1 Hc T_URShift
    | lf1 Hc T_LogicalAnd | lf1 Hc T_LogicalOr | lf1 Hc T_PlusAssign | lf1 Hc T_MinusAssign
    | lf1 Hc T_StarAssign | lf1 Hc T_SlashAssign | lf1 Hc T_ModAssign | lf1 Hc T_LShiftAssign
    | lf1 Hc T_RShiftAssign | lf1 Hc T_URShiftAssign | lf1 Hc T_BitAndAssign | lf1 Hc T_BitOrAssign
    | lf1 Hc T_BitXorAssign ].

Lemma goes_punc23_no c d e v2 v3 l : is_c (hd_error l) e = false ->
  goes_tok (lx_read_punc2_3 e v2 v3) [c; d] l (TPunc v2).
Proof.
  intros H p. unfold lx_read_punc2_3. apply goes_posn.
  apply (goes_bind' _ _ _ _ [c; d] [] _ tt); [reflexivity|apply goes_skip2|].
  apply (goes_bind' _ _ _ _ [] [] _ false); [reflexivity|apply goes_nomatch, H|]. apply goes_end.
Qed.
Lemma goes_punc23_yes c d e v2 v3 l : goes_tok (lx_read_punc2_3 e v2 v3) [c; d; e] l (TPunc v3).
Proof.
  intros p. unfold lx_read_punc2_3. apply goes_posn.
  apply (goes_bind' _ _ _ _ [c; d] [e] _ tt); [reflexivity|apply goes_skip2|].
  apply (goes_bind' _ _ _ _ [e] [] _ true); [reflexivity|apply goes_match|]. apply goes_end.
Qed.

Section WithEnv.
Context (V : env) (HV : ucd_ok V).

Lemma goes_punc op p l : is_punctuator op p ->
  (forall p', is_punctuator op p' -> prefix (punc_text p') (punc_text p ++ l) ->
     (length (punc_text p') <= length (punc_text p))%nat) ->
  (p = T_Dot -> ~ starts_with dec_digit l) ->
  goes_tok (lx_read_token_at V op) (punc_text p) l (TPunc p).
Proof.
  intros Hp Hmax Hdot q.
  pose proof (not_longer op p l Hp Hmax) as Hno.
  assert (Hc : forall p' x, In p' all_puncs -> strip (punc_text p) (punc_text p') = Some [x] ->
             is_c (hd_error l) x = false).
  { intros p' x H1 H2. specialize (Hno p' x [] H1 H2). destruct l as [|c l]; [reflexivity|].
    cbn. apply N.eqb_neq. intros ->. apply Hno. exists l. reflexivity. }
  assert (Hn0 : forall a b : N, nth_error (a :: b :: l) 2 = hd_error l) by (destruct l; reflexivity).
  assert (Hn1 : forall a : N, nth_error (a :: l) 1 = hd_error l) by (destruct l; reflexivity).
  unfold lx_read_token_at. apply goes_peek, goes_peek_at.
  destruct Hp as (Hp1 & Hp2 & Hp3).
  assert (Hd2 : p = T_Dot -> match hd_error l with Some d => is_es_dec_digit d | None => false end = false).
  { intros E. specialize (Hdot E). destruct l as [|c l]; [reflexivity|]. cbn in Hdot |- *.
    apply dec_digit_false, Hdot. }
  assert (Hdd : p = T_Dot -> is_c (hd_error l) (chr ".") = true -> is_c (nth_error l 1) (chr ".") = false).
  { intros -> H1. apply is_c_true, hd_cons in H1 as [l' ->].
    destruct l' as [|c l']; [reflexivity|]. cbn. apply N.eqb_neq. intros ->.
    apply (Hno T_Ellipsis (chr ".") [chr "."]); [cbn; tauto|reflexivity|]. exists l'. reflexivity. }
  destruct p; try congruence;
    match goal with |- goes _ _ (punc_text ?p) _ _ =>
      let w := eval compute in (punc_text p) in change (punc_text p) with w end;
    cbn [app hd_error]; rewrite ?Hn1; cbn [nth_error is_c];
    try (match goal with |- context [negb op] => destruct op; [|destruct (Hp3 eq_refl); congruence] end);
    ev; rewrite ?(Hd2 eq_refl); longer_facts Hc; ev;
    try (match goal with |- goes (lx_read_punc_n _ _) _ ?w _ _ => apply (goes_punc_n w) end);
    try (match goal with |- goes (lx_read_punc2_3 _ _ _) _ _ _ _ =>
           first [apply goes_punc23_yes | apply goes_punc23_no; longer_facts Hc; reflexivity] end).
  - destruct (is_c (hd_error l) (chr ".")) eqn:E.
    + apply goes_peek_at. change (nth_error ([46] ++ l) 2) with (nth_error l 1).
      rewrite (Hdd eq_refl eq_refl). apply (goes_punc_n [46]).
    + apply (goes_punc_n [46]).
  - apply goes_peek_at. cbn [app nth_error is_c]. ev. apply (goes_punc_n [46; 46; 46]).
  - unfold lx_read_rshift. apply goes_posn.
    apply (goes_bind' _ _ _ _ [62; 62] [] _ tt); [reflexivity|apply goes_skip2|].
    apply goes_peek, goes_peek_at. cbn [app].
    rewrite (Hc T_URShift (chr ">")) by (first [reflexivity|cbn; tauto]).
    rewrite (Hc T_RShiftAssign (chr "=")) by (first [reflexivity|cbn; tauto]). cbn [andb].
    apply (goes_bind' _ _ _ _ [] [] _ T_RShift); [reflexivity|apply goes_ret|]. apply goes_end.
  - unfold lx_read_rshift. apply goes_posn.
    apply (goes_bind' _ _ _ _ [62; 62] [62] _ tt); [reflexivity|apply goes_skip2|].
    apply goes_peek, goes_peek_at. cbn [app hd_error]. rewrite Hn1. cbn [is_c].
    rewrite (Hc T_URShiftAssign (chr "=")) by (first [reflexivity|cbn; tauto]). ev.
    apply (goes_bind' _ _ _ _ [62] [] _ T_URShift); [reflexivity| |apply goes_end].
    apply (goes_bind' _ _ _ _ [62] [] _ tt); [reflexivity|apply goes_skip|apply goes_ret].
  - unfold lx_read_rshift. apply goes_posn.
    apply (goes_bind' _ _ _ _ [62; 62] [61] _ tt); [reflexivity|apply goes_skip2|].
    apply goes_peek, goes_peek_at. cbn [app hd_error is_c]. ev.
    apply (goes_bind' _ _ _ _ [61] [] _ T_RShiftAssign); [reflexivity| |apply goes_end].
    apply (goes_bind' _ _ _ _ [61] [] _ tt); [reflexivity|apply goes_skip|apply goes_ret].
  - unfold lx_read_rshift. apply goes_posn.
    apply (goes_bind' _ _ _ _ [62; 62] [62; 61] _ tt); [reflexivity|apply goes_skip2|].
    apply goes_peek, goes_peek_at. cbn [app hd_error nth_error is_c]. ev.
    apply (goes_bind' _ _ _ _ [62; 61] [] _ T_URShiftAssign); [reflexivity| |apply goes_end].
    apply (goes_bind' _ _ _ _ [62; 61] [] _ tt); [reflexivity|apply goes_skip2|apply goes_ret].
Qed.

(** ** Whole tokens *)

Definition specials : list N :=
  lit "/.{}[]();:,~?<>=+-*%^&|!".

Lemma token_at_other op c t p : ~ In c specials ->
  lx_read_token_at V op (Rd (c :: t) p)
  = (if (c =? 34) || (c =? 39) then lx_read_string V
     else if is_es_dec_digit c then lx_read_number V
     else if is_es_identifier_start V c then lx_read_word V
     else if c =? chr "\" then lx_read_word V
     else err (IllegalChar c)) (Rd (c :: t) p).
Proof.
  intros H. assert (Hne : forall k, In k specials -> (c =? k) = false).
  { intros k Hk. apply N.eqb_neq. intros ->. contradiction. }
  assert (Ha : assoc_c punc1_table c = None).
  { assert (Hk : Forall (fun kv => In (fst kv) specials) punc1_table).
    { apply Forall_forall. intros kv Hin.
      assert (E : forallb (fun kv => existsb (N.eqb (fst kv)) specials) punc1_table = true) by reflexivity.
      rewrite forallb_forall in E. specialize (E kv Hin). apply existsb_exists in E as (y & Hy & E).
      apply N.eqb_eq in E. rewrite E. exact Hy. }
    induction Hk as [|[k v] tb Hk _ IH]; [reflexivity|]. cbn [assoc_c fst] in *.
    rewrite N.eqb_sym, (Hne k Hk). exact IH. }
  unfold lx_read_token_at, bind, lx_peek, lx_peek_at, gets. cbn [rest hd_error].
  rewrite Ha. 
  repeat match goal with
  | |- context [c =? ?k] => rewrite (Hne k) by (vm_compute; tauto)
  end. reflexivity.
Qed.

Lemma start_not_special c : id_start V c -> ~ In c specials /\ c <> 34 /\ c <> 39 /\ ~ dec_digit c.
Proof.
  intros H. apply id_start_iff in H.
  assert (G : forall k, k < 128 -> is_es_identifier_start env_ascii k = false -> c <> k).
  { intros k Hk Hs ->. unfold is_es_identifier_start in *. rewrite (ucd_start_ascii V HV k Hk) in H.
    cbn [env_ascii id_start_u] in Hs. congruence. }
  split; [|split; [|split]].
  - intros Hin. cbn in Hin.
    repeat (destruct Hin as [Hin|Hin]; [revert Hin; apply not_eq_sym, G; reflexivity|]). exact Hin.
  - apply G; reflexivity.
  - apply G; reflexivity.
  - intros [H1 H2].
    assert (Hk : c < 128) by lia. apply (G c Hk); [|reflexivity].
    unfold is_es_identifier_start. cbn [env_ascii id_start_u]. unfold ascii_alpha, between.
    rewrite (proj2 (N.eqb_neq c 36)), (proj2 (N.eqb_neq c 95)) by lia.
    rewrite (proj2 (N.leb_gt 97 c)), (proj2 (N.leb_gt 65 c)) by lia. reflexivity.
Qed.

Lemma goes_word_at op w v esc l d : word_text V w v esc -> word_end V l ->
  starts_with (id_start V) w \/ prefix (lit "\") w -> tokenize (Word esc v) = inr d ->
  goes_tok (lx_read_token_at V op) w l d.
Proof.
  intros Hw He Hs Ht p. pose proof (goes_word V w v esc l d HV Hw He Hs Ht p) as G.
  unfold goes in *. destruct w as [|c w]; [destruct Hs as [[]|[tl H]]; discriminate|].
  cbn [app] in *. destruct Hs as [Hs|[tl Hs]].
  - cbn in Hs. destruct (start_not_special c Hs) as (H1 & H2 & H3 & H4).
    rewrite token_at_other by exact H1.
    rewrite (proj2 (N.eqb_neq _ _) H2), (proj2 (N.eqb_neq _ _) H3), (proj2 (dec_digit_false c) H4),
      (proj2 (id_start_iff V c) Hs). exact G.
  - injection Hs as -> ->. rewrite token_at_other by (cbn; intuition discriminate).
    destruct (is_es_identifier_start V 92); exact G.
Qed.

Lemma names_fun : forall n v esc, (forall r, reserved_name r <> v) -> names n v esc ->
  tokenize (Word esc v) = inr (TIdent n).
Proof.
  intros n v esc Hr Hn. destruct (tokenize_cases (Word esc v)) as [(r & H & _)|[(r & H & _)|(_ & n' & Ht & _ & Hn')]];
    [destruct (Hr r H)|destruct (Hr r H)|]. cbn [text had_escape] in *. rewrite Ht. do 2 f_equal.
  destruct n as [a|s], n' as [a'|s']; cbn in Hn, Hn'.
  - f_equal. apply atom_name_injective. destruct Hn, Hn'. congruence.
  - destruct Hn as [H1 H2], Hn' as [H3 [H4|H4]]; [congruence|]. destruct (H4 a H1).
  - destruct Hn' as [H1 H2], Hn as [H3 [H4|H4]]; [congruence|]. destruct (H4 a' H1).
  - destruct Hn, Hn'. congruence.
Qed.

Lemma reserved_word r : word_text V (reserved_name r) (reserved_name r) false
  /\ starts_with (id_start V) (reserved_name r).
Proof.
  assert (G : forall w, forallb ascii_alpha w = true -> word_text V w w false).
  { induction w as [|c w IH]; intros H; [constructor|]. cbn in H. apply andb_true_iff in H as [H1 H2].
    constructor; [|apply IH, H2]. right; right; right; right. apply (ucd_start_cont V HV).
    rewrite (ucd_start_ascii V HV); [exact H1|].
    unfold ascii_alpha in H1. apply orb_true_iff in H1 as [H|H]; apply between_iff in H as [_ H]; lia. }
  split; [apply G; destruct r; reflexivity|].
  destruct r; apply (start_of_letter V HV); reflexivity.
Qed.

Lemma goes_lexeme op d w l : lexeme V op d w l -> goes_tok (lx_read_token_at V op) w l d.
Proof.
  intros H. destruct H as [|p l H1 H2 H3|r l H|n w v esc l H1 H2 H3 H4 H5|q b v l H1 H2
                          |b fw fv esc l H1 H2 H3 H4|s v l H1 H2 H3 H4 H5].
  - intros p. reflexivity.
  - apply goes_punc; assumption.
  - destruct (reserved_word r) as [H1 H2].
    apply (goes_word_at op _ (reserved_name r) false); [exact H1|exact H|left; exact H2|]. apply reserved_tokenize.
  - apply (goes_word_at op _ v esc); try assumption. apply names_fun; assumption.
  - intros p. pose proof (goes_string V q b v l H1 H2 p) as G. unfold goes in *. cbn [app] in *.
    rewrite token_at_other by (destruct H1 as [->| ->]; cbn; intuition discriminate).
    replace ((q =? 34) || (q =? 39)) with true by (destruct H1 as [->| ->]; reflexivity).
    exact G.
  - intros p. pose proof (goes_regexp V HV b fw fv esc l H2 H3 H4 p) as G.
    unfold lx_read_token_at. apply goes_peek, goes_peek_at. change (lit "/") with [chr "/"] at 1 2.
    cbn [app hd_error]. rewrite N.eqb_refl, H1. exact G.
  - intros p. pose proof (goes_number V HV s v l H1 H2 H3 H4 H5 p) as G.
    assert (Hs : (exists t, number_text s = chr "." :: t /\ starts_with dec_digit t)
                 \/ exists c t, number_text s = c :: t /\ dec_digit c).
    { assert (D0 : dec_digit (chr "0")) by (split; cbn; lia).
      destruct s as [m e|[cc|[cc|]|cc] ds|[ip|] [fp|] e]; cbn [number_ok] in H1; try contradiction;
        cbn [number_text].
      - destruct H1 as ([Hn Hm] & _). destruct m as [|c m]; [congruence|].
        right. exists c. eexists. split; [reflexivity|exact (Forall_inv Hm)].
      - right. destruct cc; eexists _, _; (split; [reflexivity|exact D0]).
      - right. destruct cc; eexists _, _; (split; [reflexivity|exact D0]).
      - destruct H1 as (ds' & -> & _). right. eexists _, _; (split; [reflexivity|exact D0]).
      - right. destruct cc; eexists _, _; (split; [reflexivity|exact D0]).
      - destruct H1 as ([Hn Hm] & _). destruct ip as [|c m]; [congruence|].
        right. exists c. eexists. split; [reflexivity|exact (Forall_inv Hm)].
      - destruct H1 as ([Hn Hm] & _). destruct fp as [|c m]; [congruence|].
        left. eexists. split; [reflexivity|]. exact (Forall_inv Hm). }
    destruct Hs as [(t & Ht & Hd)|(c & t & Ht & Hd)]; rewrite Ht in *.
    + unfold lx_read_token_at. apply goes_peek, goes_peek_at. cbn [app hd_error].
      destruct t as [|c t]; [destruct Hd|]. cbn [app nth_error]. cbn in Hd.
      change (chr "." =? chr "/") with false. rewrite N.eqb_refl, (proj2 (dec_digit_iff c) Hd). exact G.
    + unfold goes in *. cbn [app] in *. rewrite token_at_other.
      * replace ((c =? 34) || (c =? 39)) with false.
        { rewrite (proj2 (dec_digit_iff c) Hd). exact G. }
        symmetry. apply orb_false_iff. destruct Hd. split; apply N.eqb_neq; lia.
      * intros Hin. cbn in Hin. destruct Hd as [D1 D2].
        repeat (destruct Hin as [Hin|Hin]; [lia|]). exact Hin.
Qed.
End WithEnv.

(** ** Whitespace and comments *)

Lemma white_not_slash c : white_space c -> forall k, In k (lit "/<-") -> (c =? k) = false.
Proof.
  intros [H _] k Hk. cbn in H, Hk. apply N.eqb_neq. intros ->.
  repeat (destruct Hk as [<-|Hk]; [intuition discriminate|]). exact Hk.
Qed.

Lemma step_space a c t p : white_space c ->
  lx_trivia_step a (Rd (c :: t) p)
  = Ok (inl a, skip_until_from (fun c => negb (is_es_whitespace c)) t (advance p c (hd_error t))).
Proof.
  intros Hc. destruct a as [found b]. unfold lx_trivia_step, bind, lx_peek, lx_peek_at, gets.
  cbn [rest hd_error]. rewrite (proj2 (white_space_iff c) Hc).
  unfold lx_skip_whitespace, lx_skip_while, lx_skip_until, modify, ret. cbn [rest pos skip_until_from].
  rewrite (proj2 (white_space_iff c) Hc). reflexivity.
Qed.

Lemma newline_not_space c : line_terminator c -> is_es_whitespace c = false.
Proof. intros H. apply white_space_false. intros Hw. exact (space_not_newline c Hw H). Qed.

Lemma skip_newlines_cons c t p : line_terminator c ->
  (match t with [] => False | d :: _ => line_terminator d end ->
   skip_newlines_from (c :: t) p = skip_newlines_from t (advance p c (hd_error t)))
  /\ (match t with [] => True | d :: _ => ~ line_terminator d end ->
      skip_newlines_from (c :: t) p = Rd t (advance p c (hd_error t))).
Proof.
  intros Hc. apply line_terminator_iff in Hc. destruct t as [|d t]; cbn [skip_newlines_from hd_error].
  - rewrite Hc. split; [intros []|reflexivity].
  - split.
    + intros Hd. destruct ((c =? 13) && (d =? 10)) eqn:E.
      * apply andb_true_iff in E as [E1 E2]. apply N.eqb_eq in E1, E2. subst c d.
        destruct t as [|e t]; reflexivity.
      * rewrite Hc. reflexivity.
    + intros Hd. assert (E : (d =? 10) = false).
      { apply N.eqb_neq. intros ->. apply Hd. cbn. tauto. }
      rewrite E, andb_false_r, Hc. apply line_terminator_false in Hd.
      destruct t as [|e t]; [rewrite Hd; reflexivity|].
      rewrite Hd. replace ((d =? 13) && (e =? 10)) with false; [reflexivity|].
      symmetry. apply andb_false_iff. left. apply N.eqb_neq. intros ->. discriminate Hd.
Qed.

Lemma step_newline a c t p : line_terminator c ->
  lx_trivia_step a (Rd (c :: t) p) = Ok (inl (true, true), skip_newlines_from (c :: t) p).
Proof.
  intros Hc. destruct a as [found b]. unfold lx_trivia_step, bind, lx_peek, lx_peek_at, gets.
  cbn [rest hd_error]. rewrite (newline_not_space c Hc), (proj2 (line_terminator_iff c) Hc).
  unfold lx_skip_newlines, bind, lx_peek, gets, modify, ret. cbn [rest pos hd_error].
  rewrite (proj2 (line_terminator_iff c) Hc). reflexivity.
Qed.

Lemma block_comment_goes : forall body found p t,
  (forall u v, body ++ lit "*" <> u ++ lit "*/" ++ v) ->
  block_comment_from (body ++ lit "*/" ++ t) p found
  = Ok (existsb is_es_newline body || found, Rd t (advance_all p (body ++ lit "*/") t)).
Proof.
  induction body as [|c body IH]; intros found p t H.
  - reflexivity.
  - cbn [app existsb advance_all].
    assert (IH' := IH (is_es_newline c || found) (advance p c (hd_error (body ++ lit "*/" ++ t))) t).
    assert (Hn : forall u v, body ++ lit "*" <> u ++ lit "*/" ++ v).
    { intros u v E. apply (H (c :: u) v). cbn [app]. f_equal. exact E. }
    specialize (IH' Hn).
    assert (E : exists c2 t2, body ++ lit "*/" ++ t = c2 :: t2
                 /\ (c =? chr "*") && (c2 =? chr "/") = false).
    { destruct body as [|d body].
      - exists (chr "*"), (chr "/" :: t). split; [reflexivity|]. apply andb_false_r.
      - exists d, (body ++ lit "*/" ++ t). split; [reflexivity|].
        apply andb_false_iff. destruct (c =? chr "*") eqn:E1; [|left; reflexivity]. right.
        apply N.eqb_eq in E1. apply N.eqb_neq. intros ->. subst c.
        apply (H [] (body ++ lit "*")). reflexivity. }
    destruct E as (c2 & t2 & E & Et). rewrite <- app_assoc. rewrite E in *.
    cbn [block_comment_from hd_error] in *. rewrite Et.
    etransitivity; [exact IH'|]. f_equal. f_equal.
    rewrite orb_assoc. f_equal. apply orb_comm.
Qed.

Lemma step_block found b body t p : (forall u v, body ++ lit "*" <> u ++ lit "*/" ++ v) ->
  goes (lx_trivia_step (found, b)) p (lit "/*" ++ body ++ lit "*/") t
       (inl (existsb is_es_newline body || found, b)).
Proof.
  intros H. unfold lx_trivia_step. apply goes_peek, goes_peek_at. cbn [app hd_error nth_error].
  change (lit "/*") with [chr "/"; chr "*"]. cbn [app hd_error nth_error is_c].
  change (is_es_whitespace (chr "/")) with false. change (is_es_newline (chr "/")) with false.
  rewrite !N.eqb_refl. change (chr "*" =? chr "/") with false. cbn [andb].
  apply (goes_bind' _ _ _ _ (lit "/*" ++ body ++ lit "*/") [] _ (existsb is_es_newline body || false));
    [symmetry; apply app_nil_r| |rewrite orb_false_r; apply goes_ret].
  unfold lx_skip_block_comment.
  apply (goes_bind' _ _ _ _ (lit "/*") (body ++ lit "*/") _ tt); [reflexivity|apply goes_skip2|].
  unfold goes. rewrite <- app_assoc. cbn [rest pos].
  rewrite (block_comment_goes body false _ _ H). reflexivity.
Qed.

Lemma step_line found b opening body t p :
  opening = lit "//" \/ opening = lit "<!--" \/ (b = true /\ opening = lit "-->") ->
  Forall (fun c => ~ line_terminator c) body -> line_end t ->
  goes (lx_trivia_step (found, b)) p (opening ++ body) t (inl (found, b)).
Proof.
  intros Ho Hb Ht.
  assert (Hu : forall q, goes (lx_skip_until is_es_newline) q body t tt).
  { intros q. unfold goes, lx_skip_until, modify. cbn [rest pos]. rewrite skip_until_goes; [reflexivity| |].
    - eapply Forall_impl; [|exact Hb]. intros c Hc. apply line_terminator_false, Hc.
    - destruct Ht as [->|Ht]; [exact I|]. destruct t as [|c t]; [destruct Ht|]. cbn in *.
      apply line_terminator_iff, Ht. }
  assert (Hl : goes (lx_skip_line_comment (length opening)) p (opening ++ body) t tt).
  { unfold lx_skip_line_comment. apply (goes_bind' _ _ _ _ opening body _ tt); [reflexivity| |apply Hu].
    apply goes_skip_n. }
  assert (Hr : goes (lx_skip_line_comment (length opening) ;;; ret (@inl (bool * bool) (bool * bool) (found, b)))
                 p (opening ++ body) t (inl (found, b))).
  { apply (goes_bind' _ _ _ _ (opening ++ body) [] _ tt); [symmetry; apply app_nil_r|exact Hl|apply goes_ret]. }
  destruct Ho as [->|[->|[-> ->]]]; exact Hr.
Qed.

Lemma step_done found b l p : ~ starts_trivia b l ->
  lx_trivia_step (found, b) (Rd l p) = Ok (inr (found, b), Rd l p).
Proof.
  intros H. unfold starts_trivia in H. unfold lx_trivia_step, bind, lx_peek, lx_peek_at, gets.
  cbn [rest]. destruct l as [|c l]; [reflexivity|]. cbn [hd_error].
  assert (Hw : ~ white_space c) by (intros X; apply H; left; exact X).
  assert (Hn : ~ line_terminator c) by (intros X; apply H; right; left; exact X).
  rewrite (proj2 (white_space_false c) Hw), (proj2 (line_terminator_false c) Hn).
  change (nth_error (c :: l) 1) with (nth_error l 0).
  destruct ((c =? chr "/") && is_c (nth_error l 0) (chr "/")) eqn:E1.
  { apply andb_true_iff in E1 as [E1 E2]. apply N.eqb_eq in E1. subst c.
    destruct l as [|d l]; [discriminate|]. cbn in E2. apply N.eqb_eq in E2. subst d.
    destruct H. right; right; left. exists l. reflexivity. }
  destruct ((c =? chr "/") && is_c (nth_error l 0) (chr "*")) eqn:E2.
  { apply andb_true_iff in E2 as [E2 E3]. apply N.eqb_eq in E2. subst c.
    destruct l as [|d l]; [discriminate|]. cbn in E3. apply N.eqb_eq in E3. subst d.
    destruct H. right; right; right; left. exists l. reflexivity. }
  destruct ((c =? chr "<") && is_c (nth_error l 0) (chr "!")) eqn:E3.
  { cbn [rest]. change (nth_error (c :: l) 2) with (nth_error l 1).
    change (nth_error (c :: l) 3) with (nth_error l 2).
    destruct (is_c (nth_error l 1) (chr "-") && is_c (nth_error l 2) (chr "-")) eqn:E4; [|reflexivity].
    apply andb_true_iff in E3 as [E3 E5]. apply andb_true_iff in E4 as [E4 E6].
    apply N.eqb_eq in E3. subst c.
    destruct l as [|d [|e [|f l]]]; try discriminate. cbn in E4, E5, E6.
    apply N.eqb_eq in E4, E5, E6. subst. destruct H. right; right; right; right; left. exists l. reflexivity. }
  destruct ((c =? chr "-") && is_c (nth_error l 0) (chr "-")) eqn:E4; [|reflexivity].
  cbn [rest]. change (nth_error (c :: l) 2) with (nth_error l 1).
  destruct (b && is_c (nth_error l 1) (chr ">")) eqn:E5; [|reflexivity].
  apply andb_true_iff in E4 as [E4 E6]. apply andb_true_iff in E5 as [E5 E7].
  apply N.eqb_eq in E4. subst c. destruct l as [|d [|e l]]; try discriminate. cbn in E6, E7.
  apply N.eqb_eq in E6, E7. subst. destruct H. right; right; right; right; right.
  split; [reflexivity|]. exists l. reflexivity.
Qed.

Lemma existsb_newline w : existsb is_es_newline w = true <-> has_newline w.
Proof.
  unfold has_newline. rewrite existsb_exists, Exists_exists.
  split; intros (c & H1 & H2); exists c; (split; [exact H1|]); apply line_terminator_iff, H2.
Qed.

Lemma trivia_goes b w l : trivia b w l -> forall fuel found p, (length (w ++ l) < fuel)%nat ->
  exists nlb b', goes (loopM fuel lx_trivia_step (found, b)) p w l (nlb || found, b')
    /\ (nlb = true <-> has_newline w).
Proof.
  intros H. induction H as [b l H|b c w l Hc H IH|b c w l Hc H IH|b opening body w l Ho Hb He H IH
                           |b body w l Hb H IH]; intros fuel found p Hf.
  - destruct fuel as [|fuel]; [lia|]. exists false, b. split.
    + apply goes_loop_last. unfold goes. cbn [app advance_all]. apply step_done, H.
    + split; [discriminate|]. intros X. inversion X.
  - destruct fuel as [|fuel]; [lia|]. cbn [app length] in Hf.
    assert (Hd : (exists d t, w ++ l = d :: t /\ white_space d)
                 \/ stops (fun c => negb (is_es_whitespace c)) (w ++ l)).
    { destruct (w ++ l) as [|d t]; [right; exact I|]. destruct (is_es_whitespace d) eqn:E.
      - left. exists d, t. split; [reflexivity|]. apply white_space_iff, E.
      - right. cbn. rewrite E. reflexivity. }
    destruct Hd as [(d & t & Ht & Hd)|Hs].
    + destruct (IH (S fuel) found (advance p c (hd_error (w ++ l))) ltac:(lia)) as (nlb & b' & G & Hn).
      exists nlb, b'. split.
      * unfold goes in *. cbn [app advance_all]. etransitivity; [|exact G]. cbn [loopM].
        apply bind_same. rewrite Ht, (step_space _ c _ _ Hc), (step_space _ d _ _ Hd). cbn [skip_until_from hd_error].
        rewrite (proj2 (white_space_iff d) Hd). reflexivity.
      * rewrite Hn. split; [intros X; right; exact X|].
        intros X. inversion X as [? ? Hx|? ? Hx]; subst; [destruct (space_not_newline c Hc Hx)|exact Hx].
    + destruct (IH fuel found (advance p c (hd_error (w ++ l))) ltac:(lia)) as (nlb & b' & G & Hn).
      exists nlb, b'. split.
      * apply (goes_loop_step _ _ _ (found, b) _ p _ [c] w l); [reflexivity| |exact G].
        unfold goes. cbn [app advance_all]. rewrite (step_space _ c _ _ Hc). do 2 f_equal.
        rewrite <- (app_nil_l (w ++ l)) at 1. rewrite skip_until_goes; [reflexivity|constructor|exact Hs].
      * rewrite Hn. split; [intros X; right; exact X|].
        intros X. inversion X as [? ? Hx|? ? Hx]; subst; [destruct (space_not_newline c Hc Hx)|exact Hx].
  - destruct fuel as [|fuel]; [lia|]. cbn [app length] in Hf.
    exists true.
    assert (Hd : (exists d t, w ++ l = d :: t /\ line_terminator d)
                 \/ match w ++ l with [] => True | d :: _ => ~ line_terminator d end).
    { destruct (w ++ l) as [|d t]; [right; exact I|]. destruct (is_es_newline d) eqn:E.
      - left. exists d, t. split; [reflexivity|]. apply line_terminator_iff, E.
      - right. apply line_terminator_false, E. }
    destruct (skip_newlines_cons c (w ++ l) p Hc) as [S1 S2].
    assert (Hnl : has_newline (c :: w)) by (left; exact Hc).
    destruct Hd as [(d & t & Ht & Hd)|Hs].
    + destruct (IH (S fuel) true (advance p c (hd_error (w ++ l))) ltac:(lia)) as (nlb & b' & G & Hn).
      exists b'. split; [|tauto].
      unfold goes in *. cbn [app advance_all orb]. rewrite orb_true_r in G. etransitivity; [|exact G]. cbn [loopM].
      apply bind_same. rewrite (step_newline _ c _ _ Hc), S1 by (rewrite Ht; exact Hd).
      rewrite Ht, (step_newline _ d _ _ Hd). reflexivity.
    + destruct (IH fuel true (advance p c (hd_error (w ++ l))) ltac:(lia)) as (nlb & b' & G & Hn).
      exists b'. split; [|tauto]. rewrite orb_true_r in G.
      apply (goes_loop_step _ _ _ (true, true) _ p _ [c] w l); [reflexivity| |exact G].
      unfold goes. cbn [app advance_all]. rewrite (step_newline _ c _ _ Hc), (S2 Hs). reflexivity.
  - destruct fuel as [|fuel]; [lia|].
    assert (Hlen : (0 < length opening)%nat) by (destruct Ho as [->|[->|[_ ->]]]; cbn; lia).
    destruct (IH fuel found (advance_all p (opening ++ body) (w ++ l))) as (nlb & b' & G & Hn).
    { rewrite !app_length in *. lia. }
    exists nlb, b'. split.
    + apply (goes_loop_step _ _ _ (found, b) _ p _ (opening ++ body) w l).
      * rewrite <- app_assoc. reflexivity.
      * apply step_line; assumption.
      * exact G.
    + rewrite Hn, !has_newline_app. split; [tauto|]. intros [X|[X|X]]; [| |exact X].
      * exfalso. destruct Ho as [->|[->|[_ ->]]]; apply existsb_newline in X; discriminate X.
      * destruct (no_newline_forall _ Hb X).
  - destruct fuel as [|fuel]; [lia|].
    destruct (IH fuel (existsb is_es_newline body || found)
                (advance_all p (lit "/*" ++ body ++ lit "*/") (w ++ l))) as (nlb & b' & G & Hn).
    { rewrite !app_length in *. change (length (lit "/*")) with 2%nat in Hf.
      change (length (lit "*/")) with 2%nat in Hf. lia. }
    exists (nlb || existsb is_es_newline body), b'. split.
    + apply (goes_loop_step _ _ _ (existsb is_es_newline body || found, b) _ p _
               (lit "/*" ++ body ++ lit "*/") w l).
      * rewrite <- !app_assoc. reflexivity.
      * apply step_block, Hb.
      * rewrite <- orb_assoc. exact G.
    + rewrite orb_true_iff, Hn, existsb_newline, !has_newline_app.
      split; [tauto|]. intros [X|[X|[X|X]]]; try tauto; apply existsb_newline in X; discriminate X.
Qed.

(** ** The next token *)

Lemma read_next_goes V op b ah ws w l d p : ucd_ok V -> trivia b ws (w ++ l) -> lexeme V op d w l ->
  exists nl, (nl = true <-> has_newline ws) /\
  read_next_token V op (Lexer (Rd (ws ++ w ++ l) p) ah b)
  = Ok (Token (Span (advance_all p ws (w ++ l)) (advance_all (advance_all p ws (w ++ l)) w l)) nl d,
        Lexer (Rd l (advance_all (advance_all p ws (w ++ l)) w l)) ah false).
Proof.
  intros HV Ht Hl.
  destruct (trivia_goes b ws (w ++ l) Ht (S (length (ws ++ w ++ l))) false p ltac:(lia)) as (nl & b' & G & Hn).
  exists nl. split; [exact Hn|]. rewrite orb_false_r in G.
  unfold read_next_token, bind, gets, modify, ret, lift_rd. cbn [lx_rd lx_ahead lx_empty_line].
  unfold lx_trivia at 1. cbn [rest]. unfold goes in G. rewrite G. cbn [lx_rd lx_ahead lx_empty_line].
  pose proof (goes_lexeme V HV op d w l Hl (advance_all p ws (w ++ l))) as Gt. unfold goes in Gt.
  rewrite Gt. reflexivity.
Qed.
