(** Consequences for token sequences, push-back, literals and names. *)
From Coq Require Import String Ascii List NArith ZArith Arith Bool Lia.
From Verif Require Import Base Chars F64 Word Token Reader Lexer LexClient Wp SpecReader ReaderProofs
  SpecLexer SpecClient LexWp LexLit LexerProofs.
Import ListNotations.
Local Open Scope nat_scope.

Lemma ucd_start_part : forall V, ucd_ok V -> forall c, id_start V c -> id_part V c.
Proof.
  intros V HV c [->|[->|H]]; [left; reflexivity|right; left; reflexivity|].
  right; right; right; right. apply (ucd_start_cont V HV), H.
Qed.

(** ** Sequences of reads *)

Lemma read_token_empty : forall V op x, lx_ahead x = [] -> read_token V op x = read_next_token V op x.
Proof. intros V op x H. unfold read_token, bind, gets. rewrite H. reflexivity. Qed.

Lemma read_token_wp V src op x k : ucd_ok V -> rd_at src k (lx_rd x) -> lx_ahead x = [] ->
  wp (read_token V op) x
     (fun t x' => exists k', next_token V src op (lx_empty_line x) k t k'
        /\ rd_at src k' (lx_rd x') /\ lx_ahead x' = [] /\ lx_empty_line x' = false)
     anyE (Ktok V op (skipn k src)).
Proof.
  intros HV Hat Hla. unfold wp. rewrite (read_token_empty V op x Hla).
  pose proof (read_next_token_spec V src op x k (ucd_start_part V HV) Hat) as H.
  rewrite Hla in H. exact H.
Qed.

Lemma read_tokens_spec V src : ucd_ok V -> forall ops x k ts x',
  rd_at src k (lx_rd x) -> lx_ahead x = [] ->
  read_tokens V ops x = Ok (ts, x') ->
  exists k', tiles V src ops (lx_empty_line x) k ts k' /\ rd_at src k' (lx_rd x')
             /\ lx_ahead x' = [].
Proof.
  intros HV. induction ops as [|op ops IH]; intros x k ts x' Hat Hla; cbn [read_tokens].
  - intros H. injection H as <- <-. exists k. split; [constructor|auto].
  - intros H. apply bind_ok in H as (t & x1 & H1 & H2). apply bind_ok in H2 as (ts' & x2 & H2 & H3).
    injection H3 as <- <-.
    destruct (wp_ok _ _ _ _ _ _ _ (read_token_wp V src op x k HV Hat Hla) H1)
      as (k1 & Ht & Hat1 & Hla1 & He1).
    destruct (IH x1 k1 ts' x2 Hat1 Hla1 H2) as (k2 & Hts & Hat2 & Hla2). rewrite He1 in Hts.
    exists k2. split; [|auto]. econstructor; eassumption.
Qed.

Lemma rd_at_new : forall src, rd_at src 0 (lx_rd (lexer_new src)).
Proof. intros src. split; [lia|]. split; reflexivity. Qed.

Theorem tokens_tile : forall V src ops ts x, ucd_ok V ->
  read_tokens V ops (lexer_new src) = Ok (ts, x) ->
  exists k, tiles V src ops true 0 ts k /\ rest (lx_rd x) = skipn k src /\ k <= length src.
Proof.
  intros V src ops ts x HV H.
  destruct (read_tokens_spec V src HV ops _ 0 ts x (rd_at_new src) eq_refl H) as (k & Ht & Hat & _).
  exists k. destruct Hat as (H1 & H2 & _). auto.
Qed.

(** Every delivered token is the next token of some index. *)
Lemma delivers_next : forall V src t, ucd_ok V -> delivers V src t ->
  exists op b k k', next_token V src op b k t k' /\ k' <= length src.
Proof.
  intros V src t HV (ops & op & ts & x & x' & H1 & H2).
  destruct (read_tokens_spec V src HV ops _ 0 ts x (rd_at_new src) eq_refl H1) as (k & _ & Hat & Hla).
  destruct (wp_ok _ _ _ _ _ _ _ (read_token_wp V src op x k HV Hat Hla) H2)
    as (k1 & Ht & (Hk1 & _) & _).
  exists op, (lx_empty_line x), k, k1. auto.
Qed.

Lemma skipn_add {A} (l : list A) a b : skipn (a + b) l = skipn a (skipn b l).
Proof.
  revert l; induction b as [|b IH]; intros l; [rewrite Nat.add_0_r; reflexivity|].
  rewrite Nat.add_succ_r. destruct l as [|x l]; cbn [skipn]; [rewrite skipn_nil; reflexivity|apply IH].
Qed.
Lemma skipn_app_length : forall (a b : str), skipn (length a) (a ++ b) = b.
Proof. intros. rewrite skipn_app, skipn_all, Nat.sub_diag. reflexivity. Qed.
Lemma firstn_app_length : forall (a b : str), firstn (length a) (a ++ b) = a.
Proof. intros. rewrite firstn_app, firstn_all, Nat.sub_diag. apply app_nil_r. Qed.

(** The covered text of a token is its lexeme. *)
Lemma next_token_covered : forall V src op b k t k', next_token V src op b k t k' ->
  exists l, lexeme V op (tk_value t) (covered src (tk_loc t)) l
            /\ (exists ws, skipn k src = ws ++ covered src (tk_loc t) ++ l
                 /\ trivia b ws (covered src (tk_loc t) ++ l)).
Proof.
  intros V src op b k t k' (ws & w & l & Hs & -> & Ht & Hl & Hloc & _).
  assert (Hc : covered src (tk_loc t) = w).
  { rewrite Hloc. unfold covered. cbn [sp_start sp_end posn_at offset].
    rewrite !Nat2N.id. replace (k + length ws + length w - (k + length ws)) with (length w) by lia.
    rewrite Nat.add_comm, skipn_add, Hs, skipn_app_length. apply firstn_app_length. }
  exists l. rewrite Hc. split; [exact Hl|]. exists ws. auto.
Qed.

Theorem delivered_lexeme : forall V src t, ucd_ok V -> delivers V src t ->
  exists op l, lexeme V op (tk_value t) (covered src (tk_loc t)) l
               /\ exists u, src = u ++ covered src (tk_loc t) ++ l.
Proof.
  intros V src t HV H. destruct (delivers_next V src t HV H) as (op & b & k & k' & Hn & _).
  destruct (next_token_covered _ _ _ _ _ _ _ Hn) as (l & Hl & ws & Hs & _).
  exists op, l. split; [exact Hl|]. exists (firstn k src ++ ws).
  rewrite <- app_assoc, <- Hs. symmetry. apply firstn_skipn.
Qed.

(** ** Literals *)

Theorem string_source_verbatim : forall V src t s, ucd_ok V -> delivers V src t ->
  tk_value t = TString s -> str_source s = Some (covered src (tk_loc t)).
Proof.
  intros V src t s HV H Hs. destruct (delivered_lexeme V src t HV H) as (op & l & Hl & _).
  rewrite Hs in Hl. inversion Hl; subst. reflexivity.
Qed.

Theorem string_value_cooked : forall V src t s, ucd_ok V -> delivers V src t ->
  tk_value t = TString s ->
  exists q b l, (q = 34%N \/ q = 39%N) /\ covered src (tk_loc t) = q :: b ++ [q]
                /\ cooks V q b (str_value s) (q :: l).
Proof.
  intros V src t s HV H Hs. destruct (delivered_lexeme V src t HV H) as (op & l & Hl & _).
  rewrite Hs in Hl. inversion Hl; subst. exists q, b, l. auto.
Qed.

Theorem number_lossless : forall V src t n, ucd_ok V -> delivers V src t ->
  tk_value t = TNumber n ->
  exists s, num_source n = Some s /\ number_ok s /\ number_text s = covered src (tk_loc t)
            /\ number_value s = Some (num_value n).
Proof.
  intros V src t n HV H Hs. destruct (delivered_lexeme V src t HV H) as (op & l & Hl & _).
  rewrite Hs in Hl. inversion Hl; subst. exists s. auto.
Qed.

Theorem regexp_verbatim : forall V src t r, ucd_ok V -> delivers V src t ->
  tk_value t = TRegExp r ->
  exists fw esc l, covered src (tk_loc t) = lit "/" ++ re_pattern r ++ lit "/" ++ fw
    /\ re_body (re_pattern r) /\ word_text V fw (re_flags r) esc /\ word_end V l
    /\ exists u, src = u ++ covered src (tk_loc t) ++ l.
Proof.
  intros V src t r HV H Hs. destruct (delivered_lexeme V src t HV H) as (op & l & Hl & Hu).
  rewrite Hs in Hl. inversion Hl; subst. exists fw, esc, l. cbn [re_pattern re_flags].
  split; [reflexivity|]. split; [assumption|]. split; [assumption|]. split; [assumption|].
  destruct Hu as [u Hu]. exists u. rewrite <- H1 in Hu. exact Hu.
Qed.

Lemma lexeme_punc_inv : forall V op p w l, lexeme V op (TPunc p) w l ->
  (p = T_EOF /\ w = [] /\ l = [])
  \/ (is_punctuator op p /\ w = punc_text p /\ (p = T_Dot -> ~ starts_with dec_digit l)
      /\ forall p', is_punctuator op p' -> prefix (punc_text p') (punc_text p ++ l) ->
           length (punc_text p') <= length (punc_text p)).
Proof. intros V op p w l H. inversion H; subst; [left; auto|right; auto]. Qed.

Theorem punctuator_longest : forall V src t p, ucd_ok V -> delivers V src t ->
  tk_value t = TPunc p ->
  covered src (tk_loc t) = punc_text p
  /\ exists op u l, src = u ++ punc_text p ++ l
     /\ (p = T_EOF \/ is_punctuator op p)
     /\ (p = T_Dot -> ~ starts_with dec_digit l)
     /\ forall p', is_punctuator op p' -> prefix (punc_text p') (punc_text p ++ l) ->
          length (punc_text p') <= length (punc_text p).
Proof.
  intros V src t p HV H Hs. destruct (delivered_lexeme V src t HV H) as (op & l & Hl & u & Hu).
  rewrite Hs in Hl. apply lexeme_punc_inv in Hl as [(-> & Hw & ->)|(Hp & Hw & Hd & Hm)];
    rewrite Hw in Hu |- *.
  - split; [reflexivity|]. exists op, u, []. split; [exact Hu|]. split; [auto|].
    split; [discriminate|]. intros p' (Hp1 & Hp2 & _) [tl Htl].
    destruct p'; cbn in Htl; try discriminate; congruence.
  - split; [reflexivity|]. exists op, u, l. auto.
Qed.

Theorem word_classified : forall V src t, ucd_ok V -> delivers V src t ->
  match tk_value t with
  | TReserved r => covered src (tk_loc t) = reserved_name r
  | TIdent n => exists esc, word_text V (covered src (tk_loc t)) (name_string n) esc
                 /\ names n (name_string n) esc
                 /\ forall r, reserved_name r <> name_string n
  | _ => True
  end.
Proof.
  intros V src t HV H. destruct (delivered_lexeme V src t HV H) as (op & l & Hl & Hu).
  remember (covered src (tk_loc t)) as w eqn:Hw. clear Hw.
  destruct (tk_value t); try exact I; inversion Hl; subst; [reflexivity|].
  assert (Hn : name_string n = v) by (destruct n; cbn in *; tauto).
  rewrite Hn. exists esc. auto.
Qed.

(** ** Termination and consumption *)

Lemma lexeme_nonempty : forall V op d l w, lexeme V op d w l -> d <> TPunc T_EOF -> w <> [].
Proof.
  intros V op d l w H Hd.
  destruct H as [|p l Hp _ _|r l _|n w v esc l Hw _ _ _ _|q b v l _ _|b fw fv esc l _ _ _ _
                |s v l Hs _ _ _ _].
  - congruence.
  - destruct p; try discriminate. destruct Hp; congruence.
  - destruct r; discriminate.
  - intros ->. destruct Hw as [[]|[tl Htl]]; discriminate.
  - discriminate.
  - discriminate.
  - intros E. destruct s as [m e|r ds|ip fp e]; cbn [number_text number_ok] in *.
    + destruct Hs as ([Hm _] & _). destruct m; [congruence|discriminate].
    + destruct r as [cc|[cc|]|cc]; try (destruct cc; discriminate).
      destruct Hs as (ds' & -> & _). discriminate.
    + destruct ip as [[|]|]; discriminate.
Qed.

(** ** Push-back *)

Theorem peek_then_read : forall V op x t x1, peek_token V op x = Ok (t, x1) ->
  exists x2, read_token V op x = Ok (t, x2)
             /\ (forall op', read_token V op' x1 = Ok (t, x2))
             /\ (forall op', peek_token V op' x1 = Ok (t, x1))
             /\ reread_token x1 = Ok (t, x2) /\ repeek_token x1 = Ok (t, x1).
Proof.
  intros V op [rd la e] t x1. unfold peek_token, read_token, reread_token, repeek_token, bind, gets, ret, modify.
  cbn [lx_ahead]. destruct la as [|t0 la].
  - destruct (read_next_token V op (Lexer rd [] e)) as [[t1 [rd1 la1 e1]]|err|k|] eqn:Hn; try discriminate.
    intros H. injection H as -> <-. cbn [lx_rd lx_ahead lx_empty_line].
    assert (Hla : la1 = []).
    { revert Hn. unfold read_next_token, bind, gets, modify, lift_rd, ret. cbn [lx_empty_line lx_rd lx_ahead].
      destruct (lx_trivia e rd) as [[[f b] r]|?|?|]; try discriminate. cbn [lx_rd lx_ahead lx_empty_line].
      destruct (lx_read_token_at V op r) as [[a r']|?|?|]; try discriminate.
      intros H. injection H as _ _ <- _. reflexivity. }
    subst la1. eexists. split; [reflexivity|]. auto.
  - intros H. injection H as -> <-. cbn [lx_ahead]. eexists. split; [reflexivity|]. auto.
Qed.

Theorem read_then_unread : forall V op x t x1, read_token V op x = Ok (t, x1) ->
  length (lx_ahead x) <= 2 ->
  exists x2, unread_token t x1 = Ok (tt, x2)
             /\ (forall op', read_token V op' x2 = Ok (t, x1))
             /\ (lx_ahead x <> [] -> x2 = x)
             /\ peek_token V op x = Ok (t, x2).
Proof.
  intros V op [rd la e] t x1 Hr Hle. cbn [lx_ahead] in *.
  unfold read_token, bind, gets, ret, modify in Hr. cbn [lx_ahead] in Hr. destruct la as [|t0 la].
  - assert (Hla : lx_ahead x1 = []).
    { revert Hr. unfold read_next_token, bind, gets, modify, lift_rd, ret. cbn [lx_empty_line lx_rd lx_ahead].
      destruct (lx_trivia e rd) as [[[f b] r]|?|?|]; try discriminate. cbn [lx_rd lx_ahead lx_empty_line].
      destruct (lx_read_token_at V op r) as [[a r']|?|?|]; try discriminate.
      intros H. injection H as _ <-. reflexivity. }
    destruct x1 as [rd1 la1 e1]. cbn [lx_ahead] in Hla. subst la1.
    eexists. unfold unread_token, bind, gets, ret, modify, read_token, peek_token.
    cbn [lx_ahead length]. split; [reflexivity|]. cbn [lx_ahead lx_rd lx_empty_line].
    split; [reflexivity|]. split; [congruence|]. unfold bind, gets. cbn [lx_ahead]. rewrite Hr. reflexivity.
  - injection Hr as -> <-. eexists. unfold unread_token, bind, gets, ret, modify, read_token, peek_token.
    cbn [lx_ahead length lx_rd lx_empty_line] in *.
    assert (E : Nat.ltb (length la) lookahead_capacity = true).
    { apply Nat.ltb_lt. unfold lookahead_capacity. lia. }
    rewrite E. split; [reflexivity|]. auto.
Qed.

(** The state after reading the first [n] tokens with the flags [flag 0], [flag 1], ... *)
Definition flags (flag : nat -> bool) (n : nat) : list bool := map flag (seq 0 n).

Lemma read_tokens_app : forall V ops1 ops2 x,
  read_tokens V (ops1 ++ ops2) x =
  (ts1 <- read_tokens V ops1 ;; ts2 <- read_tokens V ops2 ;; ret (ts1 ++ ts2)) x.
Proof.
  intros V. induction ops1 as [|op ops1 IH]; intros ops2 x; cbn [app read_tokens].
  - unfold bind, ret. destruct (read_tokens V ops2 x) as [[a s]|?|?|]; reflexivity.
  - unfold bind, ret. destruct (read_token V op x) as [[t x1]|?|?|]; try reflexivity.
    specialize (IH ops2 x1). unfold bind, ret in IH. rewrite IH.
    destruct (read_tokens V ops1 x1) as [[ts1 x2]|?|?|]; try reflexivity.
    destruct (read_tokens V ops2 x2) as [[ts2 x3]|?|?|]; reflexivity.
Qed.

Lemma read_next_ahead : forall V op x t x', read_next_token V op x = Ok (t, x') -> lx_ahead x' = lx_ahead x.
Proof.
  intros V op [rd la e] t x'. unfold read_next_token, bind, gets, modify, lift_rd, ret.
  cbn [lx_empty_line lx_rd lx_ahead].
  destruct (lx_trivia e rd) as [[[f b] r]|?|?|]; try discriminate. cbn [lx_rd lx_ahead lx_empty_line].
  destruct (lx_read_token_at V op r) as [[a r']|?|?|]; try discriminate.
  intros H. injection H as _ <-. reflexivity.
Qed.

Lemma read_tokens_ahead : forall V ops x ts x', lx_ahead x = [] ->
  read_tokens V ops x = Ok (ts, x') -> lx_ahead x' = [] /\ length ts = length ops.
Proof.
  intros V. induction ops as [|op ops IH]; intros x ts x' Hla; cbn [read_tokens].
  - intros H. injection H as <- <-. auto.
  - intros H. apply bind_ok in H as (t & x1 & H1 & H2). apply bind_ok in H2 as (ts' & x2 & H2 & H3).
    injection H3 as <- <-. rewrite (read_token_empty V op x Hla) in H1.
    apply read_next_ahead in H1. destruct (IH x1 ts' x2) as [H4 H5]; [congruence|exact H2|].
    split; [exact H4|]. cbn. lia.
Qed.

(** The state of the lexer when the cursor is at [i] and [top] tokens have been lexed. *)
Definition cursor_state (V : env) (flag : nat -> bool) (x0 : lexer) (toks : list token)
    (i top : nat) (x : lexer) : Prop :=
  i <= top /\ exists y, read_tokens V (flags flag top) x0 = Ok (firstn top toks, y)
    /\ x = Lexer (lx_rd y) (firstn (top - i) (skipn i toks)) (lx_empty_line y).

Lemma flags_S : forall flag n, flags flag (S n) = flags flag n ++ [flag n].
Proof. intros. unfold flags. rewrite seq_S, map_app. reflexivity. Qed.

Lemma firstn_S : forall (l : list token) n t, nth_error l n = Some t -> firstn (S n) l = firstn n l ++ [t].
Proof.
  induction l as [|a l IH]; intros [|n] t; cbn [nth_error firstn]; try discriminate.
  - intros H; injection H as ->. reflexivity.
  - intros H. cbn [app]. f_equal. apply IH, H.
Qed.
Lemma skipn_nth : forall (l : list token) n t, nth_error l n = Some t -> skipn n l = t :: skipn (S n) l.
Proof.
  induction l as [|a l IH]; intros [|n] t; cbn [nth_error]; try discriminate.
  - intros H; injection H as ->. reflexivity.
  - intros H. change (skipn (S n) (a :: l)) with (skipn n l).
    change (skipn (S (S n)) (a :: l)) with (skipn (S n) l). apply IH, H.
Qed.

Lemma flags_prefix : forall flag n m, n <= m -> flags flag m = flags flag n ++ map flag (seq n (m - n)).
Proof.
  intros flag n m H. unfold flags. rewrite <- map_app. f_equal.
  replace m with (n + (m - n)) at 1 by lia. apply seq_app.
Qed.

(** When [n] tokens can be read, the first [i < n] can, and then the next one. *)
Lemma read_step : forall V flag x0 toks n xn i t,
  lx_ahead x0 = [] ->
  read_tokens V (flags flag n) x0 = Ok (toks, xn) -> nth_error toks i = Some t ->
  exists y y', read_tokens V (flags flag i) x0 = Ok (firstn i toks, y)
    /\ read_token V (flag i) y = Ok (t, y') /\ lx_ahead y = [].
Proof.
  intros V flag x0 toks n xn i t Hla Hrun Ht.
  assert (Hlen : length toks = n).
  { destruct (read_tokens_ahead _ _ _ _ _ Hla Hrun) as [_ H]. unfold flags in H.
    rewrite map_length, seq_length in H. exact H. }
  assert (Hi : i < n) by (rewrite <- Hlen; apply nth_error_Some; congruence).
  rewrite (flags_prefix flag i n) in Hrun by lia. rewrite read_tokens_app in Hrun.
  apply bind_ok in Hrun as (ts1 & y & H1 & H2). apply bind_ok in H2 as (ts2 & y2 & H2 & H3).
  injection H3 as <- <-. destruct (read_tokens_ahead _ _ _ _ _ Hla H1) as [Hla1 Hl1].
  unfold flags in Hl1. rewrite map_length, seq_length in Hl1.
  rewrite nth_error_app2 in Ht by lia. rewrite Hl1, Nat.sub_diag in Ht.
  destruct (n - i) as [|m] eqn:Hm; [lia|]. cbn [seq map read_tokens] in H2.
  apply bind_ok in H2 as (t' & y' & H4 & H5). apply bind_ok in H5 as (ts' & y3 & H5 & H6).
  injection H6 as <- <-. cbn in Ht. injection Ht as ->.
  exists y, y'. split; [|auto]. rewrite H1. f_equal. f_equal.
  rewrite <- Hl1. symmetry. rewrite firstn_app, Nat.sub_diag, firstn_all. cbn. apply app_nil_r.
Qed.

Theorem push_back_transparent : forall V flag src toks xn ops out,
  read_tokens V (flags flag (length toks)) (lexer_new src) = Ok (toks, xn) ->
  cursor_run toks ops 0 0 out ->
  exists x, client_run V flag ops 0 (lexer_new src) = Ok (out, x).
Proof.
  intros V flag src toks xn ops out Hrun Hops.
  assert (Hgen : forall ops i top out, cursor_run toks ops i top out ->
    forall x, cursor_state V flag (lexer_new src) toks i top x ->
    exists x', client_run V flag ops i x = Ok (out, x')).
  2:{ eapply Hgen; [exact Hops|]. split; [lia|]. exists (lexer_new src). split; reflexivity. }
  clear ops out Hops. intros ops i top out Hops.
  induction Hops as [i top|ops i top t out Ht Hops IH|ops i top t out Ht Hops IH
                    |ops i top t out Ht H2 Hops IH]; intros x (Hle & y & Hy & ->); cbn [client_run].
  - eexists. reflexivity.
  - (* peek *)
    destruct (Nat.eq_dec i top) as [->|Hne].
    + destruct (read_step V flag (lexer_new src) toks _ xn top t eq_refl Hrun Ht) as (y1 & y2 & Hy1 & Hr & Hla).
      rewrite Hy1 in Hy. injection Hy as <-.
      rewrite Nat.sub_diag. cbn [firstn].
      assert (Hx : Lexer (lx_rd y1) [] (lx_empty_line y1) = y1).
      { destruct y1; cbn in *. subst. reflexivity. }
      rewrite Hx. unfold bind at 1. unfold peek_token, bind, gets, modify, ret. rewrite Hla.
      rewrite (read_token_empty V _ _ Hla) in Hr. rewrite Hr.
      rewrite Nat.max_r in IH by lia.
      destruct (IH (Lexer (lx_rd y2) [t] (lx_empty_line y2))) as (x' & Hx').
      { split; [lia|]. exists y2. split.
        - rewrite flags_S, read_tokens_app. unfold bind. rewrite Hy1. cbn [read_tokens].
          unfold bind. rewrite (read_token_empty V _ _ Hla), Hr. unfold ret.
          rewrite (firstn_S _ _ _ Ht). reflexivity.
        - f_equal. replace (S top - top) with 1 by lia. rewrite (skipn_nth _ _ _ Ht). reflexivity. }
      rewrite Hx'. eexists. reflexivity.
    + unfold bind at 1. unfold peek_token, bind, gets, ret. cbn [lx_ahead].
      replace (top - i) with (S (top - S i)) by lia. rewrite (skipn_nth _ _ _ Ht). cbn [firstn].
      rewrite Nat.max_l in IH by lia.
      destruct (IH (Lexer (lx_rd y) (t :: firstn (top - S i) (skipn (S i) toks)) (lx_empty_line y)))
        as (x' & Hx').
      { split; [lia|]. exists y. split; [exact Hy|]. f_equal.
        replace (top - i) with (S (top - S i)) by lia. rewrite (skipn_nth _ _ _ Ht). reflexivity. }
      rewrite Hx'. eexists. reflexivity.
  - (* read *)
    destruct (Nat.eq_dec i top) as [->|Hne].
    + destruct (read_step V flag (lexer_new src) toks _ xn top t eq_refl Hrun Ht) as (y1 & y2 & Hy1 & Hr & Hla).
      rewrite Hy1 in Hy. injection Hy as <-.
      rewrite Nat.sub_diag. cbn [firstn].
      assert (Hx : Lexer (lx_rd y1) [] (lx_empty_line y1) = y1).
      { destruct y1; cbn in *. subst. reflexivity. }
      rewrite Hx. unfold bind at 1. rewrite Hr. rewrite Nat.max_r in IH by lia.
      assert (Hla2 : lx_ahead y2 = []).
      { rewrite (read_token_empty V _ _ Hla) in Hr. apply read_next_ahead in Hr. congruence. }
      destruct (IH y2) as (x' & Hx').
      { split; [lia|]. exists y2. split.
        - rewrite flags_S, read_tokens_app. unfold bind. rewrite Hy1. cbn [read_tokens].
          unfold bind. rewrite Hr. unfold ret. rewrite (firstn_S _ _ _ Ht). reflexivity.
        - rewrite Nat.sub_diag. cbn [firstn]. destruct y2; cbn in *. subst. reflexivity. }
      unfold bind. rewrite Hx'. eexists. reflexivity.
    + unfold bind at 1. unfold read_token, bind, gets, ret, modify. cbn [lx_ahead].
      replace (top - i) with (S (top - S i)) by lia. rewrite (skipn_nth _ _ _ Ht). cbn [firstn lx_rd lx_empty_line].
      rewrite Nat.max_l in IH by lia.
      destruct (IH (Lexer (lx_rd y) (firstn (top - S i) (skipn (S i) toks)) (lx_empty_line y)))
        as (x' & Hx').
      { split; [lia|]. exists y. split; [exact Hy|reflexivity]. }
      rewrite Hx'. eexists. reflexivity.
  - (* unread *)
    unfold bind at 1. unfold unread_token, bind, gets, modify. cbn [lx_ahead lx_rd lx_empty_line].
    assert (Hl : Nat.ltb (length (firstn (top - S i) (skipn (S i) toks))) lookahead_capacity = true).
    { apply Nat.ltb_lt. rewrite firstn_length. unfold lookahead_capacity. lia. }
    rewrite Hl. cbn [pred]. apply IH. split; [lia|]. exists y. split; [exact Hy|]. f_equal.
    replace (top - i) with (S (top - S i)) by lia. rewrite (skipn_nth _ _ _ Ht). reflexivity.
Qed.

(** ** End of input *)

Theorem eof_stable : forall V op x, lx_ahead x = [] -> rest (lx_rd x) = [] ->
  let p := pos (lx_rd x) in
  exists x', read_token V op x = Ok (Token (Span p p) false (TPunc T_EOF), x')
             /\ lx_rd x' = lx_rd x /\ lx_ahead x' = [].
Proof.
  intros V op [[l p] la e] Hla Hr. cbn in Hla, Hr |- *. subst. eexists. split; reflexivity || auto.
Qed.

Theorem eof_reached : forall V src op b k t k', next_token V src op b k t k' -> k <= length src ->
  tk_value t = TPunc T_EOF -> k' = length src.
Proof.
  intros V src op b k t k' (ws & w & l & Hs & -> & _ & Hl & _) Hk Ht.
  rewrite Ht in Hl. apply lexeme_punc_inv in Hl as [(_ & -> & ->)|((Hp & _) & _)]; [|congruence].
  rewrite !app_nil_r in Hs. apply (f_equal (@length N)) in Hs. rewrite skipn_length in Hs.
  cbn [length]. lia.
Qed.

Theorem token_consumes : forall V src op b k t k', next_token V src op b k t k' ->
  tk_value t <> TPunc T_EOF -> k < k'.
Proof.
  intros V src op b k t k' (ws & w & l & _ & -> & _ & Hl & _) Ht.
  apply lexeme_nonempty in Hl; [|exact Ht]. destruct w; [congruence|]. cbn [length]. lia.
Qed.

(** ** Panics *)

Theorem lexer_panics : forall V src ops, ucd_ok V ->
  match read_tokens V ops (lexer_new src) with
  | Ok _ => True
  | Err _ => True
  | Panic k => (k = P_read_eof /\ (ends_in_escape src \/ (In false ops /\ ends_in_regexp src)))
               \/ (k = P_overflow /\ overflow_checks V = true /\ has_long_escape src)
  | NoFuel => False
  end.
Proof.
  intros V src ops HV.
  assert (H : forall ops x k, rd_at src k (lx_rd x) -> lx_ahead x = [] ->
    match read_tokens V ops x with
    | Ok _ => True
    | Err _ => True
    | Panic k => (k = P_read_eof /\ (ends_in_escape src \/ (In false ops /\ ends_in_regexp src)))
               \/ (k = P_overflow /\ overflow_checks V = true /\ has_long_escape src)
    | NoFuel => False
    end).
  2:{ apply (H ops _ 0); [apply rd_at_new|reflexivity]. }
  clear ops. induction ops as [|op ops IH]; intros x k Hat Hla; cbn [read_tokens]; [exact I|].
  unfold bind. pose proof (read_token_wp V src op x k HV Hat Hla) as Hw. unfold wp in Hw.
  destruct (read_token V op x) as [[t x1]|e|k0|]; [|exact I| |exact Hw].
  - destruct Hw as (k1 & _ & Hat1 & Hla1 & _). specialize (IH x1 k1 Hat1 Hla1).
    destruct (read_tokens V ops x1) as [[ts x2]|e|k0|]; try exact I; [|exact IH].
    destruct IH as [(H1 & [H2|[H2 H3]])|IH]; [left; auto|left|right; exact IH].
    split; [exact H1|]. right. split; [right; exact H2|exact H3].
  - assert (Hpre : src = firstn k src ++ skipn k src) by (symmetry; apply firstn_skipn).
    destruct Hw as [[[-> (u & ds & Hl & Hd)]|(-> & Hc & u & ds & v & Hl & Hd)]|(-> & -> & u & b & Hl & Hb)].
    + left. split; [reflexivity|]. left. exists (firstn k src ++ u), ds. split; [|exact Hd].
      rewrite Hpre at 1. rewrite Hl, app_assoc. reflexivity.
    + right. split; [reflexivity|]. split; [exact Hc|]. exists (firstn k src ++ u), ds, v.
      split; [|exact Hd]. rewrite Hpre at 1. rewrite Hl, app_assoc. reflexivity.
    + left. split; [reflexivity|]. right. split; [left; reflexivity|].
      exists (firstn k src ++ u), b. split; [|exact Hb]. rewrite Hpre at 1. rewrite Hl, app_assoc. reflexivity.
Qed.

(** ** Names *)

Theorem name_from_string : forall s, name_string (name_from s) = s.
Proof.
  intros s. unfold name_from. destruct (assoc name_from_table s) as [a|] eqn:E; [|reflexivity].
  apply name_from_table_spec in E. exact E.
Qed.
Theorem name_from_names : forall s, names (name_from s) s false.
Proof.
  intros s. unfold name_from. destruct (assoc name_from_table s) as [a|] eqn:E; cbn.
  - apply name_from_table_spec in E. auto.
  - split; [reflexivity|]. right. intros a H. apply name_from_table_spec in H. congruence.
Qed.
Theorem names_unique : forall n v, names n v false -> n = name_from v.
Proof.
  intros [a|s] v; cbn.
  - intros [<- _]. unfold name_from. rewrite (proj2 (name_from_table_spec _ a) eq_refl). reflexivity.
  - intros [-> [H|H]]; [discriminate|]. unfold name_from.
    destruct (assoc name_from_table v) as [a|] eqn:E; [|reflexivity].
    apply name_from_table_spec in E. exfalso. exact (H a E).
Qed.
Theorem name_from_injective : forall s t, name_from s = name_from t <-> s = t.
Proof.
  intros s t. split; [|intros ->; reflexivity]. intros H.
  rewrite <- (name_from_string s), <- (name_from_string t), H. reflexivity.
Qed.
Theorem atom_roundtrip : forall a, name_from (atom_name a) = NAtom a.
Proof. intros a. destruct a; reflexivity. Qed.
Theorem atom_name_injective : forall a b, atom_name a = atom_name b -> a = b.
Proof.
  intros a b H. assert (E : NAtom a = NAtom b) by (rewrite <- !atom_roundtrip, H; reflexivity).
  injection E as ->. reflexivity.
Qed.
Theorem reserved_roundtrip : forall r, assoc reserved_table (reserved_name r) = Some r.
Proof. intros r. destruct r; reflexivity. Qed.
Theorem reserved_not_atom : forall r a, reserved_name r <> atom_name a.
Proof. intros r a. destruct r, a; discriminate. Qed.

(** ** Gaps between tokens *)

Lemma next_token_end : forall V src op b k t k', next_token V src op b k t k' ->
  sp_end (tk_loc t) = posn_at src k'.
Proof. intros V src op b k t k' (ws & w & l & _ & _ & _ & _ & -> & _). reflexivity. Qed.

Lemma tiles_app : forall V src ops1 ops2 ts k k2 b, tiles V src (ops1 ++ ops2) b k ts k2 ->
  exists ts1 ts2 b1 k1, ts = ts1 ++ ts2 /\ tiles V src ops1 b k ts1 k1 /\ tiles V src ops2 b1 k1 ts2 k2
    /\ (ts1 = [] -> b1 = b /\ k1 = k) /\ (ts1 <> [] -> b1 = false /\ end_of ts1 = posn_at src k1).
Proof.
  intros V src. induction ops1 as [|op ops1 IH]; intros ops2 ts k k2 b H; cbn [app] in H.
  - exists [], ts, b, k. split; [reflexivity|]. split; [constructor|]. split; [exact H|].
    split; [auto|congruence].
  - inversion H as [|? ? ? ? t k1 ts' ? Hn Ht]; subst.
    destruct (IH _ _ _ _ _ Ht) as (ts1 & ts2 & b1 & k1' & -> & H1 & H2 & H3 & H4).
    exists (t :: ts1), ts2, b1, k1'. split; [reflexivity|]. split; [econstructor; eassumption|].
    split; [exact H2|]. split; [discriminate|]. intros _. destruct ts1 as [|t1 ts1].
    + destruct (H3 eq_refl) as [-> ->]. split; [reflexivity|]. cbn. apply (next_token_end _ _ _ _ _ _ _ Hn).
    + destruct H4 as [-> H4]; [discriminate|]. split; [reflexivity|]. rewrite <- H4.
      unfold end_of. cbn [rev]. destruct (rev ts1 ++ [t1]) as [|y l] eqn:E; [|reflexivity].
      destruct (rev ts1); discriminate.
Qed.

Lemma tiles_length : forall V src ops b k ts k', tiles V src ops b k ts k' -> length ts = length ops.
Proof. intros V src ops b k ts k' H. induction H; cbn; auto. Qed.

(** What lies before a token, and what it is. *)
Theorem token_gap : forall V src ops op ts t x, ucd_ok V ->
  read_tokens V (ops ++ [op]) (lexer_new src) = Ok (ts ++ [t], x) ->
  let gap := covered src (Span (end_of ts) (sp_start (tk_loc t))) in
  let text := covered src (tk_loc t) in
  exists before after b, src = before ++ gap ++ text ++ after
    /\ trivia b gap (text ++ after) /\ lexeme V op (tk_value t) text after
    /\ (tk_newline t = true <-> has_newline gap)
    /\ end_of ts = posn_at src (length before)
    /\ sp_start (tk_loc t) = posn_at src (length before + length gap)
    /\ sp_end (tk_loc t) = posn_at src (length before + length gap + length text)
    /\ rest (lx_rd x) = after.
Proof.
  intros V src ops op ts t x HV H.
  destruct (tokens_tile V src _ _ _ HV H) as (k2 & Ht & Hrest & Hk2).
  destruct (tiles_app _ _ _ _ _ _ _ _ Ht) as (ts1 & ts2 & b1 & k1 & E & H1 & H2 & H3 & H4).
  assert (Hl2 : length ts2 = 1) by (apply tiles_length in H2; exact H2).
  destruct ts2 as [|t2 [|]]; try discriminate. apply app_inj_tail in E as [<- <-].
  inversion H2 as [|? ? ? ? ? k3 ? ? Hn Hnil]; subst. inversion Hnil; subst.
  assert (Hend : end_of ts = posn_at src k1).
  { destruct ts as [|t0 ts]; [destruct (H3 eq_refl) as [_ ->]; reflexivity|].
    apply H4. discriminate. }
  pose proof Hn as (ws & w & l & Hs & Hk & Htr & Hlx & Hloc & Hnl).
  assert (Hk1 : k1 <= length src).
  { destruct (Nat.le_gt_cases k1 (length src)); [assumption|].
    lia. }
  destruct (next_token_covered _ _ _ _ _ _ _ Hn) as (l' & Hlx' & _).
  assert (Hc : covered src (tk_loc t) = w).
  { rewrite Hloc. unfold covered. cbn [sp_start sp_end posn_at offset].
    rewrite !Nat2N.id. rewrite Hk. replace (k1 + length ws + length w - (k1 + length ws)) with (length w) by lia.
    rewrite Nat.add_comm, skipn_add, Hs, skipn_app_length. apply firstn_app_length. }
  assert (Hg : covered src (Span (end_of ts) (sp_start (tk_loc t))) = ws).
  { rewrite Hloc, Hend. unfold covered. cbn [sp_start sp_end posn_at offset].
    rewrite !Nat2N.id. replace (k1 + length ws - k1) with (length ws) by lia.
    rewrite Hs. apply firstn_app_length. }
  cbn zeta. rewrite Hg, Hc.
  assert (Hf : length (firstn k1 src) = k1) by (apply firstn_length_le; exact Hk1).
  exists (firstn k1 src), l, b1. rewrite Hf.
  split; [rewrite <- Hs; symmetry; apply firstn_skipn|].
  split; [exact Htr|]. split; [exact Hlx|]. split; [exact Hnl|]. split; [exact Hend|].
  rewrite Hloc. cbn [sp_start sp_end]. split; [reflexivity|]. split; [rewrite Hk; reflexivity|].
  rewrite Hrest, Hk. replace (k1 + length ws + length w) with (length w + (length ws + k1)) by lia.
  rewrite skipn_add, skipn_add, Hs, skipn_app_length. apply skipn_app_length.
Qed.

Theorem tokenize_cases : forall w,
  (exists r, reserved_name r = text w /\ had_escape w = false /\ tokenize w = inr (TReserved r))
  \/ (exists r, reserved_name r = text w /\ had_escape w = true
                /\ tokenize w = inl (ReservedWordWithEscapes r))
  \/ ((forall r, reserved_name r <> text w)
      /\ exists n, tokenize w = inr (TIdent n) /\ name_string n = text w
                   /\ names n (text w) (had_escape w)).
Proof.
  intros w. pose proof (tokenize_spec w) as H. destruct (tokenize w) as [e|d].
  - destruct H as (r & -> & H1 & H2). right. left. exists r. auto.
  - destruct d; try contradiction.
    + left. destruct H as [H1 H2]. eexists. split; [exact H1|]. auto.
    + right. right. destruct H as [H1 H2]. split; [exact H1|]. eexists. split; [reflexivity|].
      split; [|exact H2]. destruct n; cbn in *; tauto.
Qed.
Theorem names_iff : forall n v, names n v false <-> n = name_from v.
Proof. intros n v. split; [apply names_unique|intros ->; apply name_from_names]. Qed.
Theorem reserved_tokenize : forall r, tokenize (Word false (reserved_name r)) = inr (TReserved r).
Proof. intros r. destruct r; reflexivity. Qed.

Lemma ucd_ok_ascii : ucd_ok env_ascii.
Proof.
  constructor; try reflexivity; cbn [env_ascii id_start_u id_continue_u].
  - intros c H. rewrite H. reflexivity.
  - intros c H. apply line_terminator_iff in H.
    destruct H as [<-|[<-|[<-|[<-|[]]]]]; reflexivity.
  - intros c H. apply white_space_iff in H as [H _].
    repeat (destruct H as [<-|H]; [reflexivity|]). destruct H.
Qed.
