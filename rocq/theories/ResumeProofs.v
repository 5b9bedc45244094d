(** Where errors leave the lexer. *)
From Coq Require Import String Ascii List NArith Bool Lia.
From Verif Require Import Base Chars F64 Word Token Reader SpecReader ReaderProofs Lexer SpecLexer LexWp LexerProofs
  Resume ResumeErase.
Import ListNotations.
Local Open Scope N_scope.

(** Errors other than that of an illegal character. *)
Definition legal (e : lex_error) : Prop := forall c, e <> IllegalChar c.

(** The computation moves the reader forward, also when it fails, and does not fail with
    an illegal character. *)
Definition weak {A} (m : LM' A) : Prop := forall r,
  match m r with
  | Ok (_, r') => exists w, took r w r'
  | Err (e, r') => legal e /\ exists w, took r w r'
  | _ => True
  end.

Lemma wk_bind {A B} (m : LM' A) (k : A -> LM' B) : weak m -> (forall a, weak (k a)) -> weak (bind m k).
Proof.
  intros h1 h2 r. unfold bind. specialize (h1 r). destruct (m r) as [[a r1]|[e r1]|p|]; auto.
  specialize (h2 a r1). destruct h1 as (w & T). destruct (k a r1) as [[b r2]|[e r2]|p|]; auto.
  - destruct h2 as (w2 & T2). exists (w ++ w2). eapply took_trans; eauto.
  - destruct h2 as (L & w2 & T2). split; [exact L|]. exists (w ++ w2). eapply took_trans; eauto.
Qed.
Lemma wk_ret {A} (a : A) : weak (ret a). Proof. intros r. exists []. apply took_nil. Qed.
Lemma wk_err {A} e : legal e -> weak (@err' A e). Proof. intros L r. split; [exact L|]. exists []. apply took_nil. Qed.
Lemma wk_panic {A} k : weak (@panic_at _ _ A k). Proof. intros r. exact Logic.I. Qed.
Lemma wk_nofuel {A} : weak (@nofuel _ _ A). Proof. intros r. exact Logic.I. Qed.
Lemma wk_gets {A} (f : rd -> A) : weak (gets f). Proof. intros r. exists []. apply took_nil. Qed.
Lemma wk_loop {A B} (b : A -> LM' (A + B)) : (forall a, weak (b a)) -> forall n a, weak (loopM n b a).
Proof.
  intros hb. induction n as [|n IH]; intros a; cbn [loopM]; [apply wk_nofuel|].
  apply wk_bind; [apply hb|]. intros [a'|r]; [apply IH|apply wk_ret].
Qed.
Lemma wk_run {A B} (b : A -> LM' (A + B)) a : (forall a, weak (b a)) ->
  weak (fun r => loopM (S (length (rest r))) b a r).
Proof. intros h r. now apply wk_loop. Qed.
Lemma wk_until {A} pred (read : A -> LM' A) a : (forall a, weak (read a)) -> weak (lx_read_until_with' pred read a).
Proof.
  intros h. apply wk_run. intros a'. apply wk_bind; [apply wk_gets|]. intros [ch|]; [|apply wk_ret].
  destruct (pred ch); [apply wk_ret|]. apply wk_bind; [apply h|]. intros b. apply wk_ret.
Qed.
Lemma tokenize_legal w e : tokenize w = inl e -> legal e.
Proof. unfold tokenize. intros H c ->. repeat destruct (assoc _ _); try destruct (negb _); discriminate H. Qed.

Create HintDb wk.
#[global] Hint Resolve wk_ret wk_panic wk_nofuel wk_gets : wk.
Ltac lg := let c := fresh in let H := fresh in intros c H; discriminate H.
Ltac wks :=
  repeat first
    [ solve [auto with wk]
    | match goal with |- weak (bind _ _) => apply wk_bind; [|intros ?] end
    | match goal with |- weak (err' _) => apply wk_err; first [assumption|lg|(eapply tokenize_legal; eassumption)] end
    | match goal with |- weak (fun r => loopM _ _ _ r) => apply wk_run; intros ? end
    | apply wk_until; intros ?
    | apply wk_loop; intros ?
    | match goal with |- weak (let '(_, _) := ?x in _) => destruct x end
    | match goal with |- weak (match ?x with _ => _ end) => destruct x eqn:? end
    | match goal with |- weak (let x := ?y in _) => cbv zeta end ].
Ltac wk f := intros; unfold f; wks.


Section WithEnv.
Context (V : env).

Lemma wk_lx_posn : weak (lx_posn' ).
Proof. wk @lx_posn'. Qed.
#[local] Hint Resolve wk_lx_posn : wk.

Lemma wk_lx_read : weak lx_read'.
Proof. intros [[|c l] p]; cbn; [exact Logic.I|]. exists [c]. apply took_one. Qed.
#[local] Hint Resolve wk_lx_read : wk.

Lemma wk_lx_peek : weak (lx_peek' ).
Proof. wk @lx_peek'. Qed.
#[local] Hint Resolve wk_lx_peek : wk.

Lemma wk_lx_peek_at : forall (n : nat), weak (lx_peek_at' n).
Proof. wk @lx_peek_at'. Qed.
#[local] Hint Resolve wk_lx_peek_at : wk.

Lemma wk_lx_skip : weak (lx_skip' ).
Proof. wk @lx_skip'. Qed.
#[local] Hint Resolve wk_lx_skip : wk.

Lemma wk_lx_skip2 : weak (lx_skip2' ).
Proof. wk @lx_skip2'. Qed.
#[local] Hint Resolve wk_lx_skip2 : wk.

Lemma wk_lx_reread : forall (ch : N), weak (lx_reread' ch).
Proof. wk @lx_reread'. Qed.
#[local] Hint Resolve wk_lx_reread : wk.

Lemma wk_lx_matches : forall (ch : N), weak (lx_matches' ch).
Proof. wk @lx_matches'. Qed.
#[local] Hint Resolve wk_lx_matches : wk.

Lemma wk_lx_skip_until pred : weak (lx_skip_until' pred).
Proof. intros [l p]. destruct (skip_until_from_spec pred l p) as (w & T & _). exists w. exact T. Qed.
#[local] Hint Resolve wk_lx_skip_until : wk.

Lemma wk_lx_skip_while : forall (pred : N -> bool), weak (lx_skip_while' pred).
Proof. wk @lx_skip_while'. Qed.
#[local] Hint Resolve wk_lx_skip_while : wk.

Lemma wk_lx_read_until pred : weak (lx_read_until' pred).
Proof.
  intros [l p]. unfold lx_read_until'. cbn [rest pos]. destruct (read_until_from pred l p) as [w r'] eqn:E.
  apply read_until_from_spec in E as (T & _). exists w. exact T.
Qed.
#[local] Hint Resolve wk_lx_read_until : wk.

Lemma wk_lx_read_into2_until : forall (s1 s2 : str) (pred : N -> bool), weak (lx_read_into2_until' s1 s2 pred).
Proof. wk @lx_read_into2_until'. Qed.
#[local] Hint Resolve wk_lx_read_into2_until : wk.

Lemma wk_lx_skip_newlines : weak lx_skip_newlines'.
Proof.
  unfold lx_skip_newlines'. apply wk_bind; [auto with wk|]. intros [c|]; [|auto with wk].
  destruct (is_es_newline c); [|auto with wk]. intros [l p].
  destruct (skip_newlines_from_spec (length l) l p (le_n _)) as (w & T & _). exists w. exact T.
Qed.
#[local] Hint Resolve wk_lx_skip_newlines : wk.

Lemma wk_lx_read_newline : weak (lx_read_newline' ).
Proof. wk @lx_read_newline'. Qed.
#[local] Hint Resolve wk_lx_read_newline : wk.

Lemma wk_lx_skip_whitespace : weak (lx_skip_whitespace' ).
Proof. wk @lx_skip_whitespace'. Qed.
#[local] Hint Resolve wk_lx_skip_whitespace : wk.

Lemma wk_lx_skip_n : forall (n : nat), weak (lx_skip_n' n).
Proof. induction n as [|n IH]; intros; cbn [lx_skip_n']; wks. Qed.
#[local] Hint Resolve wk_lx_skip_n : wk.

Lemma wk_lx_skip_line_comment : forall (prefix_len : nat), weak (lx_skip_line_comment' prefix_len).
Proof. wk @lx_skip_line_comment'. Qed.
#[local] Hint Resolve wk_lx_skip_line_comment : wk.

Lemma wk_block_comment_from l : forall p f, match block_comment_from' l p f with
  | Ok (_, r') => exists w, took (Rd l p) w r'
  | Err (e, r') => legal e /\ exists w, took (Rd l p) w r'
  | _ => True end.
Proof.
  induction l as [|c l IH]; intros p f; [split; [lg|exists []; apply took_nil]|].
  destruct l as [|c2 l]; [split; [lg|exists []; apply took_nil]|].
  change (block_comment_from' (c :: c2 :: l) p f) with (if (c =? chr "*") && (c2 =? chr "/")
    then Ok (f, Rd l (advance (advance p c (Some c2)) c2 (hd_error l)))
    else block_comment_from' (c2 :: l) (advance p c (Some c2)) (is_es_newline c || f)).
  destruct (_ && _).
  - exists [c; c2]. exact (took_trans _ [c] _ [c2] _ (took_one c (c2 :: l) p) (took_one c2 l _)).
  - specialize (IH (advance p c (Some c2)) (is_es_newline c || f)).
    destruct (block_comment_from' (c2 :: l) _ _) as [[a r]|[e r]|k|]; auto.
    + destruct IH as (w & T). exists (c :: w). exact (took_trans _ [c] _ w _ (took_one c (c2 :: l) p) T).
    + destruct IH as (L & w & T). split; [exact L|]. exists (c :: w). exact (took_trans _ [c] _ w _ (took_one c (c2 :: l) p) T).
Qed.

Lemma wk_lx_skip_block_comment : weak lx_skip_block_comment'.
Proof. unfold lx_skip_block_comment'. apply wk_bind; [auto with wk|]. intros _ [l p]. apply wk_block_comment_from. Qed.
#[local] Hint Resolve wk_lx_skip_block_comment : wk.

Lemma wk_lx_end : forall (start : posn) (v : token_data), weak (lx_end' start v).
Proof. wk @lx_end'. Qed.
#[local] Hint Resolve wk_lx_end : wk.

Lemma wk_lx_read_digit_into : forall (s : str) (radix : N) (pred : N -> bool) (missing : lex_error), legal missing -> weak (lx_read_digit_into' s radix pred missing).
Proof. wk @lx_read_digit_into'. Qed.
#[local] Hint Resolve wk_lx_read_digit_into : wk.

Lemma wk_lx_read_hex_digit_into : forall (s : str), weak (lx_read_hex_digit_into' s).
Proof. intros; unfold lx_read_hex_digit_into'. apply wk_lx_read_digit_into; lg. Qed.
#[local] Hint Resolve wk_lx_read_hex_digit_into : wk.

Lemma wk_lx_read_hex_digits : forall (n : nat) (code place : N) (s : str), weak (lx_read_hex_digits' n code place s).
Proof. induction n as [|n IH]; intros; cbn [lx_read_hex_digits']; wks. Qed.
#[local] Hint Resolve wk_lx_read_hex_digits : wk.

Lemma wk_lx_read_unicode_escape_seq : forall (s : str), weak (lx_read_unicode_escape_seq' V s).
Proof. wk @lx_read_unicode_escape_seq'. Qed.
#[local] Hint Resolve wk_lx_read_unicode_escape_seq : wk.

Lemma wk_lx_read_octal : forall (n : nat) (code : N) (source : str), weak (lx_read_octal' n code source).
Proof. induction n as [|n IH]; intros; cbn [lx_read_octal']; wks. Qed.
#[local] Hint Resolve wk_lx_read_octal : wk.

Lemma wk_lx_read_string_escape : forall (source value : str), weak (lx_read_string_escape' V source value).
Proof. wk @lx_read_string_escape'. Qed.
#[local] Hint Resolve wk_lx_read_string_escape : wk.

Lemma wk_lx_read_string : weak (lx_read_string' V ).
Proof. wk @lx_read_string'. Qed.
#[local] Hint Resolve wk_lx_read_string : wk.

Lemma wk_lx_read_word_escape : forall (w : word), weak (lx_read_word_escape' V w).
Proof. wk @lx_read_word_escape'. Qed.
#[local] Hint Resolve wk_lx_read_word_escape : wk.

Lemma wk_lx_read_word_parts : weak (lx_read_word_parts' V ).
Proof. wk @lx_read_word_parts'. Qed.
#[local] Hint Resolve wk_lx_read_word_parts : wk.

Lemma wk_lx_read_word : weak (lx_read_word' V ).
Proof. wk @lx_read_word'. Qed.
#[local] Hint Resolve wk_lx_read_word : wk.

Lemma wk_lx_read_regexp_backslash : forall (s : str), weak (lx_read_regexp_backslash' s).
Proof. wk @lx_read_regexp_backslash'. Qed.
#[local] Hint Resolve wk_lx_read_regexp_backslash : wk.

Lemma wk_lx_read_regexp_class_char : forall (s : str), weak (lx_read_regexp_class_char' s).
Proof. wk @lx_read_regexp_class_char'. Qed.
#[local] Hint Resolve wk_lx_read_regexp_class_char : wk.

Lemma wk_lx_read_regexp_class : forall (s : str), weak (lx_read_regexp_class' s).
Proof. wk @lx_read_regexp_class'. Qed.
#[local] Hint Resolve wk_lx_read_regexp_class : wk.

Lemma wk_lx_read_regexp_char : forall (s : str), weak (lx_read_regexp_char' s).
Proof. wk @lx_read_regexp_char'. Qed.
#[local] Hint Resolve wk_lx_read_regexp_char : wk.

Lemma wk_lx_read_regexp : weak (lx_read_regexp' V ).
Proof. wk @lx_read_regexp'. Qed.
#[local] Hint Resolve wk_lx_read_regexp : wk.

Lemma wk_lx_read_decimal_digits : weak (lx_read_decimal_digits' ).
Proof. wk @lx_read_decimal_digits'. Qed.
#[local] Hint Resolve wk_lx_read_decimal_digits : wk.

Lemma wk_lx_read_exp_part : weak (lx_read_exp_part' ).
Proof. wk @lx_read_exp_part'. Qed.
#[local] Hint Resolve wk_lx_read_exp_part : wk.

Lemma wk_lx_number_token : forall (start : posn) (src : number_source), weak (lx_number_token' start src).
Proof. wk @lx_number_token'. Qed.
#[local] Hint Resolve wk_lx_number_token : wk.

Lemma wk_lx_read_radix_int : forall (radix : N) (pred : N -> bool) (cons : char_case -> str -> number_source)
    (missing : lex_error), legal missing -> weak (lx_read_radix_int' radix pred cons missing).
Proof. wk @lx_read_radix_int'. Qed.
#[local] Hint Resolve wk_lx_read_radix_int : wk.

Lemma wk_lx_read_hex_int : weak (lx_read_hex_int' ).
Proof. intros; unfold lx_read_hex_int'. apply wk_lx_read_radix_int; lg. Qed.
#[local] Hint Resolve wk_lx_read_hex_int : wk.

Lemma wk_lx_read_oct_int : weak (lx_read_oct_int' ).
Proof. intros; unfold lx_read_oct_int'. apply wk_lx_read_radix_int; lg. Qed.
#[local] Hint Resolve wk_lx_read_oct_int : wk.

Lemma wk_lx_read_bin_int : weak (lx_read_bin_int' ).
Proof. intros; unfold lx_read_bin_int'. apply wk_lx_read_radix_int; lg. Qed.
#[local] Hint Resolve wk_lx_read_bin_int : wk.

Lemma wk_lx_read_decimal : forall (ch : N), weak (lx_read_decimal' ch).
Proof. wk @lx_read_decimal'. Qed.
#[local] Hint Resolve wk_lx_read_decimal : wk.

Lemma wk_lx_read_number : weak (lx_read_number' V ).
Proof. wk @lx_read_number'. Qed.
#[local] Hint Resolve wk_lx_read_number : wk.

Lemma wk_lx_read_punc_n : forall (n : nat) (v : punc), weak (lx_read_punc_n' n v).
Proof. wk @lx_read_punc_n'. Qed.
#[local] Hint Resolve wk_lx_read_punc_n : wk.

Lemma wk_lx_read_punc2_3 : forall (ch : N) (v2 v3 : punc), weak (lx_read_punc2_3' ch v2 v3).
Proof. wk @lx_read_punc2_3'. Qed.
#[local] Hint Resolve wk_lx_read_punc2_3 : wk.

Lemma wk_lx_read_rshift : weak (lx_read_rshift' ).
Proof. wk @lx_read_rshift'. Qed.
#[local] Hint Resolve wk_lx_read_rshift : wk.

Lemma wk_lx_trivia_step : forall (a : bool * bool), weak (lx_trivia_step' a).
Proof. wk @lx_trivia_step'. Qed.
#[local] Hint Resolve wk_lx_trivia_step : wk.

(** ** Consuming *)

Definition past (r r' : rd) : Prop := exists w, w <> [] /\ took r w r'.
Definition fwd (r r' : rd) : Prop := exists w, took r w r'.
Lemma past_fwd r1 r2 r3 : past r1 r2 -> fwd r2 r3 -> past r1 r3.
Proof. intros (w & N & T) (w2 & T2). exists (w ++ w2). split; [destruct w; [now destruct N|discriminate]|eapply took_trans; eauto]. Qed.
Lemma fwd_past r1 r2 r3 : fwd r1 r2 -> past r2 r3 -> past r1 r3.
Proof. intros (w & T) (w2 & N & T2). exists (w ++ w2). split; [|eapply took_trans; eauto]. destruct w; [exact N|discriminate]. Qed.
Lemma fwd_trans r1 r2 r3 : fwd r1 r2 -> fwd r2 r3 -> fwd r1 r3.
Proof. intros (w & T) (w2 & T2). exists (w ++ w2). eapply took_trans; eauto. Qed.
Lemma fwd_refl r : fwd r r. Proof. exists []. apply took_nil. Qed.
Lemma past_weak r r' : past r r' -> fwd r r'. Proof. intros (w & _ & T). now exists w. Qed.

(** The outcome consumes something. *)
Definition eats {A} (r : rd) (o : res (lex_error * rd) (A * rd)) : Prop :=
  match o with
  | Ok (_, r') => past r r'
  | Err (e, r') => legal e /\ past r r'
  | _ => True
  end.
Definition eat {A} (m : LM' A) : Prop := forall r, eats r (m r).
Lemma eats_bind {A B} (m : LM' A) (k : A -> LM' B) r : eats r (m r) -> (forall a, weak (k a)) -> eats r (bind m k r).
Proof.
  intros H W. unfold bind. destruct (m r) as [[a r1]|[e r1]|p|]; auto. specialize (W a r1). cbn in H.
  destruct (k a r1) as [[b r2]|[e r2]|p|]; cbn; auto.
  - eapply past_fwd; eauto.
  - destruct W as (L & W). split; [exact L|]. eapply past_fwd; eauto.
Qed.
Lemma eat_bind {A B} (m : LM' A) (k : A -> LM' B) : eat m -> (forall a, weak (k a)) -> eat (bind m k).
Proof. intros H W r. apply eats_bind; auto. Qed.
Lemma bind_gets {S E A B} (f : S -> A) (k : A -> M S E B) r : bind (gets f) k r = k (f r) r.
Proof. reflexivity. Qed.
Lemma gets_eat {A B} (f : rd -> A) (k : A -> LM' B) : (forall a, eat (k a)) -> eat (bind (gets f) k).
Proof. intros H r. rewrite bind_gets. apply H. Qed.
Lemma panic_eat {A} k : eat (@panic_at _ _ A k). Proof. intros r. exact Logic.I. Qed.
Lemma read_eat : eat lx_read'.
Proof. intros [[|c l] p]; [exact Logic.I|]. exists [c]. split; [discriminate|apply took_one]. Qed.
Lemma skip_eat : eat lx_skip'.
Proof. apply eat_bind; [apply read_eat|intros; auto with wk]. Qed.
Lemma skip2_eat : eat lx_skip2'.
Proof. apply eat_bind; [apply skip_eat|intros; auto with wk]. Qed.
Lemma skip_n_eat n : eat (lx_skip_n' (S n)).
Proof. apply eat_bind; [apply skip_eat|intros; auto with wk]. Qed.
Lemma reread_eat c : eat (lx_reread' c).
Proof.
  apply gets_eat. intros [x|]; [|apply panic_eat]. destruct (x =? c); [|apply panic_eat].
  apply eat_bind; [apply skip_eat|intros; auto with wk].
Qed.
Lemma punc_n_eat n v : eat (lx_read_punc_n' (S n) v).
Proof. apply gets_eat. intros s. apply eat_bind; [apply skip_n_eat|intros; auto with wk]. Qed.
Lemma punc2_3_eat c v w : eat (lx_read_punc2_3' c v w).
Proof. apply gets_eat. intros s. apply eat_bind; [apply skip2_eat|intros; wks]. Qed.
Lemma rshift_eat : eat lx_read_rshift'.
Proof. apply gets_eat. intros s. apply eat_bind; [apply skip2_eat|intros; wks]. Qed.
Lemma regexp_eat : eat (lx_read_regexp' V).
Proof. apply gets_eat. intros s. apply eat_bind; [apply reread_eat|intros; wks]. Qed.
Lemma string_eat : eat (lx_read_string' V).
Proof. apply gets_eat. intros s. apply eat_bind; [apply read_eat|intros; wks]. Qed.
Lemma radix_eat r p c m : legal m -> eat (lx_read_radix_int' r p c m).
Proof.
  intros L. do 2 (apply gets_eat; intros ?). destruct (_ && _); [|apply panic_eat]. apply gets_eat. intros s.
  apply eat_bind; [apply skip_eat|]. intros _. wks.
Qed.
Lemma until_eats pred l ch : pred ch = false -> forall p, past (Rd (ch :: l) p) (snd (read_until_from pred (ch :: l) p)).
Proof.
  intros H p. cbn [read_until_from]. rewrite H.
  destruct (read_until_from pred l _) as [w r'] eqn:E. cbn [snd]. apply read_until_from_spec in E as (T & _).
  exists (ch :: w). split; [discriminate|]. exact (took_trans _ [ch] _ w _ (took_one ch l p) T).
Qed.
Lemma decimal_eats ch l p : eats (Rd (ch :: l) p) (lx_read_decimal' ch (Rd (ch :: l) p)).
Proof.
  unfold lx_read_decimal'. destruct (is_es_dec_digit ch) eqn:D; [|exact Logic.I].
  unfold lx_posn' at 1. rewrite bind_gets. apply eats_bind; [|intros; wks].
  unfold lx_read_decimal_digits', lx_read_until'. cbn [rest pos].
  pose proof (until_eats (fun ch => negb (is_es_dec_digit ch)) l ch) as H. cbv beta in H. rewrite D in H.
  specialize (H eq_refl p). destruct (read_until_from _ _ _) as [w r']. exact H.
Qed.
Lemma number_eats ch l p : eats (Rd (ch :: l) p) (lx_read_number' V (Rd (ch :: l) p)).
Proof.
  unfold lx_read_number', lx_peek' at 1, lx_peek_at' at 1. rewrite !bind_gets. apply eats_bind; [|intros; wks].
  cbn [rest hd_error]. destruct (_ && _); [apply radix_eat; lg|]. destruct (_ && _); [apply radix_eat; lg|].
  destruct (_ && _); [apply radix_eat; lg|]. destruct (_ =? _); [|apply decimal_eats].
  unfold lx_posn' at 1. rewrite bind_gets. apply eat_bind; [apply skip_eat|intros; wks].
Qed.
Lemma word_parts_eats ch l p : negb (ch =? chr "\") && negb (is_es_identifier_continue V ch) = false ->
  eats (Rd (ch :: l) p) (lx_read_word_parts' V (Rd (ch :: l) p)).
Proof.
  intros H. unfold lx_read_word_parts', lx_read_until_with'. cbn [rest]. generalize (length (ch :: l)). intros n. cbn [loopM]. apply eats_bind.
  - unfold lx_peek' at 1. rewrite bind_gets. cbn [rest hd_error]. rewrite H. apply eats_bind; [|intros; wks].
    apply eats_bind; [apply read_eat|]. intros c. wks.
  - intros [a|a]; [|auto with wk]. apply wk_loop. intros w. wks.
Qed.
Lemma word_eats ch l p : eats (Rd (ch :: l) p) (lx_read_word' V (Rd (ch :: l) p)).
Proof.
  unfold lx_read_word'. unfold lx_peek' at 1. rewrite bind_gets. cbn [rest hd_error].
  destruct (_ || _); [|exact Logic.I]. unfold lx_posn' at 1. rewrite bind_gets.
  destruct (negb (ch =? chr "\") && negb (is_es_identifier_continue V ch)) eqn:H.
  - unfold bind at 1. unfold lx_read_word_parts', lx_read_until_with'. cbn [rest]. generalize (length (ch :: l)). intros n. cbn [loopM].
    unfold lx_peek' at 1. unfold bind at 1. rewrite bind_gets. cbn [rest hd_error]. rewrite H. cbn. exact Logic.I.
  - apply eats_bind; [now apply word_parts_eats|]. intros w. wks.
Qed.

Definition sound_err {A} (r : rd) (o : res (lex_error * rd) (A * rd)) : Prop :=
  match o with Err (e, r') => legal e /\ past r r' | _ => True end.
Lemma eats_err {A} r (o : res (lex_error * rd) (A * rd)) : eats r o -> sound_err r o.
Proof. destruct o as [[a r']|[e r']|k|]; cbn; auto. Qed.

Lemma token_at_op op op' ch l p : (ch =? chr "/") = false ->
  lx_read_token_at' V op (Rd (ch :: l) p) = lx_read_token_at' V op' (Rd (ch :: l) p).
Proof. intros E. unfold lx_read_token_at', lx_peek'. rewrite !bind_gets. cbn [rest hd_error]. rewrite E. reflexivity. Qed.
Lemma token_at_err0 op ch l p :
  sound_err (Rd (ch :: l) p) (lx_read_token_at' V op (Rd (ch :: l) p))
  \/ (lx_read_token_at' V op (Rd (ch :: l) p) = Err (IllegalChar ch, Rd (ch :: l) p)
      /\ (ch =? chr "/") = false /\ (ch =? chr "<") = false /\ (ch =? chr "-") = false).
Proof.
  assert (B : forall {A} (m : LM' A), eat m -> sound_err (Rd (ch :: l) p) (m (Rd (ch :: l) p))) by (intros; apply eats_err; auto).
  assert (BN : sound_err (Rd (ch :: l) p) (lx_read_number' V (Rd (ch :: l) p))) by (apply eats_err, number_eats).
  assert (BW : sound_err (Rd (ch :: l) p) (lx_read_word' V (Rd (ch :: l) p))) by (apply eats_err, word_eats).
  unfold lx_read_token_at', lx_peek', lx_peek_at'. rewrite !bind_gets. cbn [rest hd_error].
  destruct (ch =? chr "/") eqn:E1; [left; destruct (negb op); [apply B, regexp_eat|destruct (is_c _ _); apply B, punc_n_eat]|].
  destruct (ch =? chr ".") eqn:E2.
  { left. destruct (match nth_error (ch :: l) 1 with Some d => is_es_dec_digit d | None => false end); [exact BN|].
    destruct (is_c _ _); [|apply B, punc_n_eat]. rewrite bind_gets. destruct (is_c _ _); apply B, punc_n_eat. }
  destruct (assoc_c punc1_table ch) eqn:E3; [left; apply B, punc_n_eat|].
  destruct (ch =? chr "<") eqn:E4;
    [left; destruct (is_c _ _); [apply B, punc2_3_eat|]; destruct (is_c _ _); apply B, punc_n_eat|].
  destruct (ch =? chr ">") eqn:E5;
    [left; destruct (is_c _ _); [apply B, rshift_eat|]; destruct (is_c _ _); apply B, punc_n_eat|].
  destruct (ch =? chr "=") eqn:E6;
    [left; destruct (is_c _ _); [apply B, punc2_3_eat|]; apply B, punc_n_eat|].
  destruct (ch =? chr "+") eqn:E7;
    [left; destruct (is_c _ _); [|destruct (is_c _ _)]; apply B, punc_n_eat|].
  destruct (ch =? chr "-") eqn:E8;
    [left; destruct (is_c _ _); [|destruct (is_c _ _)]; apply B, punc_n_eat|].
  do 3 (match goal with |- context [ch =? ?c] => destruct (ch =? c);
    [left; destruct (is_c _ _); apply B, punc_n_eat|] end).
  do 2 (match goal with |- context [ch =? ?c] => destruct (ch =? c);
    [left; destruct (is_c _ _); [|destruct (is_c _ _)]; apply B, punc_n_eat|] end).
  destruct (ch =? chr "!"); [left; destruct (is_c _ _); [apply B, punc2_3_eat|]; apply B, punc_n_eat|].
  destruct (_ || _); [left; apply B, string_eat|].
  destruct (is_es_dec_digit ch); [left; exact BN|].
  destruct (is_es_identifier_start V ch); [left; exact BW|].
  destruct (ch =? chr "\"); [left; exact BW|].
  right. repeat split; auto.
Qed.

(** A failed token consumes something, or stands before an illegal character and fails
    again. *)
Lemma token_at_err op ch l p :
  sound_err (Rd (ch :: l) p) (lx_read_token_at' V op (Rd (ch :: l) p))
  \/ (lx_read_token_at' V op (Rd (ch :: l) p) = Err (IllegalChar ch, Rd (ch :: l) p)
      /\ (forall op', lx_read_token_at' V op' (Rd (ch :: l) p) = Err (IllegalChar ch, Rd (ch :: l) p))
      /\ (ch =? chr "/") = false /\ (ch =? chr "<") = false /\ (ch =? chr "-") = false).
Proof.
  destruct (token_at_err0 op ch l p) as [H|(H & E1 & E2 & E3)]; [now left|right]. repeat split; auto.
  intros op'. now rewrite (token_at_op op' op).
Qed.
Lemma token_at_nil op p : exists t, lx_read_token_at' V op (Rd [] p) = Ok (t, Rd [] p).
Proof. eexists. reflexivity. Qed.
(** A token other than the end of input consumes something. *)
Lemma token_at_ok op ch l p t r' : lx_read_token_at' V op (Rd (ch :: l) p) = Ok (t, r') -> past (Rd (ch :: l) p) r'.
Proof.
  assert (B : forall (m : LM' token), eat m -> m (Rd (ch :: l) p) = Ok (t, r') -> past (Rd (ch :: l) p) r').
  { intros m H E. specialize (H (Rd (ch :: l) p)). now rewrite E in H. }
  assert (BN : lx_read_number' V (Rd (ch :: l) p) = Ok (t, r') -> past (Rd (ch :: l) p) r').
  { intros E. pose proof (number_eats ch l p) as H. now rewrite E in H. }
  assert (BW : lx_read_word' V (Rd (ch :: l) p) = Ok (t, r') -> past (Rd (ch :: l) p) r').
  { intros E. pose proof (word_eats ch l p) as H. now rewrite E in H. }
  unfold lx_read_token_at', lx_peek', lx_peek_at'. rewrite !bind_gets. cbn [rest hd_error].
  repeat (match goal with
    | |- (if ?b then _ else _) _ = _ -> _ => destruct b
    | |- (match ?b with Some _ => _ | None => _ end) _ = _ -> _ => destruct b
    | |- bind (gets _) _ _ = _ -> _ => rewrite bind_gets
    end);
  first [exact BN|exact BW|apply B; first [apply punc_n_eat|apply punc2_3_eat|apply rshift_eat|apply regexp_eat|apply string_eat]|discriminate].
Qed.

(** ** Whitespace and comments *)

Definition serr {A} (m : LM' A) : Prop :=
  forall r, match m r with
            | Ok (_, r') => fwd r r'
            | Err (e, r') => legal e /\ past r r'
            | _ => True
            end.
Lemma serr_bind {A B} (m : LM' A) (k : A -> LM' B) : serr m -> (forall a, serr (k a)) -> serr (bind m k).
Proof.
  intros H W r. specialize (H r). unfold bind. destruct (m r) as [[a r1]|[e r1]|p|]; auto. specialize (W a r1).
  destruct (k a r1) as [[b r2]|[e r2]|p|]; auto.
  - eapply fwd_trans; eauto.
  - destruct W as (L & W). split; [exact L|]. eapply fwd_past; eauto.
Qed.
Lemma eat_serr {A} (m : LM' A) : eat m -> serr m.
Proof. intros H r. specialize (H r). destruct (m r) as [[a r1]|[e r1]|p|]; cbn in H; auto using past_weak. Qed.
Lemma weak_serr {A} (m : LM' A) : weak m -> (forall r x, m r <> Err x) -> serr m.
Proof.
  intros H N r. specialize (H r). specialize (N r). destruct (m r) as [[a r1]|x|p|]; auto. now destruct (N x).
Qed.
Lemma ret_serr {A} (a : A) : serr (ret a). Proof. intros r. apply fwd_refl. Qed.
Lemma gets_serr {A} (f : rd -> A) : serr (gets f). Proof. intros r. apply fwd_refl. Qed.
Lemma trivia_step_serr a : serr (lx_trivia_step' a).
Proof.
  destruct a as [f e]. apply serr_bind; [apply gets_serr|]. intros [ch|]; (apply serr_bind; [apply gets_serr|]); intros c2; [|apply ret_serr].
  destruct (is_es_whitespace ch).
  { apply serr_bind; [|intros; apply ret_serr]. apply weak_serr; [auto with wk|discriminate]. }
  destruct (is_es_newline ch).
  { apply serr_bind; [|intros; apply ret_serr]. apply weak_serr; [auto with wk|].
    intros [[|x l] p] y; [discriminate|]. unfold lx_skip_newlines', lx_peek'. rewrite bind_gets. cbn [rest hd_error].
    destruct (is_es_newline x); discriminate. }
  assert (L : forall n a, serr (lx_skip_line_comment' (S n) ;;; ret (a : bool * bool + bool * bool))).
  { intros n a. apply serr_bind; [|intros; apply ret_serr]. apply eat_serr, eat_bind; [apply skip_n_eat|intros; auto with wk]. }
  destruct (_ && _); [apply L|]. destruct (_ && _).
  { apply serr_bind; [|intros; apply ret_serr]. apply eat_serr, eat_bind; [apply skip2_eat|]. intros _ [l p]. apply wk_block_comment_from. }
  destruct (_ && _).
  { do 2 (apply serr_bind; [apply gets_serr|intros]). destruct (_ && _); [apply L|apply ret_serr]. }
  destruct (_ && _); [|apply ret_serr].
  apply serr_bind; [apply gets_serr|intros]. destruct (_ && _); [apply L|apply ret_serr].
Qed.
End WithEnv.
