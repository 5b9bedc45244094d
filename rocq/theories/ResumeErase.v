(** Forgetting the states that errors carry in Resume.v gives the lexer of Lexer.v back. *)
From Coq Require Import String Ascii List NArith Bool.
From Verif Require Import Base Chars F64 Word Token Reader Lexer Resume.
Import ListNotations.
Local Open Scope N_scope.

Definition forget {E S A} (o : res (E * S) A) : res E A :=
  match o with Ok a => Ok a | Err (e, _) => Err e | Panic k => Panic k | NoFuel => NoFuel end.
Definition erases {S A} (m' : M S (lex_error * S) A) (m : M S lex_error A) : Prop := forall r, forget (m' r) = m r.

Lemma er_bind {S A B} (m' : M S (lex_error * S) A) m (k' : A -> M S (lex_error * S) B) k :
  erases m' m -> (forall a, erases (k' a) (k a)) -> erases (bind m' k') (bind m k).
Proof.
  intros h1 h2 s. unfold bind. rewrite <- (h1 s). destruct (m' s) as [[a s1]|[e s1]|p|]; cbn [forget]; try reflexivity.
  exact (h2 a s1).
Qed.
Lemma er_ret {S A} (a : A) : @erases S A (ret a) (ret a). Proof. intros s. reflexivity. Qed.
Lemma er_err {A} e : erases (@err' A e) (err e). Proof. intros s. reflexivity. Qed.
Lemma er_panic {S A} k : @erases S A (panic_at k) (panic_at k). Proof. intros s. reflexivity. Qed.
Lemma er_nofuel {S A} : @erases S A nofuel nofuel. Proof. intros s. reflexivity. Qed.
Lemma er_gets {S A} (f : S -> A) : erases (gets f) (gets f). Proof. intros s. reflexivity. Qed.
Lemma er_modify {S} (f : S -> S) : erases (modify f) (modify f). Proof. intros s. reflexivity. Qed.
Lemma er_loop {S A B} (b' : A -> M S (lex_error * S) (A + B)) b : (forall a, erases (b' a) (b a)) ->
  forall n a, erases (loopM n b' a) (loopM n b a).
Proof.
  intros hb. induction n as [|n IH]; intros a; cbn [loopM]; [apply er_nofuel|].
  apply er_bind; [apply hb|]. intros [a'|r]; [apply IH|apply er_ret].
Qed.
Lemma er_run {A B} (b' : A -> LM' (A + B)) b a : (forall a, erases (b' a) (b a)) ->
  erases (fun r => loopM (S (length (rest r))) b' a r) (fun r => loopM (S (length (rest r))) b a r).
Proof. intros h r. now apply er_loop. Qed.

Lemma er_until {A} pred (read' : A -> LM' A) read a : (forall a, erases (read' a) (read a)) ->
  erases (lx_read_until_with' pred read' a) (lx_read_until_with pred read a).
Proof.
  intros h. apply er_run. intros a'. apply er_bind; [apply er_gets|]. intros [ch|]; [|apply er_ret].
  destruct (pred ch); [apply er_ret|]. apply er_bind; [apply h|]. intros b. apply er_ret.
Qed.

Create HintDb er.
#[global] Hint Resolve er_ret er_err er_panic er_nofuel er_gets er_modify : er.

Ltac ers :=
  repeat first
    [ solve [auto with er]
    | match goal with |- erases (bind _ _) (bind _ _) => apply er_bind; [|intros ?] end
    | match goal with |- erases (fun r => loopM _ _ _ r) _ => apply er_run; intros ? end
    | apply er_until; intros ?
    | apply er_loop; intros ?
    | match goal with |- erases (let '(_, _) := ?x in _) _ => destruct x end
    | match goal with |- erases (match ?x with _ => _ end) _ => destruct x end
    | match goal with |- erases (let x := ?y in _) _ => cbv zeta end ].
Ltac er f' f := intros; unfold f', f; ers.


Section WithEnv.
Context (V : env).

Lemma er_lx_posn : erases (lx_posn' ) (lx_posn ).
Proof. er @lx_posn' @lx_posn. Qed.
#[local] Hint Resolve er_lx_posn : er.

Lemma er_lx_read : erases (lx_read' ) (lx_read ).
Proof. intros r. unfold lx_read', lx_read. now destruct (rest r). Qed.
#[local] Hint Resolve er_lx_read : er.

Lemma er_lx_peek : erases (lx_peek' ) (lx_peek ).
Proof. er @lx_peek' @lx_peek. Qed.
#[local] Hint Resolve er_lx_peek : er.

Lemma er_lx_peek_at : forall (n : nat), erases (lx_peek_at' n) (lx_peek_at n).
Proof. er @lx_peek_at' @lx_peek_at. Qed.
#[local] Hint Resolve er_lx_peek_at : er.

Lemma er_lx_skip : erases (lx_skip' ) (lx_skip ).
Proof. er @lx_skip' @lx_skip. Qed.
#[local] Hint Resolve er_lx_skip : er.

Lemma er_lx_skip2 : erases (lx_skip2' ) (lx_skip2 ).
Proof. er @lx_skip2' @lx_skip2. Qed.
#[local] Hint Resolve er_lx_skip2 : er.

Lemma er_lx_reread : forall (ch : N), erases (lx_reread' ch) (lx_reread ch).
Proof. er @lx_reread' @lx_reread. Qed.
#[local] Hint Resolve er_lx_reread : er.

Lemma er_lx_matches : forall (ch : N), erases (lx_matches' ch) (lx_matches ch).
Proof. er @lx_matches' @lx_matches. Qed.
#[local] Hint Resolve er_lx_matches : er.

Lemma er_lx_skip_until : forall (pred : N -> bool), erases (lx_skip_until' pred) (lx_skip_until pred).
Proof. er @lx_skip_until' @lx_skip_until. Qed.
#[local] Hint Resolve er_lx_skip_until : er.

Lemma er_lx_skip_while : forall (pred : N -> bool), erases (lx_skip_while' pred) (lx_skip_while pred).
Proof. er @lx_skip_while' @lx_skip_while. Qed.
#[local] Hint Resolve er_lx_skip_while : er.

Lemma er_lx_read_until : forall (pred : N -> bool), erases (lx_read_until' pred) (lx_read_until pred).
Proof. intros pred r. reflexivity. Qed.
#[local] Hint Resolve er_lx_read_until : er.

Lemma er_lx_read_into2_until : forall (s1 s2 : str) (pred : N -> bool), erases (lx_read_into2_until' s1 s2 pred) (lx_read_into2_until s1 s2 pred).
Proof. er @lx_read_into2_until' @lx_read_into2_until. Qed.
#[local] Hint Resolve er_lx_read_into2_until : er.

Lemma er_lx_skip_newlines : erases (lx_skip_newlines' ) (lx_skip_newlines ).
Proof. er @lx_skip_newlines' @lx_skip_newlines. Qed.
#[local] Hint Resolve er_lx_skip_newlines : er.

Lemma er_lx_read_newline : erases (lx_read_newline' ) (lx_read_newline ).
Proof. er @lx_read_newline' @lx_read_newline. Qed.
#[local] Hint Resolve er_lx_read_newline : er.

Lemma er_lx_skip_whitespace : erases (lx_skip_whitespace' ) (lx_skip_whitespace ).
Proof. er @lx_skip_whitespace' @lx_skip_whitespace. Qed.
#[local] Hint Resolve er_lx_skip_whitespace : er.

Lemma er_lx_skip_n : forall (n : nat), erases (lx_skip_n' n) (lx_skip_n n).
Proof. induction n as [|n IH]; intros; cbn [lx_skip_n' lx_skip_n]; ers. Qed.
#[local] Hint Resolve er_lx_skip_n : er.

Lemma er_lx_skip_line_comment : forall (prefix_len : nat), erases (lx_skip_line_comment' prefix_len) (lx_skip_line_comment prefix_len).
Proof. er @lx_skip_line_comment' @lx_skip_line_comment. Qed.
#[local] Hint Resolve er_lx_skip_line_comment : er.

Lemma er_block_comment_from l : forall p f, forget (block_comment_from' l p f) = block_comment_from l p f.
Proof.
  induction l as [|c l IH]; intros p f; [reflexivity|]. destruct l as [|c2 l]; [reflexivity|].
  cbn [block_comment_from' block_comment_from]. destruct (_ && _); [reflexivity|apply IH].
Qed.

Lemma er_lx_skip_block_comment : erases lx_skip_block_comment' lx_skip_block_comment.
Proof. unfold lx_skip_block_comment', lx_skip_block_comment. apply er_bind; [auto with er|]. intros _ r. apply er_block_comment_from. Qed.
#[local] Hint Resolve er_lx_skip_block_comment : er.

Lemma er_lx_end : forall (start : posn) (v : token_data), erases (lx_end' start v) (lx_end start v).
Proof. er @lx_end' @lx_end. Qed.
#[local] Hint Resolve er_lx_end : er.

Lemma er_lx_read_digit_into : forall (s : str) (radix : N) (pred : N -> bool) (missing : lex_error), erases (lx_read_digit_into' s radix pred missing) (lx_read_digit_into s radix pred missing).
Proof. er @lx_read_digit_into' @lx_read_digit_into. Qed.
#[local] Hint Resolve er_lx_read_digit_into : er.

Lemma er_lx_read_hex_digit_into : forall (s : str), erases (lx_read_hex_digit_into' s) (lx_read_hex_digit_into s).
Proof. er @lx_read_hex_digit_into' @lx_read_hex_digit_into. Qed.
#[local] Hint Resolve er_lx_read_hex_digit_into : er.

Lemma er_lx_read_hex_digits : forall (n : nat) (code place : N) (s : str), erases (lx_read_hex_digits' n code place s) (lx_read_hex_digits n code place s).
Proof. induction n as [|n IH]; intros; cbn [lx_read_hex_digits' lx_read_hex_digits]; ers. Qed.
#[local] Hint Resolve er_lx_read_hex_digits : er.

Lemma er_lx_read_unicode_escape_seq : forall (s : str), erases (lx_read_unicode_escape_seq' V s) (lx_read_unicode_escape_seq V s).
Proof. er @lx_read_unicode_escape_seq' @lx_read_unicode_escape_seq. Qed.
#[local] Hint Resolve er_lx_read_unicode_escape_seq : er.

Lemma er_lx_read_octal : forall (n : nat) (code : N) (source : str), erases (lx_read_octal' n code source) (lx_read_octal n code source).
Proof. induction n as [|n IH]; intros; cbn [lx_read_octal' lx_read_octal]; ers. Qed.
#[local] Hint Resolve er_lx_read_octal : er.

Lemma er_lx_read_string_escape : forall (source value : str), erases (lx_read_string_escape' V source value) (lx_read_string_escape V source value).
Proof. er @lx_read_string_escape' @lx_read_string_escape. Qed.
#[local] Hint Resolve er_lx_read_string_escape : er.

Lemma er_lx_read_string : erases (lx_read_string' V ) (lx_read_string V ).
Proof. er @lx_read_string' @lx_read_string. Qed.
#[local] Hint Resolve er_lx_read_string : er.

Lemma er_lx_read_word_escape : forall (w : word), erases (lx_read_word_escape' V w) (lx_read_word_escape V w).
Proof. er @lx_read_word_escape' @lx_read_word_escape. Qed.
#[local] Hint Resolve er_lx_read_word_escape : er.

Lemma er_lx_read_word_parts : erases (lx_read_word_parts' V ) (lx_read_word_parts V ).
Proof. er @lx_read_word_parts' @lx_read_word_parts. Qed.
#[local] Hint Resolve er_lx_read_word_parts : er.

Lemma er_lx_read_word : erases (lx_read_word' V ) (lx_read_word V ).
Proof. er @lx_read_word' @lx_read_word. Qed.
#[local] Hint Resolve er_lx_read_word : er.

Lemma er_lx_read_regexp_backslash : forall (s : str), erases (lx_read_regexp_backslash' s) (lx_read_regexp_backslash s).
Proof. er @lx_read_regexp_backslash' @lx_read_regexp_backslash. Qed.
#[local] Hint Resolve er_lx_read_regexp_backslash : er.

Lemma er_lx_read_regexp_class_char : forall (s : str), erases (lx_read_regexp_class_char' s) (lx_read_regexp_class_char s).
Proof. er @lx_read_regexp_class_char' @lx_read_regexp_class_char. Qed.
#[local] Hint Resolve er_lx_read_regexp_class_char : er.

Lemma er_lx_read_regexp_class : forall (s : str), erases (lx_read_regexp_class' s) (lx_read_regexp_class s).
Proof. er @lx_read_regexp_class' @lx_read_regexp_class. Qed.
#[local] Hint Resolve er_lx_read_regexp_class : er.

Lemma er_lx_read_regexp_char : forall (s : str), erases (lx_read_regexp_char' s) (lx_read_regexp_char s).
Proof. er @lx_read_regexp_char' @lx_read_regexp_char. Qed.
#[local] Hint Resolve er_lx_read_regexp_char : er.

Lemma er_lx_read_regexp : erases (lx_read_regexp' V ) (lx_read_regexp V ).
Proof. er @lx_read_regexp' @lx_read_regexp. Qed.
#[local] Hint Resolve er_lx_read_regexp : er.

Lemma er_lx_read_decimal_digits : erases (lx_read_decimal_digits' ) (lx_read_decimal_digits ).
Proof. er @lx_read_decimal_digits' @lx_read_decimal_digits. Qed.
#[local] Hint Resolve er_lx_read_decimal_digits : er.

Lemma er_lx_read_exp_part : erases (lx_read_exp_part' ) (lx_read_exp_part ).
Proof. er @lx_read_exp_part' @lx_read_exp_part. Qed.
#[local] Hint Resolve er_lx_read_exp_part : er.

Lemma er_lx_number_token : forall (start : posn) (src : number_source), erases (lx_number_token' start src) (lx_number_token start src).
Proof. er @lx_number_token' @lx_number_token. Qed.
#[local] Hint Resolve er_lx_number_token : er.

Lemma er_lx_read_radix_int : forall (radix : N) (pred : N -> bool) (cons : char_case -> str -> number_source)
    (missing : lex_error), erases (lx_read_radix_int' radix pred cons missing) (lx_read_radix_int radix pred cons missing).
Proof. er @lx_read_radix_int' @lx_read_radix_int. Qed.
#[local] Hint Resolve er_lx_read_radix_int : er.

Lemma er_lx_read_hex_int : erases (lx_read_hex_int' ) (lx_read_hex_int ).
Proof. er @lx_read_hex_int' @lx_read_hex_int. Qed.
#[local] Hint Resolve er_lx_read_hex_int : er.

Lemma er_lx_read_oct_int : erases (lx_read_oct_int' ) (lx_read_oct_int ).
Proof. er @lx_read_oct_int' @lx_read_oct_int. Qed.
#[local] Hint Resolve er_lx_read_oct_int : er.

Lemma er_lx_read_bin_int : erases (lx_read_bin_int' ) (lx_read_bin_int ).
Proof. er @lx_read_bin_int' @lx_read_bin_int. Qed.
#[local] Hint Resolve er_lx_read_bin_int : er.

Lemma er_lx_read_decimal : forall (ch : N), erases (lx_read_decimal' ch) (lx_read_decimal ch).
Proof. er @lx_read_decimal' @lx_read_decimal. Qed.
#[local] Hint Resolve er_lx_read_decimal : er.

Lemma er_lx_read_number : erases (lx_read_number' V ) (lx_read_number V ).
Proof. er @lx_read_number' @lx_read_number. Qed.
#[local] Hint Resolve er_lx_read_number : er.

Lemma er_lx_read_punc_n : forall (n : nat) (v : punc), erases (lx_read_punc_n' n v) (lx_read_punc_n n v).
Proof. er @lx_read_punc_n' @lx_read_punc_n. Qed.
#[local] Hint Resolve er_lx_read_punc_n : er.

Lemma er_lx_read_punc2_3 : forall (ch : N) (v2 v3 : punc), erases (lx_read_punc2_3' ch v2 v3) (lx_read_punc2_3 ch v2 v3).
Proof. er @lx_read_punc2_3' @lx_read_punc2_3. Qed.
#[local] Hint Resolve er_lx_read_punc2_3 : er.

Lemma er_lx_read_rshift : erases (lx_read_rshift' ) (lx_read_rshift ).
Proof. er @lx_read_rshift' @lx_read_rshift. Qed.
#[local] Hint Resolve er_lx_read_rshift : er.

Lemma er_lx_read_token_at : forall (operator : bool), erases (lx_read_token_at' V operator) (lx_read_token_at V operator).
Proof. er @lx_read_token_at' @lx_read_token_at. Qed.
#[local] Hint Resolve er_lx_read_token_at : er.

Lemma er_lx_trivia_step : forall (a : bool * bool), erases (lx_trivia_step' a) (lx_trivia_step a).
Proof. er @lx_trivia_step' @lx_trivia_step. Qed.
#[local] Hint Resolve er_lx_trivia_step : er.

End WithEnv.

(** ** The lexer object *)

Section Object.
Context (V : env).
Lemma er_lift {A} (m' : LM' A) m : erases m' m -> erases (lift_rd' m') (lift_rd m).
Proof. intros h x. unfold lift_rd', lift_rd. rewrite <- (h (lx_rd x)). now destruct (m' (lx_rd x)) as [[a r]|[e r]|k|]. Qed.

Definition trivia_body (found : bool) : XM' (bool + bool) :=
  empty <- gets lx_empty_line ;;
  s <- lift_rd' (lx_trivia_step' (found, empty)) ;;
  match s with
  | inl (found, empty) => set_empty_line empty ;;; ret (inl found)
  | inr (found, empty) => set_empty_line empty ;;; ret (inr found)
  end.
Lemma er_trivia_loop n : forall found x, forget (loopM n trivia_body found x)
  = match loopM n lx_trivia_step (found, lx_empty_line x) (lx_rd x) with
    | Ok ((f, e), r) => Ok (f, Lexer r (lx_ahead x) e)
    | Err e => Err e | Panic k => Panic k | NoFuel => NoFuel
    end.
Proof.
  induction n as [|n IH]; intros found x; [reflexivity|]. cbn [loopM]. unfold trivia_body at 1.
  unfold bind, gets, lift_rd'.
  rewrite <- (er_lx_trivia_step (found, lx_empty_line x) (lx_rd x)).
  destruct (lx_trivia_step' (found, lx_empty_line x) (lx_rd x)) as [[[[f e]|[f e]] r]|[e r]|k|]; cbn [forget]; try reflexivity.
  unfold set_empty_line, modify, ret. cbn [lx_rd lx_ahead lx_empty_line].
  exact (IH f (Lexer r (lx_ahead x) e)).
Qed.
Lemma er_trivia x : forget (trivia' x)
  = match lx_trivia (lx_empty_line x) (lx_rd x) with
    | Ok ((f, e), r) => Ok (f, Lexer r (lx_ahead x) e)
    | Err e => Err e | Panic k => Panic k | NoFuel => NoFuel
    end.
Proof. exact (er_trivia_loop (S (length (rest (lx_rd x)))) false x). Qed.
Lemma er_read_next_token op : erases (read_next_token' V op) (read_next_token V op).
Proof.
  intros x. unfold read_next_token', read_next_token. unfold gets, set_empty_line, modify, bind.
  unfold lift_rd at 1. pose proof (er_trivia x) as T. destruct (trivia' x) as [[f x1]|[e x1]|k|]; cbn [forget] in T;
    destruct (lx_trivia (lx_empty_line x) (lx_rd x)) as [[[f0 e0] r0]|e0|k0|]; try discriminate T; try reflexivity; injection T; intros; subst; try reflexivity.
  cbn [lx_rd lx_ahead lx_empty_line].
  rewrite <- (er_lift _ _ (er_lx_read_token_at V op)).
  now destruct (lift_rd' (lx_read_token_at' V op) _) as [[t x2]|[e x2]|k|].
Qed.
Lemma er_read_token op : erases (read_token' V op) (read_token V op).
Proof.
  unfold read_token', read_token. apply er_bind; [apply er_gets|]. intros [|t la]; [apply er_read_next_token|].
  apply er_bind; [apply er_modify|]. intros _. apply er_ret.
Qed.
Lemma er_peek_token op : erases (peek_token' V op) (peek_token V op).
Proof.
  unfold peek_token', peek_token. apply er_bind; [apply er_gets|]. intros [|t la]; [|apply er_ret].
  apply er_bind; [apply er_read_next_token|]. intros t. apply er_bind; [apply er_modify|]. intros _. apply er_ret.
Qed.
Lemma er_skip_token op : erases (skip_token' V op) (skip_token V op).
Proof. unfold skip_token', skip_token. apply er_bind; [apply er_read_token|]. intros _. apply er_ret. Qed.
End Object.
