(** The lexer again, with the state in which an error leaves it, for clients that go on
    reading after an error.

    The definitions up to [lx_trivia_step'] are those of Lexer.v, word for word except that
    their names end in a prime and that an error carries the reader as the code leaves it.
    The code detects every error by peeking and consumes nothing before it returns it.
    ResumeErase.v proves that forgetting the state gives the definitions of Lexer.v back. *)
From Coq Require Import String Ascii List NArith Bool.
From Verif Require Import Base Chars F64 Word Token Reader Lexer.
Import ListNotations.
Open Scope N_scope.

(** Computations on the reader whose errors carry the reader. *)
Definition LM' (A : Type) : Type := M rd (lex_error * rd) A.
(** [return Err(e)] *)
Definition err' {A} (e : lex_error) : LM' A := fun r => Err (e, r).

(** joker/src/lexer.rs:92-94 [posn], 96-98 [start] *)
Definition lx_posn' : LM' posn := gets pos.
(** joker/src/lexer.rs:102-104 [read] *)
Definition lx_read' : LM' N :=
  fun r => match rest r with
           | [] => Panic P_read_eof
           | c :: l => Ok (c, Rd l (advance (pos r) c (hd_error l)))
           end.
(** joker/src/lexer.rs:112-114 [peek]; 116-118 [peek2] uses also [peek_at 1] *)
Definition lx_peek' : LM' (option N) := gets (fun r => hd_error (rest r)).
Definition lx_peek_at' (n : nat) : LM' (option N) := gets (fun r => nth_error (rest r) n).
(** joker/src/lexer.rs:120-122 [skip]; 124-127 [skip2] *)
Definition lx_skip' : LM' unit := lx_read' ;;; ret tt.
Definition lx_skip2' : LM' unit := lx_skip' ;;; lx_skip'.
(** joker/src/lexer.rs:106-110 [reread].  At end of input the assertion fails in a
    checked build and [skip] panics in an unchecked one; a mismatch would fail only
    the assertion (LexerProofs.v: this never happens). *)
Definition lx_reread' (ch : N) : LM' N :=
  c <- lx_peek' ;;
  match c with
  | None => panic_at P_read_eof
  | Some c => if c =? ch then lx_skip' ;;; ret ch else panic_at P_assert
  end.
(** joker/src/lexer.rs:129-131 [matches] *)
Definition lx_matches' (ch : N) : LM' bool :=
  c <- lx_peek' ;;
  if is_c c ch then lx_skip' ;;; ret true else ret false.
Definition lx_skip_until' (pred : N -> bool) : LM' unit :=
  modify (fun r => skip_until_from pred (rest r) (pos r)).
(** joker/src/lexer.rs:133-137 [skip_while] *)
Definition lx_skip_while' (pred : N -> bool) : LM' unit := lx_skip_until' (fun c => negb (pred c)).
Definition lx_read_until' (pred : N -> bool) : LM' str :=
  fun r => Ok (read_until_from pred (rest r) (pos r)).
(** joker/src/lexer.rs:164-178 [read_into2_until]: the same text is appended to
    both strings *)
Definition lx_read_into2_until' (s1 s2 : str) (pred : N -> bool) : LM' (str * str) :=
  s <- lx_read_until' pred ;;
  ret (s1 ++ s, s2 ++ s).
(** joker/src/lexer.rs:180-191 [read_until_with]; the closure's captured state is
    the accumulator [a]. *)
Definition lx_read_until_with' {A} (pred : N -> bool) (read : A -> LM' A) (a : A) : LM' A :=
  fun r =>
    loopM (S (length (rest r)))
      (fun a =>
         c <- lx_peek' ;;
         match c with
         | Some ch => if pred ch then ret (inr a) else a' <- read a ;; ret (inl a')
         | None => ret (inr a)
         end) a r.
Definition lx_skip_newlines' : LM' unit :=
  c <- lx_peek' ;;
  match c with
  | Some ch =>
      if is_es_newline ch then modify (fun r => skip_newlines_from (rest r) (pos r))
      else panic_at P_assert
  | None => panic_at P_assert
  end.
(** joker/src/lexer.rs:206-214 [read_newline_into]; returns what is appended *)
Definition lx_read_newline' : LM' str :=
  c <- lx_peek' ;; c2 <- lx_peek_at' 1 ;;
  match c with
  | Some ch =>
      if is_es_newline ch then
        if (ch =? 13) && is_c c2 10 then lx_skip2' ;;; ret [13; 10]
        else x <- lx_read' ;; ret [x]
      else panic_at P_assert
  | None => panic_at P_assert
  end.
(** joker/src/lexer.rs:216-218 *)
Definition lx_skip_whitespace' : LM' unit := lx_skip_while' is_es_whitespace.
(** joker/src/lexer.rs:220-225 *)
Fixpoint lx_skip_n' (n : nat) : LM' unit :=
  match n with O => ret tt | S n' => lx_skip' ;;; lx_skip_n' n' end.
Definition lx_skip_line_comment' (prefix_len : nat) : LM' unit :=
  lx_skip_n' prefix_len ;;; lx_skip_until' is_es_newline.
(** joker/src/lexer.rs:227-244 [skip_block_comment]: the loop *)
Fixpoint block_comment_from' (l : str) (p : posn) (found : bool) : res (lex_error * rd) (bool * rd) :=
  match l with
  | [] => Err (UnterminatedComment, Rd l p)
  | c :: l' =>
      match l' with
      | [] => Err (UnterminatedComment, Rd l p)
      | c2 :: l'' =>
          if (c =? chr "*") && (c2 =? chr "/")
          then Ok (found, Rd l'' (advance (advance p c (Some c2)) c2 (hd_error l'')))
          else block_comment_from' l' (advance p c (Some c2)) (is_es_newline c || found)
      end
  end.
Definition lx_skip_block_comment' : LM' bool :=
  lx_skip2' ;;; fun r => block_comment_from' (rest r) (pos r) false.
(** joker/src/lexer.rs:28-33 [SpanTracker::end] *)
Definition lx_end' (start : posn) (v : token_data) : LM' token :=
  e <- lx_posn' ;; ret (token_new start e v).
(** joker/src/lexer.rs:508-520 [read_digit_into]; returns the digit value and the
    extended string *)
Definition lx_read_digit_into' (s : str) (radix : N) (pred : N -> bool) (missing : lex_error)
  : LM' (N * str) :=
  c <- lx_peek' ;;
  match c with
  | Some ch =>
      if pred ch then
        lx_reread' ch ;;;
        match to_digit ch radix with
        | Some d => ret (d, s ++ [ch])
        | None => panic_at P_assert
        end
      else err' (InvalidDigit ch)
  | None => err' missing
  end.
(** joker/src/lexer.rs:522-524 *)
Definition lx_read_hex_digit_into' (s : str) : LM' (N * str) :=
  lx_read_digit_into' s 16 is_es_hex_digit MissingHexDigits.
Section WithEnv.
Context (V : env).
(** joker/src/lexer.rs:454-461: the four-digit form; [n] digits remain *)
Fixpoint lx_read_hex_digits' (n : nat) (code place : N) (s : str) : LM' (N * str) :=
  match n with
  | O => ret (code, s)
  | S n' =>
      '(d, s') <- lx_read_hex_digit_into' s ;;
      lx_read_hex_digits' n' (code + d * place) (N.shiftr place 4) s'
  end.
(** joker/src/lexer.rs:442-462 [read_unicode_escape_seq] *)
Definition lx_read_unicode_escape_seq' (s : str) : LM' (N * str) :=
  m <- lx_matches' (chr "{") ;;
  if m then
    '(d, s1) <- lx_read_hex_digit_into' (s ++ [chr "{"]) ;;
    '(digits, s2) <-
      lx_read_until_with' (fun ch => ch =? chr "}")
        (fun '(ds, s) => '(d, s') <- lx_read_hex_digit_into' s ;; ret (ds ++ [d], s'))
        ([d], s1) ;;
    c <- lx_reread' (chr "}") ;;
    match add_digits V digits 16 with
    | Some code => ret (code, s2 ++ [c])
    | None => panic_at P_overflow
    end
  else lx_read_hex_digits' 4 0 4096 s.
(** joker/src/lexer.rs:468-481: the loop over octal digits; [n] iterations remain *)
Fixpoint lx_read_octal' (n : nat) (code : N) (source : str) : LM' (N * str) :=
  match n with
  | O => ret (code, source)
  | S n' =>
      c <- lx_peek' ;;
      match c with
      | Some ch =>
          if is_es_oct_digit ch then
            match to_digit ch 8 with
            | Some d =>
                let new_code := N.shiftl code 3 + d in
                if 255 <? new_code then ret (code, source)
                else
                  x <- lx_reread' ch ;;
                  lx_read_octal' n' new_code (source ++ [x])
            | None => panic_at P_unwrap
            end
          else ret (code, source)
      | None => ret (code, source)
      end
  end.
(** joker/src/lexer.rs:464-506 [read_string_escape]; the two strings are passed in
    and the extended ones returned *)
Definition lx_read_string_escape' (source value : str) : LM' (str * str) :=
  b <- lx_reread' (chr "\") ;;
  let source := source ++ [b] in
  c <- lx_peek' ;;
  match c with
  | Some ch =>
      if is_es_oct_digit ch then
        '(code, source) <- lx_read_octal' 3 0 source ;;
        ret (source, value ++ [from_u32_or_q code])
      else if ch =? chr "x" then
        x <- lx_reread' (chr "x") ;;
        '(d1, source) <- lx_read_hex_digit_into' (source ++ [x]) ;;
        '(d2, source) <- lx_read_hex_digit_into' source ;;
        ret (source, value ++ [from_u32_or_q (N.shiftl d1 4 + d2)])
      else if ch =? chr "u" then
        x <- lx_reread' (chr "u") ;;
        '(code, source) <- lx_read_unicode_escape_seq' (source ++ [x]) ;;
        ret (source, value ++ [from_u32_or_q code])
      else if is_es_newline ch then
        nl <- lx_read_newline' ;;
        ret (source ++ nl, value)
      else
        x <- lx_reread' ch ;;
        ret (source ++ [x], value ++ [unescape ch])
  | None => ret (source, value)
  end.
(** joker/src/lexer.rs:408-440 [read_string] *)
Definition lx_read_string' : LM' token :=
  start <- lx_posn' ;;
  quote <- lx_read' ;;
  '(source, value) <-
    (fun r =>
       loopM (S (length (rest r)))
         (fun '(source, value) =>
            '(source, value) <- lx_read_into2_until' source value
               (fun ch => (ch =? quote) || (ch =? chr "\") || is_es_newline ch) ;;
            c <- lx_peek' ;;
            match c with
            | Some ch =>
                if ch =? chr "\" then
                  sv <- lx_read_string_escape' source value ;; ret (inl sv)
                else if is_es_newline ch then err' (UnterminatedString (Some ch))
                else lx_skip' ;;; ret (inr (source ++ [quote], value))
            | None => err' (UnterminatedString None)
            end)
         ([quote], []) r) ;;
  lx_end' start (TString (StringLiteral (Some source) value)).
(** joker/src/lexer.rs:545-557 [read_word_escape] (the backslash has been read) *)
Definition lx_read_word_escape' (w : word) : LM' word :=
  c <- lx_peek' ;;
  if is_c c (chr "u") then
    lx_reread' (chr "u") ;;;
    '(code, _) <- lx_read_unicode_escape_seq' [] ;;
    match from_u32 code with
    | Some ch => ret (Word true (text w ++ [ch]))
    | None => err' (IllegalUnicode code)
    end
  else err' (IncompleteWordEscape c).
(** joker/src/lexer.rs:526-535 [read_word_parts] *)
Definition lx_read_word_parts' : LM' word :=
  lx_read_until_with'
    (fun ch => negb (ch =? chr "\") && negb (is_es_identifier_continue V ch))
    (fun w =>
       c <- lx_read' ;;
       if c =? chr "\" then lx_read_word_escape' w
       else ret (Word (had_escape w) (text w ++ [c])))
    (Word false []).
(** joker/src/lexer.rs:537-543 [read_word] *)
Definition lx_read_word' : LM' token :=
  c <- lx_peek' ;;
  match c with
  | Some ch =>
      if (ch =? chr "\") || is_es_identifier_start V ch then
        start <- lx_posn' ;;
        w <- lx_read_word_parts' ;;
        match text w with
        | [] => panic_at P_assert
        | _ :: _ =>
            match tokenize w with
            | inr td => lx_end' start td
            | inl e => err' e
            end
        end
      else panic_at P_assert
  | None => panic_at P_assert
  end.
(** joker/src/lexer.rs:269-276 [read_regexp_backslash] *)
Definition lx_read_regexp_backslash' (s : str) : LM' str :=
  b <- lx_reread' (chr "\") ;;
  c <- lx_peek' ;;
  match c with
  | Some ch =>
      if is_es_newline ch then err' (UnterminatedRegExp (Some ch))
      else x <- lx_reread' ch ;; ret (s ++ [b; x])
  | None => err' (UnterminatedRegExp None)
  end.
(** joker/src/lexer.rs:285-291 [read_regexp_class_char] *)
Definition lx_read_regexp_class_char' (s : str) : LM' str :=
  c <- lx_peek' ;;
  match c with
  | Some ch =>
      if ch =? chr "\" then lx_read_regexp_backslash' s
      else x <- lx_reread' ch ;; ret (s ++ [x])
  | None => err' (UnterminatedRegExp None)
  end.
(** joker/src/lexer.rs:278-283 [read_regexp_class] *)
Definition lx_read_regexp_class' (s : str) : LM' str :=
  b <- lx_reread' (chr "[") ;;
  s <- lx_read_until_with' (fun ch => ch =? chr "]") lx_read_regexp_class_char' (s ++ [b]) ;;
  e <- lx_reread' (chr "]") ;;
  ret (s ++ [e]).
(** joker/src/lexer.rs:259-267 [read_regexp_char] *)
Definition lx_read_regexp_char' (s : str) : LM' str :=
  c <- lx_peek' ;;
  match c with
  | Some ch =>
      if ch =? chr "\" then lx_read_regexp_backslash' s
      else if ch =? chr "[" then lx_read_regexp_class' s
      else if is_es_newline ch then err' (UnterminatedRegExp (Some ch))
      else x <- lx_reread' ch ;; ret (s ++ [x])
  | None => err' (UnterminatedRegExp None)
  end.
(** joker/src/lexer.rs:246-257 [read_regexp] *)
Definition lx_read_regexp' : LM' token :=
  start <- lx_posn' ;;
  lx_reread' (chr "/") ;;;
  s <- lx_read_until_with' (fun ch => ch =? chr "/") lx_read_regexp_char' [] ;;
  lx_reread' (chr "/") ;;;
  flags <- lx_read_word_parts' ;;
  lx_end' start (TRegExp (RegExpLiteral s (text flags))).
(** joker/src/lexer.rs:293-297 [read_decimal_digits]; 319-323 [read_decimal_int] *)
Definition lx_read_decimal_digits' : LM' str := lx_read_until' (fun ch => negb (is_es_dec_digit ch)).
(** joker/src/lexer.rs:299-317 [read_exp_part] *)
Definition lx_read_exp_part' : LM' (option exp) :=
  c <- lx_peek' ;;
  let go (e : char_case) : LM' (option exp) :=
    lx_skip' ;;;
    c <- lx_peek' ;;
    sg <- (if is_c c (chr "+") then lx_skip' ;;; ret (Some Plus)
           else if is_c c (chr "-") then lx_skip' ;;; ret (Some Minus)
           else ret None) ;;
    c <- lx_peek' ;;
    match c with
    | Some ch =>
        if negb (is_es_dec_digit ch) then err' (MissingExponent (Some ch))
        else v <- lx_read_decimal_digits' ;; ret (Some (Exp e sg v))
    | None => err' (MissingExponent None)
    end in
  if is_c c (chr "e") then go LowerCase
  else if is_c c (chr "E") then go UpperCase
  else ret None.
(** joker/src/token.rs:230-236 [into_token_data] *)
Definition lx_number_token' (start : posn) (src : number_source) : LM' token :=
  match number_value src with
  | Some v => lx_end' start (TNumber (NumberLiteral (Some src) v))
  | None => panic_at P_unwrap
  end.
(** joker/src/lexer.rs:325-342 [read_radix_int] *)
Definition lx_read_radix_int' (radix : N) (pred : N -> bool) (cons : char_case -> str -> number_source)
    (missing : lex_error) : LM' token :=
  c <- lx_peek' ;; c2 <- lx_peek_at' 1 ;;
  if is_c c (chr "0") && match c2 with Some ch => is_alphabetic ch | None => false end then
    start <- lx_posn' ;;
    lx_skip' ;;;
    f <- lx_read' ;;
    let flag := if is_lowercase f then LowerCase else UpperCase in
    '(_, s) <- lx_read_digit_into' [] radix pred missing ;;
    s2 <- lx_read_until' (fun ch => negb (pred ch)) ;;
    lx_number_token' start (cons flag (s ++ s2))
  else panic_at P_assert.
(** joker/src/lexer.rs:344-360 *)
Definition lx_read_hex_int' : LM' token :=
  lx_read_radix_int' 16 is_es_hex_digit (fun cc s => RadixInt (Hex cc) s) MissingHexDigits.
Definition lx_read_oct_int' : LM' token :=
  lx_read_radix_int' 8 is_es_oct_digit (fun cc s => RadixInt (Oct (Some cc)) s) MissingOctalDigits.
Definition lx_read_bin_int' : LM' token :=
  lx_read_radix_int' 2 is_es_bin_digit (fun cc s => RadixInt (Bin cc) s) MissingBinaryDigits.
(** joker/src/lexer.rs:374-397: decimal and legacy octal integers, floats with an integer part *)
Definition lx_read_decimal' (ch : N) : LM' token :=
  if is_es_dec_digit ch then
    start <- lx_posn' ;;
    s <- lx_read_decimal_digits' ;;
    src <-
      (if (ch =? chr "0") && Nat.ltb 1 (length s) && forallb is_es_oct_digit (tl s) then
         ret (RadixInt (Oct None) s)
       else
         dot <- lx_matches' (chr ".") ;;
         frac <- (if dot then
                    c <- lx_peek' ;;
                    match c with
                    | Some ch => if is_es_dec_digit ch then lx_read_decimal_digits' else ret []
                    | None => ret []
                    end
                  else ret []) ;;
         e <- lx_read_exp_part' ;;
         ret (if dot then Float (Some s) (Some frac) e else DecimalInt s e)) ;;
    lx_number_token' start src
  else panic_at P_assert.
(** joker/src/lexer.rs:362-406 [read_number] *)
Definition lx_read_number' : LM' token :=
  c <- lx_peek' ;; c2 <- lx_peek_at' 1 ;;
  result <-
    match c with
    | Some ch =>
        if (ch =? chr "0") && (is_c c2 (chr "x") || is_c c2 (chr "X")) then lx_read_hex_int'
        else if (ch =? chr "0") && (is_c c2 (chr "o") || is_c c2 (chr "O")) then lx_read_oct_int'
        else if (ch =? chr "0") && (is_c c2 (chr "b") || is_c c2 (chr "B")) then lx_read_bin_int'
        else if ch =? chr "." then
          start <- lx_posn' ;;
          lx_skip' ;;;
          frac <- lx_read_decimal_digits' ;;
          e <- lx_read_exp_part' ;;
          lx_number_token' start (Float None (Some frac) e)
        else lx_read_decimal' ch
    | None => panic_at P_assert
    end ;;
  c <- lx_peek' ;;
  match c with
  | Some ch =>
      if is_es_identifier_start V ch then err' (IdAfterNumber ch)
      else if is_es_dec_digit ch then err' (DigitAfterNumber ch)
      else ret result
  | None => ret result
  end.
(** joker/src/lexer.rs:559-576 [read_punc], [read_punc2], [read_punc3] *)
Definition lx_read_punc_n' (n : nat) (v : punc) : LM' token :=
  start <- lx_posn' ;; lx_skip_n' n ;;; lx_end' start (TPunc v).
(** joker/src/lexer.rs:578-583 [read_punc2_3] *)
Definition lx_read_punc2_3' (ch : N) (v2 v3 : punc) : LM' token :=
  start <- lx_posn' ;;
  lx_skip2' ;;;
  m <- lx_matches' ch ;;
  lx_end' start (TPunc (if m then v3 else v2)).
(** joker/src/lexer.rs:652-662: the [>>] family *)
Definition lx_read_rshift' : LM' token :=
  start <- lx_posn' ;;
  lx_skip2' ;;;
  c <- lx_peek' ;; c2 <- lx_peek_at' 1 ;;
  v <- (if is_c c (chr ">") && is_c c2 (chr "=") then lx_skip2' ;;; ret T_URShiftAssign
        else if is_c c (chr ">") then lx_skip' ;;; ret T_URShift
        else if is_c c (chr "=") then lx_skip' ;;; ret T_RShiftAssign
        else ret T_RShift) ;;
  lx_end' start (TPunc v).
(** joker/src/lexer.rs:623-720: the big [match pair], as a chain of tests.  The
    arms that are single characters without longer variants are grouped in
    [punc1_table] (the arms are disjoint, so their order does not matter). *)
Definition lx_read_token_at' (operator : bool) : LM' token :=
  c <- lx_peek' ;; c2 <- lx_peek_at' 1 ;;
  match c with
  | None => here <- lx_posn' ;; ret (token_new here here (TPunc T_EOF))
  | Some ch =>
    if ch =? chr "/" then
      if negb operator then lx_read_regexp'
      else if is_c c2 (chr "=") then lx_read_punc_n' 2 T_SlashAssign
      else lx_read_punc_n' 1 T_Slash
    else if ch =? chr "." then
      if match c2 with Some d => is_es_dec_digit d | None => false end then lx_read_number'
      else if is_c c2 (chr ".") then
        c3 <- lx_peek_at' 2 ;;
        if is_c c3 (chr ".") then lx_read_punc_n' 3 T_Ellipsis
        else lx_read_punc_n' 1 T_Dot
      else lx_read_punc_n' 1 T_Dot
    else match assoc_c punc1_table ch with Some v => lx_read_punc_n' 1 v | None =>
    if ch =? chr "<" then
      if is_c c2 (chr "<") then lx_read_punc2_3' (chr "=") T_LShift T_LShiftAssign
      else if is_c c2 (chr "=") then lx_read_punc_n' 2 T_LEq
      else lx_read_punc_n' 1 T_LAngle
    else if ch =? chr ">" then
      if is_c c2 (chr ">") then lx_read_rshift'
      else if is_c c2 (chr "=") then lx_read_punc_n' 2 T_GEq
      else lx_read_punc_n' 1 T_RAngle
    else if ch =? chr "=" then
      if is_c c2 (chr "=") then lx_read_punc2_3' (chr "=") T_Eq T_StrictEq
      else lx_read_punc_n' 1 T_Assign
    else if ch =? chr "+" then
      if is_c c2 (chr "+") then lx_read_punc_n' 2 T_Inc
      else if is_c c2 (chr "=") then lx_read_punc_n' 2 T_PlusAssign
      else lx_read_punc_n' 1 T_Plus
    else if ch =? chr "-" then
      if is_c c2 (chr "-") then lx_read_punc_n' 2 T_Dec
      else if is_c c2 (chr "=") then lx_read_punc_n' 2 T_MinusAssign
      else lx_read_punc_n' 1 T_Minus
    else if ch =? chr "*" then
      if is_c c2 (chr "=") then lx_read_punc_n' 2 T_StarAssign
      else lx_read_punc_n' 1 T_Star
    else if ch =? chr "%" then
      if is_c c2 (chr "=") then lx_read_punc_n' 2 T_ModAssign
      else lx_read_punc_n' 1 T_Mod
    else if ch =? chr "^" then
      if is_c c2 (chr "=") then lx_read_punc_n' 2 T_BitXorAssign
      else lx_read_punc_n' 1 T_BitXor
    else if ch =? chr "&" then
      if is_c c2 (chr "&") then lx_read_punc_n' 2 T_LogicalAnd
      else if is_c c2 (chr "=") then lx_read_punc_n' 2 T_BitAndAssign
      else lx_read_punc_n' 1 T_BitAnd
    else if ch =? chr "|" then
      if is_c c2 (chr "|") then lx_read_punc_n' 2 T_LogicalOr
      else if is_c c2 (chr "=") then lx_read_punc_n' 2 T_BitOrAssign
      else lx_read_punc_n' 1 T_BitOr
    else if ch =? chr "!" then
      if is_c c2 (chr "=") then lx_read_punc2_3' (chr "=") T_NEq T_StrictNEq
      else lx_read_punc_n' 1 T_Bang
    else if (ch =? 34) || (ch =? 39) then lx_read_string'
    else if is_es_dec_digit ch then lx_read_number'
    else if is_es_identifier_start V ch then lx_read_word'
    else if ch =? chr "\" then lx_read_word'
    else err' (IllegalChar ch)
    end
  end.
(** joker/src/lexer.rs:590-619: one step of the loop that skips whitespace and
    comments; the accumulator is ([found_newline], [empty_line]). *)
Definition lx_trivia_step' (a : bool * bool) : LM' (bool * bool + bool * bool) :=
  let '(found, empty) := a in
  c <- lx_peek' ;; c2 <- lx_peek_at' 1 ;;
  match c with
  | Some ch =>
      if is_es_whitespace ch then lx_skip_whitespace' ;;; ret (inl (found, empty))
      else if is_es_newline ch then lx_skip_newlines' ;;; ret (inl (true, true))
      else if (ch =? chr "/") && is_c c2 (chr "/") then
        lx_skip_line_comment' 2 ;;; ret (inl (found, empty))
      else if (ch =? chr "/") && is_c c2 (chr "*") then
        nl <- lx_skip_block_comment' ;; ret (inl (nl || found, empty))
      else if (ch =? chr "<") && is_c c2 (chr "!") then
        c3 <- lx_peek_at' 2 ;; c4 <- lx_peek_at' 3 ;;
        if is_c c3 (chr "-") && is_c c4 (chr "-") then
          lx_skip_line_comment' 4 ;;; ret (inl (found, empty))
        else ret (inr (found, empty))
      else if (ch =? chr "-") && is_c c2 (chr "-") then
        c3 <- lx_peek_at' 2 ;;
        if empty && is_c c3 (chr ">") then
          lx_skip_line_comment' 3 ;;; ret (inl (found, empty))
        else ret (inr (found, empty))
      else ret (inr (found, empty))
  | None => ret (inr (found, empty))
  end.

(** ** The lexer object *)

Definition XM' (A : Type) : Type := M lexer (lex_error * lexer) A.

Definition lift_rd' {A} (m : LM' A) : XM' A :=
  fun x => match m (lx_rd x) with
           | Ok (a, r) => Ok (a, Lexer r (lx_ahead x) (lx_empty_line x))
           | Err (e, r) => Err (e, Lexer r (lx_ahead x) (lx_empty_line x))
           | Panic k => Panic k
           | NoFuel => NoFuel
           end.

Definition set_empty_line (b : bool) : XM' unit := modify (fun x => Lexer (lx_rd x) (lx_ahead x) b).

(** joker/src/lexer.rs:590-619: the loop that skips whitespace and comments.  Unlike
    [lx_trivia] it keeps [empty_line] in the lexer, where an unterminated comment
    leaves it. *)
Definition trivia' : XM' bool :=
  fun x =>
    loopM (S (length (rest (lx_rd x))))
      (fun found =>
         empty <- gets lx_empty_line ;;
         s <- lift_rd' (lx_trivia_step' (found, empty)) ;;
         match s with
         | inl (found, empty) => set_empty_line empty ;;; ret (inl found)
         | inr (found, empty) => set_empty_line empty ;;; ret (inr found)
         end) false x.

(** joker/src/lexer.rs:585-723 [read_next_token] *)
Definition read_next_token' (operator : bool) : XM' token :=
  found_newline <- trivia' ;;
  set_empty_line false ;;;
  result <- lift_rd' (lx_read_token_at' operator) ;;
  ret (Token (tk_loc result) found_newline (tk_value result)).

(** joker/src/lexer.rs:57-63 [peek_token] *)
Definition peek_token' (operator : bool) : XM' token :=
  la <- gets lx_ahead ;;
  match la with
  | t :: _ => ret t
  | [] =>
      t <- read_next_token' operator ;;
      modify (fun x => Lexer (lx_rd x) [t] (lx_empty_line x)) ;;;
      ret t
  end.

(** joker/src/lexer.rs:78-83 [read_token] *)
Definition read_token' (operator : bool) : XM' token :=
  la <- gets lx_ahead ;;
  match la with
  | t :: la' => modify (fun x => Lexer (lx_rd x) la' (lx_empty_line x)) ;;; ret t
  | [] => read_next_token' operator
  end.

(** joker/src/lexer.rs:69-72 [skip_token] *)
Definition skip_token' (operator : bool) : XM' unit := read_token' operator ;;; ret tt.
End WithEnv.
