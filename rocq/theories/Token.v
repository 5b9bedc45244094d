(** Tokens and literals.  Models joker/src/token.rs and joker/src/error.rs. *)
From Coq Require Import String Ascii List NArith ZArith Bool.
From Verif Require Import Base Chars F64 Word.
Import ListNotations.
Open Scope N_scope.

(** joker/src/token.rs:264-267 *)
Inductive char_case : Type := LowerCase | UpperCase.

(** joker/src/token.rs:271-277 *)
Inductive sign : Type := Plus | Minus.

(** joker/src/token.rs:240-244 *)
Record exp : Type := Exp { exp_e : char_case; exp_sign : option sign; exp_value : str }.

(** joker/src/token.rs:247-251 *)
Inductive radix : Type :=
| Bin (cc : char_case)
| Oct (cc : option char_case)
| Hex (cc : char_case).

(** joker/src/token.rs:254-260 *)
Definition radix_value (r : radix) : N :=
  match r with Bin _ => 2 | Oct _ => 8 | Hex _ => 16 end.

(** joker/src/token.rs:184-188 *)
Inductive number_source : Type :=
| DecimalInt (mantissa : str) (e : option exp)
| RadixInt (r : radix) (src : str)
| Float (ip fp : option str) (e : option exp).

(** joker/src/token.rs:197-202 [format_int] *)
Definition format_int (s : option str) : str :=
  match s with None => [] | Some s => s end.

(** joker/src/token.rs:190-195 [format_sign]: whether a minus sign is printed *)
Definition is_minus (s : option sign) : bool :=
  match s with Some Minus => true | _ => false end.

(** joker/src/token.rs:217-219: fold the digits with [mul_add]; [None] is the
    panic of [to_digit(radix).unwrap()]. *)
Fixpoint radix_fold (base : N) (src : str) (acc : f64) : option f64 :=
  match src with
  | [] => Some acc
  | c :: src' =>
      match to_digit c base with
      | Some d => radix_fold base src' (fma_nat acc base d)
      | None => None
      end
  end.

(** joker/src/token.rs:205-228 [NumberSource::value].  The text handed to
    [str::parse] is kept as its parts (see [parse_f64]); [None] is a panic of one
    of the [unwrap]s. *)
Definition number_value (s : number_source) : option f64 :=
  match s with
  | DecimalInt m None => parse_f64 m [] false []
  | DecimalInt m (Some e) => parse_f64 m [] (is_minus (exp_sign e)) (exp_value e)
  | RadixInt r src => radix_fold (radix_value r) src (FFin false 0 0)
  | Float ip fp None => parse_f64 (format_int ip) (format_int fp) false []
  | Float ip fp (Some e) =>
      parse_f64 (format_int ip) (format_int fp) (is_minus (exp_sign e)) (exp_value e)
  end.

(** joker/src/token.rs:160-163 *)
Record number_literal : Type := NumberLiteral {
  num_source : option number_source; num_value : f64 }.

(** joker/src/token.rs:136-139 *)
Record string_literal : Type := StringLiteral {
  str_source : option str; str_value : str }.

(** joker/src/token.rs:98-101 *)
Record regexp_literal : Type := RegExpLiteral {
  re_pattern : str; re_flags : str }.

(** Insertion sort, for std [Vec::sort] (only its result matters). *)
Fixpoint insert_sorted (c : N) (l : str) : str :=
  match l with
  | [] => [c]
  | d :: l' => if c <=? d then c :: l else d :: insert_sorted c l'
  end.
(** joker/src/token.rs:112-116 [alphabetize] *)
Fixpoint alphabetize (l : str) : str :=
  match l with [] => [] | c :: l' => insert_sorted c (alphabetize l') end.

(** joker/src/token.rs:177-181, 153-157, 128-133: hand-written [PartialEq]s *)
Definition number_literal_eqb (a b : number_literal) : bool :=
  f64_eqb (num_value a) (num_value b).
Definition string_literal_eqb (a b : string_literal) : bool :=
  str_eqb (str_value a) (str_value b).
Definition regexp_literal_eqb (a b : regexp_literal) : bool :=
  str_eqb (re_pattern a) (re_pattern b)
  && str_eqb (alphabetize (re_flags a)) (alphabetize (re_flags b)).

(** joker/src/token.rs:27-77,85: the token kinds without data.  [TokenData] is
    represented as this enumeration plus the five kinds that carry data. *)
Inductive punc : Type :=
| T_LBrace
| T_RBrace
| T_LParen
| T_RParen
| T_LBrack
| T_RBrack
| T_Dot
| T_Ellipsis
| T_Semi
| T_Comma
| T_LAngle
| T_RAngle
| T_LEq
| T_GEq
| T_Eq
| T_NEq
| T_StrictEq
| T_StrictNEq
| T_Plus
| T_Minus
| T_Star
| T_Mod
| T_Slash
| T_Inc
| T_Dec
| T_LShift
| T_RShift
| T_URShift
| T_BitAnd
| T_BitOr
| T_BitXor
| T_Bang
| T_Tilde
| T_LogicalAnd
| T_LogicalOr
| T_Question
| T_Colon
| T_Assign
| T_PlusAssign
| T_MinusAssign
| T_StarAssign
| T_SlashAssign
| T_ModAssign
| T_LShiftAssign
| T_RShiftAssign
| T_URShiftAssign
| T_BitAndAssign
| T_BitOrAssign
| T_BitXorAssign
| T_Arrow
| T_EOF.

Scheme Equality for punc.
Definition punc_eqb := punc_beq.

(** joker/src/token.rs:24-86 *)
Inductive token_data : Type :=
| TReserved (r : reserved)
| TPunc (p : punc)
| TNumber (n : number_literal)
| TString (s : string_literal)
| TRegExp (r : regexp_literal)
| TIdent (n : name).

(** joker/src/token.rs:23 derived [PartialEq] of [TokenData] *)
Definition td_eqb (a b : token_data) : bool :=
  match a, b with
  | TReserved x, TReserved y => reserved_eqb x y
  | TPunc x, TPunc y => punc_eqb x y
  | TNumber x, TNumber y => number_literal_eqb x y
  | TString x, TString y => string_literal_eqb x y
  | TRegExp x, TRegExp y => regexp_literal_eqb x y
  | TIdent x, TIdent y => name_eqb x y
  | _, _ => false
  end.

(** joker/src/token.rs:89-94 [TokenData::is_string] *)
Definition td_is_string (t : token_data) : bool :=
  match t with TString _ => true | _ => false end.

(** joker/src/token.rs:7-11 *)
Record token : Type := Token {
  tk_loc : span; tk_newline : bool; tk_value : token_data }.

(** joker/src/token.rs:14-20 [Token::new] *)
Definition token_new (s e : posn) (v : token_data) : token := Token (Span s e) false v.

(** joker/src/error.rs:7-22 *)
Inductive lex_error : Type :=
| IncompleteWordEscape (c : option N)
| UnterminatedComment
| UnterminatedRegExp (c : option N)
| MissingExponent (c : option N)
| UnterminatedString (c : option N)
| MissingBinaryDigits
| MissingOctalDigits
| MissingHexDigits
| IllegalChar (c : N)
| InvalidDigit (c : N)
| IllegalUnicode (u : N)
| IdAfterNumber (c : N)
| DigitAfterNumber (c : N)
| ReservedWordWithEscapes (r : reserved).

(** joker/src/word.rs:297-306 [Map::tokenize] *)
Definition tokenize (w : word) : lex_error + token_data :=
  match assoc reserved_table (text w) with
  | Some r =>
      if negb (had_escape w) then inr (TReserved r)
      else inl (ReservedWordWithEscapes r)
  | None =>
      match assoc contextual_table (text w) with
      | Some a =>
          if negb (had_escape w) then inr (TIdent (NAtom a))
          else inr (TIdent (NString (text w)))
      | None => inr (TIdent (NString (text w)))
      end
  end.
