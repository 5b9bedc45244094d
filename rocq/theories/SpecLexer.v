(** Specification of the lexical grammar the lexer implements, as relations on
    text.  Independent of the lexer's functions; only the token types and the two
    Unicode tables of [env] are shared with the model. *)
From Coq Require Import String Ascii List NArith ZArith Bool.
From Verif Require Import Base Chars F64 Word Token SpecReader.
Import ListNotations.
Local Open Scope N_scope.

(** ** Characters *)

(** LineTerminator: LF, CR, LS, PS. *)
Definition line_terminator (c : N) : Prop := In c [10; 13; 8232; 8233].
(** WhiteSpace of ECMAScript: TAB, VT, FF, ZWNBSP and general category Zs. *)
Definition es_white_space (c : N) : Prop :=
  In c [9; 11; 12; 65279;
        32; 160; 5760; 8192; 8193; 8194; 8195; 8196; 8197; 8198; 8199; 8200; 8201; 8202;
        8239; 8287; 12288].
(** What this lexer skips: the same set without U+2007 and U+2008 (see C20). *)
Definition white_space (c : N) : Prop := es_white_space c /\ c <> 8199 /\ c <> 8200.

Definition id_start (V : env) (c : N) : Prop :=
  c = chr "$" \/ c = chr "_" \/ id_start_u V c = true.
Definition id_part (V : env) (c : N) : Prop :=
  c = chr "$" \/ c = chr "_" \/ c = 8204 \/ c = 8205 \/ id_continue_u V c = true.

Definition in_range (lo hi c : N) : Prop := lo <= c <= hi.
Definition dec_digit : N -> Prop := in_range 48 57.
Definition oct_digit : N -> Prop := in_range 48 55.
Definition bin_digit : N -> Prop := in_range 48 49.
Definition hex_digit (c : N) : Prop :=
  in_range 48 57 c \/ in_range 97 102 c \/ in_range 65 70 c.
(** The value of a digit character. *)
Definition digit_value (c : N) : N :=
  if c <=? 57 then c - 48 else if c <=? 70 then c - 55 else c - 87.
(** The value of a digit string, most significant digit first. *)
Definition digits_value (base : N) (ds : str) : N :=
  fold_left (fun acc d => acc * base + digit_value d) ds 0.

(** The text starts with a character that satisfies [P]. *)
Definition starts_with (P : N -> Prop) (l : str) : Prop :=
  match l with c :: _ => P c | [] => False end.
Definition prefix (w l : str) : Prop := exists tl, l = w ++ tl.

(** ** Whitespace and comments *)

(** [starts_trivia b l]: the text [l] begins with whitespace, a line terminator or
    a comment; [b] says that nothing but whitespace and comments precedes on the
    line, which is when [-->] begins a comment. *)
Definition starts_trivia (b : bool) (l : str) : Prop :=
  starts_with white_space l \/ starts_with line_terminator l
  \/ prefix (lit "//") l \/ prefix (lit "/*") l \/ prefix (lit "<!--") l
  \/ (b = true /\ prefix (lit "-->") l).

(** A line comment extends to the next line terminator or to the end. *)
Definition line_end (l : str) : Prop := l = [] \/ starts_with line_terminator l.

(** [trivia b w l]: [w] is exactly the whitespace and comments that precede [l]. *)
Inductive trivia : bool -> str -> str -> Prop :=
| tv_done : forall b l, ~ starts_trivia b l -> trivia b [] l
| tv_space : forall b c w l, white_space c -> trivia b w l -> trivia b (c :: w) l
| tv_newline : forall b c w l, line_terminator c -> trivia true w l -> trivia b (c :: w) l
| tv_line : forall b opening body w l,
    opening = lit "//" \/ opening = lit "<!--" \/ (b = true /\ opening = lit "-->") ->
    Forall (fun c => ~ line_terminator c) body -> line_end (w ++ l) ->
    trivia b w l -> trivia b (opening ++ body ++ w) l
| tv_block : forall b body w l,
    (forall u v, body ++ lit "*" <> u ++ lit "*/" ++ v) ->
    trivia b w l -> trivia b (lit "/*" ++ body ++ lit "*/" ++ w) l.

Definition has_newline (w : str) : Prop := Exists line_terminator w.

(** ** Unicode escapes *)

(** [unicode_escape V e n]: [e] is what follows [\u] and denotes [n]: four
    hexadecimal digits, or any number of them in braces.  The value of the latter is
    a 32-bit number; with overflow checks at most seven digits can be read. *)
Inductive unicode_escape (V : env) : str -> N -> Prop :=
| ue_four : forall a b c d, Forall hex_digit [a; b; c; d] ->
    unicode_escape V [a; b; c; d] (digits_value 16 [a; b; c; d])
| ue_braced : forall ds, ds <> [] -> Forall hex_digit ds ->
    (overflow_checks V = true -> (length ds < 8)%nat) ->
    unicode_escape V (lit "{" ++ ds ++ lit "}") (digits_value 16 ds mod 2 ^ 32).

(** Unicode scalar values: the range of Rust's [char]. *)
Definition scalar (n : N) : Prop := n <= 55295 \/ 57344 <= n <= 1114111.

(** ** Words *)

(** [word_text V w v esc]: the word spelled [w] has text [v]; [esc] tells whether
    it contains an escape. *)
Inductive word_text (V : env) : str -> str -> bool -> Prop :=
| wt_nil : word_text V [] [] false
| wt_char : forall c w v esc, id_part V c -> word_text V w v esc ->
    word_text V (c :: w) (c :: v) esc
| wt_escape : forall e n w v esc, unicode_escape V e n -> scalar n -> word_text V w v esc ->
    word_text V (lit "\u" ++ e ++ w) (n :: v) true.

(** Where a word ends. *)
Definition word_end (V : env) (l : str) : Prop :=
  ~ starts_with (id_part V) l /\ ~ prefix (lit "\") l.

(** The name for the text [v]: the atom spelled so when there is one and the word
    has no escape, a plain string otherwise. *)
Definition names (n : name) (v : str) (esc : bool) : Prop :=
  match n with
  | NAtom a => atom_name a = v /\ esc = false
  | NString s => s = v /\ (esc = true \/ forall a, atom_name a <> v)
  end.

(** ** Strings *)

(** The character of a code: U+003F when it has none. *)
Definition code_char (n c : N) : Prop := (scalar n /\ c = n) \/ (~ scalar n /\ c = chr "?").

(** [\n \r \t \b \v \f]; any other character stands for itself. *)
Definition single_escape (c : N) : N :=
  if c =? chr "n" then 10 else if c =? chr "r" then 13 else if c =? chr "t" then 9
  else if c =? chr "b" then 8 else if c =? chr "v" then 11 else if c =? chr "f" then 12
  else c.

(** [octal_escape ds l]: the octal digits an escape takes when [l] follows them:
    as many as possible, at most three, with value at most 255. *)
Definition octal_escape (ds l : str) : Prop :=
  ds <> [] /\ (length ds <= 3)%nat /\ Forall oct_digit ds /\ digits_value 8 ds <= 255
  /\ ((length ds < 3)%nat ->
      forall c l', l = c :: l' -> oct_digit c -> 255 < digits_value 8 (ds ++ [c])).

(** A line continuation, when [l] follows. *)
Definition continuation (nl l : str) : Prop :=
  nl = [13; 10]
  \/ (exists c, nl = [c] /\ line_terminator c /\ (c = 13 -> ~ prefix [10] l)).

(** [cooks V q b v l]: between quotes [q] the text [b] denotes the string [v]; the
    text [l] (the closing quote, in the end) follows. *)
Inductive cooks (V : env) (q : N) : str -> str -> str -> Prop :=
| ck_nil : forall l, cooks V q [] [] l
| ck_char : forall c b v l, c <> q -> c <> chr "\" -> ~ line_terminator c ->
    cooks V q b v l -> cooks V q (c :: b) (c :: v) l
| ck_single : forall c b v l,
    ~ oct_digit c -> c <> chr "x" -> c <> chr "u" -> ~ line_terminator c ->
    cooks V q b v l -> cooks V q (lit "\" ++ c :: b) (single_escape c :: v) l
| ck_octal : forall ds c b v l, octal_escape ds (b ++ l) -> code_char (digits_value 8 ds) c ->
    cooks V q b v l -> cooks V q (lit "\" ++ ds ++ b) (c :: v) l
| ck_hex : forall x y c b v l, hex_digit x -> hex_digit y ->
    code_char (digits_value 16 [x; y]) c ->
    cooks V q b v l -> cooks V q (lit "\x" ++ x :: y :: b) (c :: v) l
| ck_unicode : forall e n c b v l, unicode_escape V e n -> code_char n c ->
    cooks V q b v l -> cooks V q (lit "\u" ++ e ++ b) (c :: v) l
| ck_continuation : forall nl b v l, continuation nl (b ++ l) ->
    cooks V q b v l -> cooks V q (lit "\" ++ nl ++ b) v l.

(** ** Regular expressions *)

(** The characters of a class; note that the lexer lets line terminators through. *)
Inductive re_class : str -> Prop :=
| rc_nil : re_class []
| rc_char : forall c w, c <> chr "]" -> c <> chr "\" -> re_class w -> re_class (c :: w)
| rc_escape : forall c w, ~ line_terminator c -> re_class w -> re_class (lit "\" ++ c :: w).

Inductive re_body : str -> Prop :=
| rb_nil : re_body []
| rb_char : forall c w, c <> chr "/" -> c <> chr "\" -> c <> chr "[" -> ~ line_terminator c ->
    re_body w -> re_body (c :: w)
| rb_escape : forall c w, ~ line_terminator c -> re_body w -> re_body (lit "\" ++ c :: w)
| rb_class : forall k w, re_class k -> re_body w -> re_body (lit "[" ++ k ++ lit "]" ++ w).

(** ** Numbers *)

Definition case_text (cc : char_case) (lower upper : string) : str :=
  match cc with LowerCase => lit lower | UpperCase => lit upper end.
Definition exp_text (e : option exp) : str :=
  match e with
  | None => []
  | Some e => case_text (exp_e e) "e" "E"
              ++ match exp_sign e with None => [] | Some Plus => lit "+" | Some Minus => lit "-" end
              ++ exp_value e
  end.
(** The spelling a [NumberSource] stands for. *)
Definition number_text (s : number_source) : str :=
  match s with
  | DecimalInt m e => m ++ exp_text e
  | RadixInt (Bin cc) ds => case_text cc "0b" "0B" ++ ds
  | RadixInt (Oct (Some cc)) ds => case_text cc "0o" "0O" ++ ds
  | RadixInt (Oct None) ds => ds
  | RadixInt (Hex cc) ds => case_text cc "0x" "0X" ++ ds
  | Float ip fp e =>
      match ip with Some ds => ds | None => [] end ++ lit "."
      ++ match fp with Some ds => ds | None => [] end ++ exp_text e
  end.

Definition digits (P : N -> Prop) (ds : str) : Prop := ds <> [] /\ Forall P ds.
(** Legacy octal: a zero followed by octal digits. *)
Definition legacy_octal (ds : str) : Prop := exists ds', ds = chr "0" :: ds' /\ digits oct_digit ds'.
Definition exp_ok (e : option exp) : Prop :=
  match e with None => True | Some e => digits dec_digit (exp_value e) end.
(** The number literals of the grammar. *)
Definition number_ok (s : number_source) : Prop :=
  match s with
  | DecimalInt m e => digits dec_digit m /\ ~ legacy_octal m /\ exp_ok e
  | RadixInt (Bin _) ds => digits bin_digit ds
  | RadixInt (Oct (Some _)) ds => digits oct_digit ds
  | RadixInt (Oct None) ds => legacy_octal ds
  | RadixInt (Hex _) ds => digits hex_digit ds
  | Float (Some ip) (Some fp) e =>
      digits dec_digit ip /\ ~ legacy_octal ip /\ Forall dec_digit fp /\ exp_ok e
  | Float None (Some fp) e => digits dec_digit fp /\ exp_ok e
  | Float _ None _ => False
  end.

(** ** Punctuators *)

Definition punc_text (p : punc) : str :=
  lit match p with
  | T_LBrace => "{" | T_RBrace => "}" | T_LParen => "(" | T_RParen => ")"
  | T_LBrack => "[" | T_RBrack => "]" | T_Dot => "." | T_Ellipsis => "..." | T_Semi => ";"
  | T_Comma => "," | T_LAngle => "<" | T_RAngle => ">" | T_LEq => "<=" | T_GEq => ">="
  | T_Eq => "==" | T_NEq => "!=" | T_StrictEq => "===" | T_StrictNEq => "!=="
  | T_Plus => "+" | T_Minus => "-" | T_Star => "*" | T_Mod => "%" | T_Slash => "/"
  | T_Inc => "++" | T_Dec => "--" | T_LShift => "<<" | T_RShift => ">>" | T_URShift => ">>>"
  | T_BitAnd => "&" | T_BitOr => "|" | T_BitXor => "^" | T_Bang => "!" | T_Tilde => "~"
  | T_LogicalAnd => "&&" | T_LogicalOr => "||" | T_Question => "?" | T_Colon => ":"
  | T_Assign => "=" | T_PlusAssign => "+=" | T_MinusAssign => "-=" | T_StarAssign => "*="
  | T_SlashAssign => "/=" | T_ModAssign => "%=" | T_LShiftAssign => "<<="
  | T_RShiftAssign => ">>=" | T_URShiftAssign => ">>>=" | T_BitAndAssign => "&="
  | T_BitOrAssign => "|=" | T_BitXorAssign => "^=" | T_Arrow => "=>" | T_EOF => ""
  end.

(** The punctuators the lexer knows; [op] tells whether a slash is an operator.
    [=>] is not among them: it is read as [=] and [>]. *)
Definition is_punctuator (op : bool) (p : punc) : Prop :=
  p <> T_EOF /\ p <> T_Arrow /\ (op = false -> p <> T_Slash /\ p <> T_SlashAssign).

(** ** Tokens *)

(** [lexeme V op d w l]: when the text [w] is followed by [l], and [op] says
    whether a slash is an operator, [w] is the token [d]. *)
Inductive lexeme (V : env) (op : bool) : token_data -> str -> str -> Prop :=
| lx_eof : lexeme V op (TPunc T_EOF) [] []
| lx_punc : forall p l, is_punctuator op p ->
    (forall p', is_punctuator op p' -> prefix (punc_text p') (punc_text p ++ l) ->
       (length (punc_text p') <= length (punc_text p))%nat) ->
    (p = T_Dot -> ~ starts_with dec_digit l) ->
    lexeme V op (TPunc p) (punc_text p) l
| lx_reserved : forall r l, word_end V l -> lexeme V op (TReserved r) (reserved_name r) l
| lx_ident : forall n w v esc l,
    starts_with (id_start V) w \/ prefix (lit "\") w -> word_text V w v esc -> word_end V l ->
    (forall r, reserved_name r <> v) -> names n v esc ->
    lexeme V op (TIdent n) w l
| lx_string : forall q b v l, q = 34 \/ q = 39 -> cooks V q b v (q :: l) ->
    lexeme V op (TString (StringLiteral (Some (q :: b ++ [q])) v)) (q :: b ++ [q]) l
| lx_regexp : forall b fw fv esc l, op = false -> re_body b -> word_text V fw fv esc ->
    word_end V l ->
    lexeme V op (TRegExp (RegExpLiteral b fv)) (lit "/" ++ b ++ lit "/" ++ fw) l
| lx_number : forall s v l, number_ok s -> number_value s = Some v ->
    ~ starts_with dec_digit l -> ~ starts_with (id_start V) l ->
    (forall m, s = DecimalInt m None -> ~ prefix (lit ".") l) ->
    lexeme V op (TNumber (NumberLiteral (Some s) v)) (number_text s) l.

(** [next_token V src op b k t k']: in the text [src], the token that begins at or
    after index [k] is [t] and ends at index [k']; [b] says that nothing but trivia
    precedes index [k] on its line. *)
Definition next_token (V : env) (src : str) (op b : bool) (k : nat) (t : token) (k' : nat) : Prop :=
  exists ws w l : str,
    skipn k src = ws ++ w ++ l
    /\ k' = (k + length ws + length w)%nat
    /\ trivia b ws (w ++ l)
    /\ lexeme V op (tk_value t) w l
    /\ tk_loc t = Span (posn_at src (k + length ws)) (posn_at src k')
    /\ (tk_newline t = true <-> has_newline ws).

(** ** Where the lexer is known to panic *)

(** The text ends inside a braced unicode escape. *)
Definition ends_in_escape (l : str) : Prop :=
  exists u ds, l = u ++ lit "\u{" ++ ds /\ digits hex_digit ds.
(** The text contains a braced unicode escape of eight or more digits. *)
Definition has_long_escape (l : str) : Prop :=
  exists u ds v, l = u ++ lit "\u{" ++ ds ++ lit "}" ++ v /\ Forall hex_digit ds
                 /\ (8 <= length ds)%nat.
(** The text ends inside a regular expression literal. *)
Definition ends_in_regexp (l : str) : Prop :=
  exists u b, l = u ++ lit "/" ++ b /\
    (re_body b \/ exists b' k, b = b' ++ lit "[" ++ k /\ re_body b' /\ re_class k).

(** ** Token sequences *)

(** [tiles V src ops b k ts k']: the tokens [ts], one per flag in [ops], follow one
    another in [src] from index [k] to index [k'], with nothing but trivia between
    them. *)
Inductive tiles (V : env) (src : str) : list bool -> bool -> nat -> list token -> nat -> Prop :=
| tl_nil : forall b k, tiles V src [] b k [] k
| tl_cons : forall op ops b k t k1 ts k2,
    next_token V src op b k t k1 -> tiles V src ops false k1 ts k2 ->
    tiles V src (op :: ops) b k (t :: ts) k2.

(** The text covered by a span. *)
Definition covered (src : str) (s : span) : str :=
  firstn (N.to_nat (offset (sp_end s)) - N.to_nat (offset (sp_start s)))
         (skipn (N.to_nat (offset (sp_start s))) src).

(** A double that is exactly the natural number [n]. *)
Definition f64_is (v : f64) (n : N) : Prop :=
  exists m e, v = FFin false m e
    /\ match e with
       | Zneg p => m = n * 2 ^ Npos p
       | _ => n = m * 2 ^ Z.to_N e
       end.

(** The mathematical value of a radix literal or a plain decimal one. *)
Definition radix_base (r : radix) : N := match r with Bin _ => 2 | Oct _ => 8 | Hex _ => 16 end.
Definition integer_value (s : number_source) : option N :=
  match s with
  | DecimalInt m None => Some (digits_value 10 m)
  | RadixInt r ds => Some (digits_value (radix_base r) ds)
  | _ => None
  end.

(** The finite double [m * 2^e] with [e >= 0] and a 53-bit significand, and its
    distance from a natural number. *)
Definition big_f64 (v : f64) (n : N) : Prop :=
  exists m e, v = FFin false m e /\ m < 2 ^ 53 /\ (0 <= e)%Z /\ n = m * 2 ^ Z.to_N e.
Definition distance (a b : N) : N := if a <=? b then b - a else a - b.

(** Where the last of the tokens [ts] ends. *)
Definition end_of (ts : list token) : posn :=
  match rev ts with [] => origin | t :: _ => sp_end (tk_loc t) end.
