(** Properties of the lexer (C03-C06, C08-C20, C54, C55, C58).  The vocabulary is
    that of [SpecLexer]. *)
From Coq Require Import String Ascii List NArith ZArith Bool Lia.
From Verif Require Import Base Chars F64 Word Token Reader Lexer LexClient SpecReader SpecLexer
  SpecClient LexWp LexerProofs LexTheorems F64Proofs.
Import ListNotations.
Local Open Scope nat_scope.

(** A concrete Unicode table (ASCII) meets the assumptions on the tables. *)
Example ucd_ok_example : ucd_ok env_ascii.
Proof. exact ucd_ok_ascii. Qed.

Ltac delivered ops op :=
  exists ops, op; eexists _, _, _; split; [vm_compute; reflexivity|vm_compute; reflexivity].

(** C03: the tokens read tile the input: every token is a lexeme of the grammar,
    between the tokens there is nothing but whitespace and comments, and what has
    not been read is what is left of the input. *)
Theorem C03_tokens_tile : forall V src ops ts x, ucd_ok V ->
  read_tokens V ops (lexer_new src) = Ok (ts, x) ->
  exists k, tiles V src ops true 0 ts k /\ rest (lx_rd x) = skipn k src /\ k <= length src.
Proof. exact tokens_tile. Qed.
Print Assumptions C03_tokens_tile.

(** C03, C04: the gap before each token is trivia, and the newline flag says whether
    it contains a line terminator. *)
Theorem C04_newline_flag : forall V src ops op ts t x, ucd_ok V ->
  read_tokens V (ops ++ [op]) (lexer_new src) = Ok (ts ++ [t], x) ->
  let gap := covered src (Span (end_of ts) (sp_start (tk_loc t))) in
  let text := covered src (tk_loc t) in
  exists before after b, src = before ++ gap ++ text ++ after
    /\ trivia b gap (text ++ after) /\ lexeme V op (tk_value t) text after
    /\ (tk_newline t = true <-> has_newline gap)
    /\ end_of ts = posn_at src (length before)
    /\ sp_start (tk_loc t) = posn_at src (length before + length gap)
    /\ sp_end (tk_loc t) = posn_at src (length before + length gap + length text)
    /\ rest (lx_rd x) = after.
Proof. exact token_gap. Qed.
Print Assumptions C04_newline_flag.

Definition ex_src : str := lit "a /* " ++ [10%N] ++ lit " */ += b // c".
Example C04_example :
  exists ts t x, read_tokens env_ascii [true; true; false; false] (lexer_new ex_src) = Ok (ts ++ [t], x)
    /\ map tk_newline ts = [false; true; false] /\ tk_value t = TPunc T_EOF.
Proof.
  destruct (read_tokens env_ascii [true; true; false; false] (lexer_new ex_src))
    as [[[|t0 [|t1 [|t2 [|t3 [|]]]]] x]|?|?|] eqn:E; vm_compute in E; try discriminate.
  injection E as <- <- <- <- <-. eexists [_; _; _], _, _. split; [reflexivity|]. split; reflexivity.
Qed.

(** C05: a request for tokens always returns within its fuel; a token other than EOF
    takes at least one character; EOF is returned only at the end, and again after. *)
Theorem C05_terminates : forall V src ops, ucd_ok V ->
  read_tokens V ops (lexer_new src) <> NoFuel.
Proof. intros V src ops HV H. pose proof (lexer_panics V src ops HV) as P. rewrite H in P. exact P. Qed.
Print Assumptions C05_terminates.

Theorem C05_consumes : forall V src op b k t k', next_token V src op b k t k' ->
  tk_value t <> TPunc T_EOF -> k < k'.
Proof. exact token_consumes. Qed.
Print Assumptions C05_consumes.

Theorem C05_eof_at_end : forall V src op b k t k', next_token V src op b k t k' -> k <= length src ->
  tk_value t = TPunc T_EOF -> k' = length src.
Proof. exact eof_reached. Qed.
Print Assumptions C05_eof_at_end.

Theorem C05_eof_stable : forall V op x, lx_ahead x = [] -> rest (lx_rd x) = [] ->
  let p := pos (lx_rd x) in
  exists x', read_token V op x = Ok (Token (Span p p) false (TPunc T_EOF), x')
             /\ lx_rd x' = lx_rd x /\ lx_ahead x' = [].
Proof. exact eof_stable. Qed.
Print Assumptions C05_eof_stable.

Example C05_example : lx_ahead (lexer_new []) = [] /\ rest (lx_rd (lexer_new [])) = [].
Proof. split; reflexivity. Qed.

(** C06: peeking and pushing back never change the tokens a client sees: any mixture
    of peeks, reads and push-backs (of the tokens read before, at most two ahead)
    moves a cursor over the sequence a plain reader gets. *)
Theorem C06_push_back : forall V flag src toks xn ops out,
  read_tokens V (map flag (seq 0 (length toks))) (lexer_new src) = Ok (toks, xn) ->
  cursor_run toks ops 0 0 out ->
  exists x, client_run V flag ops 0 (lexer_new src) = Ok (out, x).
Proof. exact push_back_transparent. Qed.
Print Assumptions C06_push_back.

Example C06_example : exists toks xn ops out,
  read_tokens env_ascii (map (fun _ => true) (seq 0 3)) (lexer_new (lit "a+b")) = Ok (toks, xn)
  /\ length toks = 3 /\ length ops = 7 /\ cursor_run toks ops 0 0 out.
Proof.
  destruct (read_tokens env_ascii (map (fun _ => true) (seq 0 3)) (lexer_new (lit "a+b")))
    as [[[|t0 [|t1 [|t2 [|]]]] x]|?|?|] eqn:E; vm_compute in E; try discriminate.
  injection E as <- <- <- <-.
  eexists [_; _; _], _, [CPeek; CRead; CRead; CUnread _; CUnread _; CRead; CPeek], _.
  split; [reflexivity|]. split; [reflexivity|]. split; [reflexivity|].
  apply cr_peek; [reflexivity|]. apply cr_read; [reflexivity|]. apply cr_read; [reflexivity|].
  apply cr_unread; [reflexivity|vm_compute; lia|]. apply cr_unread; [reflexivity|vm_compute; lia|].
  apply cr_read; [reflexivity|]. apply cr_peek; [reflexivity|]. apply cr_nil.
Qed.

Theorem C06_peek_then_read : forall V op x t x1, peek_token V op x = Ok (t, x1) ->
  exists x2, read_token V op x = Ok (t, x2)
             /\ (forall op', read_token V op' x1 = Ok (t, x2))
             /\ (forall op', peek_token V op' x1 = Ok (t, x1))
             /\ reread_token x1 = Ok (t, x2) /\ repeek_token x1 = Ok (t, x1).
Proof. exact peek_then_read. Qed.
Print Assumptions C06_peek_then_read.

Theorem C06_read_then_unread : forall V op x t x1, read_token V op x = Ok (t, x1) ->
  length (lx_ahead x) <= 2 ->
  exists x2, unread_token t x1 = Ok (tt, x2)
             /\ (forall op', read_token V op' x2 = Ok (t, x1))
             /\ (lx_ahead x <> [] -> x2 = x)
             /\ peek_token V op x = Ok (t, x2).
Proof. exact read_then_unread. Qed.
Print Assumptions C06_read_then_unread.

Example C06_peek_example : exists t x1 x2,
  peek_token env_ascii false (lexer_new (lit " a b")) = Ok (t, x1)
  /\ read_token env_ascii false (lexer_new (lit " a b")) = Ok (t, x2).
Proof. eexists _, _, _. vm_compute. split; reflexivity. Qed.

(** C08 *)
Theorem C08_string_source_verbatim : forall V src t s, ucd_ok V -> delivers V src t ->
  tk_value t = TString s -> str_source s = Some (covered src (tk_loc t)).
Proof. exact string_source_verbatim. Qed.
Print Assumptions C08_string_source_verbatim.

(** C09 *)
Theorem C09_string_value_cooked : forall V src t s, ucd_ok V -> delivers V src t ->
  tk_value t = TString s ->
  exists q b l, (q = 34%N \/ q = 39%N) /\ covered src (tk_loc t) = q :: b ++ [q]
                /\ cooks V q b (str_value s) (q :: l).
Proof. exact string_value_cooked. Qed.
Print Assumptions C09_string_value_cooked.

Example C08_C09_example : exists t s,
  delivers env_ascii (lit "x = 'a\n\x41\u{1F600}\101'") t /\ tk_value t = TString s
  /\ str_value s = [97; 10; 65; 128512; 65]%N.
Proof. eexists _, _. split; [delivered [true; true] false|]. split; reflexivity. Qed.

(** C10 *)
Theorem C10_number_lossless : forall V src t n, ucd_ok V -> delivers V src t ->
  tk_value t = TNumber n ->
  exists s, num_source n = Some s /\ number_ok s /\ number_text s = covered src (tk_loc t)
            /\ number_value s = Some (num_value n).
Proof. exact number_lossless. Qed.
Print Assumptions C10_number_lossless.

(** C11: integer literals below 2^53 have their exact value. *)
Theorem C11_integer_exact : forall V src t n s v, ucd_ok V -> delivers V src t ->
  tk_value t = TNumber n -> num_source n = Some s -> integer_value s = Some v -> (v < 2 ^ 53)%N ->
  f64_is (num_value n) v.
Proof. exact integer_token_exact. Qed.
Print Assumptions C11_integer_exact.

Theorem C11_no_panic : forall s n, number_ok s -> integer_value s = Some n -> (n < 2 ^ 53)%N ->
  exists v, number_value s = Some v /\ f64_is v n.
Proof. exact integer_exact. Qed.
Print Assumptions C11_no_panic.

Example C10_C11_example : exists t n s,
  delivers env_ascii (lit "0x1FFFFFFFFFFFFF") t /\ tk_value t = TNumber n /\ num_source n = Some s
  /\ integer_value s = Some (2 ^ 53 - 1)%N.
Proof. eexists _, _, _. split; [delivered (@nil bool) true|]. split; [|split]; reflexivity. Qed.

(** C12 is refuted: this literal denotes 2^57 + 17; the lexer gives it a value at
    distance 17 although a double at distance 15 exists. *)
Theorem C12_correctly_rounded_refuted : exists src t n s v a w b,
  delivers env_ascii src t /\ tk_value t = TNumber n /\ num_source n = Some s
  /\ integer_value s = Some v /\ big_f64 (num_value n) a /\ big_f64 w b
  /\ (distance b v < distance a v)%N.
Proof.
  exists (lit "0x200000000000011"). eexists _, _, _, _, _, (FFin false (2 ^ 52 + 1) 5), _.
  split; [delivered (@nil bool) true|]. split; [reflexivity|]. split; [reflexivity|].
  split; [vm_compute; reflexivity|].
  split; [eexists _, _; split; [reflexivity|]; split; [vm_compute; reflexivity|];
          split; [vm_compute; congruence|vm_compute; reflexivity]|].
  split; [eexists _, _; split; [reflexivity|]; split; [vm_compute; reflexivity|];
          split; [vm_compute; congruence|vm_compute; reflexivity]|].
  vm_compute. reflexivity.
Qed.
Print Assumptions C12_correctly_rounded_refuted.

(** C13: reserved words are exactly those spelled like one, without escapes; every
    other word is an identifier with its decoded text; a reserved word with escapes
    is an error. *)
Theorem C13_word_tokens : forall V src t, ucd_ok V -> delivers V src t ->
  match tk_value t with
  | TReserved r => covered src (tk_loc t) = reserved_name r
  | TIdent n => exists esc, word_text V (covered src (tk_loc t)) (name_string n) esc
                 /\ names n (name_string n) esc
                 /\ forall r, reserved_name r <> name_string n
  | _ => True
  end.
Proof. exact word_classified. Qed.
Print Assumptions C13_word_tokens.

Theorem C13_tokenize : forall w,
  (exists r, reserved_name r = text w /\ had_escape w = false /\ tokenize w = inr (TReserved r))
  \/ (exists r, reserved_name r = text w /\ had_escape w = true
                /\ tokenize w = inl (ReservedWordWithEscapes r))
  \/ ((forall r, reserved_name r <> text w)
      /\ exists n, tokenize w = inr (TIdent n) /\ name_string n = text w
                   /\ names n (text w) (had_escape w)).
Proof. exact tokenize_cases. Qed.
Print Assumptions C13_tokenize.

Example C13_example : exists t n,
  delivers env_ascii (lit "var what") t /\ tk_value t = TIdent n
  /\ name_string n = lit "what".
Proof. eexists _, _. split; [delivered [true] false|]. split; reflexivity. Qed.

(** C14 *)
Theorem C14_name_text : forall s, name_string (name_from s) = s.
Proof. exact name_from_string. Qed.
Print Assumptions C14_name_text.
Theorem C14_name_injective : forall s t, name_from s = name_from t <-> s = t.
Proof. exact name_from_injective. Qed.
Print Assumptions C14_name_injective.
Theorem C14_name_canonical : forall n v, names n v false <-> n = name_from v.
Proof. exact names_iff. Qed.
Print Assumptions C14_name_canonical.
Theorem C14_atoms : forall a, name_from (atom_name a) = NAtom a.
Proof. exact atom_roundtrip. Qed.
Print Assumptions C14_atoms.
Theorem C14_reserved : forall r, tokenize (Word false (reserved_name r)) = inr (TReserved r).
Proof. exact reserved_tokenize. Qed.
Print Assumptions C14_reserved.
Theorem C14_disjoint : forall r a, reserved_name r <> atom_name a.
Proof. exact reserved_not_atom. Qed.
Print Assumptions C14_disjoint.

(** C15 is refuted: a contextual word spelled with an escape gets another name. *)
Theorem C15_spelling_refuted : exists src1 src2 t1 t2 n1 n2,
  delivers env_ascii src1 t1 /\ delivers env_ascii src2 t2
  /\ tk_value t1 = TIdent n1 /\ tk_value t2 = TIdent n2
  /\ name_string n1 = name_string n2 /\ n1 <> n2.
Proof.
  exists (lit "eval"), (lit "ev\u0061l"). eexists _, _, _, _.
  split; [delivered (@nil bool) true|]. split; [delivered (@nil bool) true|].
  split; [reflexivity|]. split; [reflexivity|]. split; [reflexivity|discriminate].
Qed.
Print Assumptions C15_spelling_refuted.

(** C16 *)
Theorem C16_longest_match : forall V src t p, ucd_ok V -> delivers V src t ->
  tk_value t = TPunc p ->
  covered src (tk_loc t) = punc_text p
  /\ exists op u l, src = u ++ punc_text p ++ l
     /\ (p = T_EOF \/ is_punctuator op p)
     /\ (p = T_Dot -> ~ starts_with dec_digit l)
     /\ forall p', is_punctuator op p' -> prefix (punc_text p') (punc_text p ++ l) ->
          length (punc_text p') <= length (punc_text p).
Proof. exact punctuator_longest. Qed.
Print Assumptions C16_longest_match.

Example C16_example : exists t,
  delivers env_ascii (lit "a >>>= b") t /\ tk_value t = TPunc T_URShiftAssign.
Proof. eexists. split; [delivered [true] true|]. reflexivity. Qed.

(** C17 *)
Theorem C17_regexp_verbatim : forall V src t r, ucd_ok V -> delivers V src t ->
  tk_value t = TRegExp r ->
  exists fw esc l, covered src (tk_loc t) = lit "/" ++ re_pattern r ++ lit "/" ++ fw
    /\ re_body (re_pattern r) /\ word_text V fw (re_flags r) esc /\ word_end V l
    /\ exists u, src = u ++ covered src (tk_loc t) ++ l.
Proof. exact regexp_verbatim. Qed.
Print Assumptions C17_regexp_verbatim.

Example C17_example : exists t r,
  delivers env_ascii (lit "a = /[/\]]\/b/gi") t /\ tk_value t = TRegExp r
  /\ re_pattern r = lit "[/\]]\/b" /\ re_flags r = lit "gi".
Proof. eexists _, _. split; [delivered [true; true] false|]. split; [|split]; reflexivity. Qed.

(** C18 is refuted: three inputs on which the lexer panics. *)
Theorem C18_no_panic_refuted : forall V,
  (exists k, read_tokens V [false] (lexer_new (lit "/abc")) = Panic k)
  /\ (exists k, read_tokens V [false] (lexer_new (lit "/[abc")) = Panic k)
  /\ (exists k, read_tokens V [false] (lexer_new (lit "'\u{41")) = Panic k).
Proof. intros V. repeat split; eexists; vm_compute; reflexivity. Qed.
Print Assumptions C18_no_panic_refuted.

Theorem C18_overflow_refuted :
  exists k, read_tokens env_ascii_checked [false] (lexer_new (lit "'\u{100000000}'")) = Panic k.
Proof. eexists; vm_compute; reflexivity. Qed.
Print Assumptions C18_overflow_refuted.

(** C19: these are all the ways the lexer can panic. *)
Theorem C19_panics_confined : forall V src ops, ucd_ok V ->
  match read_tokens V ops (lexer_new src) with
  | Ok _ => True
  | Err _ => True
  | Panic k => (k = P_read_eof /\ (ends_in_escape src \/ (In false ops /\ ends_in_regexp src)))
               \/ (k = P_overflow /\ overflow_checks V = true /\ has_long_escape src)
  | NoFuel => False
  end.
Proof. exact lexer_panics. Qed.
Print Assumptions C19_panics_confined.

(** C20: the whitespace set lacks U+2007 and U+2008, and is otherwise exact. *)
Theorem C20_whitespace_exact : forall c, is_es_whitespace c = true <-> white_space c.
Proof. exact white_space_iff. Qed.
Print Assumptions C20_whitespace_exact.
Theorem C20_whitespace_refuted : exists c, es_white_space c
  /\ read_tokens env_ascii [false] (lexer_new [c]) = Err (IllegalChar c).
Proof. exists 8199%N. split; [unfold es_white_space; cbn; tauto|]. vm_compute. reflexivity. Qed.
Print Assumptions C20_whitespace_refuted.

(** C54 is refuted: an escape without a scalar value silently becomes U+003F. *)
Theorem C54_lone_surrogate_refuted : exists t s,
  delivers env_ascii (lit "'\uD800'") t /\ tk_value t = TString s /\ str_value s = lit "?".
Proof. eexists _, _. split; [delivered (@nil bool) false|]. split; reflexivity. Qed.
Print Assumptions C54_lone_surrogate_refuted.

(** C55 is refuted: escapes put characters in identifiers that may not occur there. *)
Theorem C55_identifier_escape_refuted : exists src t n,
  delivers env_ascii src t /\ tk_value t = TIdent n /\ name_string n = lit "a b"
  /\ ~ id_part env_ascii (chr " ").
Proof.
  exists (lit "a\u0020b"). eexists _, _. split; [delivered (@nil bool) false|].
  split; [reflexivity|]. split; [reflexivity|].
  intros [H|[H|[H|[H|H]]]]; discriminate.
Qed.
Print Assumptions C55_identifier_escape_refuted.

(** C58 is refuted: a class may contain line terminators. *)
Theorem C58_regexp_one_line_refuted : exists src t r,
  delivers env_ascii src t /\ tk_value t = TRegExp r /\ has_newline (re_pattern r).
Proof.
  exists (lit "/[" ++ [10%N] ++ lit "]/"). eexists _, _. split; [delivered (@nil bool) false|].
  split; [reflexivity|]. cbn. right. left. left. reflexivity.
Qed.
Print Assumptions C58_regexp_one_line_refuted.
