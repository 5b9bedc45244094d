(** What a client sees that goes on reading after errors, in terms of the text. *)
From Coq Require Import List NArith Bool.
From Verif Require Import Base Chars Token Reader Lexer SpecReader SpecLexer Resume.
Import ListNotations.
Local Open Scope nat_scope.

(** The answer to a request: a token, or an error. *)
Inductive answer : Type := Got (t : token) | Failed (e : lex_error).

(** [session V x h x']: a client that starts with the lexer [x] and asks for tokens with
    the flags of [h], whatever it is told, is given the answers of [h] and has [x'] left. *)
Inductive session (V : env) : lexer -> list (bool * answer) -> lexer -> Prop :=
| ses_nil x : session V x [] x
| ses_got op x t x1 h x2 : read_token' V op x = Ok (t, x1) -> session V x1 h x2 ->
    session V x ((op, Got t) :: h) x2
| ses_failed op x e x1 h x2 : read_token' V op x = Err (e, x1) -> session V x1 h x2 ->
    session V x ((op, Failed e) :: h) x2.

(** [walks V src b k h k']: the answers of [h] take one from place [k] of the text to place
    [k'].  A token is the next one of the rest of the text.  An error about an illegal
    character stands before that character, behind nothing but whitespace and comments;
    any other error stands behind some text that it has used up.  [b] says whether the
    place counts as the start of a line, where [-->] begins a comment: at first it does,
    behind a token or an error it does not (behind an unterminated comment it may). *)
Inductive walks (V : env) (src : str) : bool -> nat -> list (bool * answer) -> nat -> Prop :=
| walk_nil b k : walks V src b k [] k
| walk_got b k op t k1 h k2 : next_token V src op b k t k1 -> walks V src false k1 h k2 ->
    walks V src b k ((op, Got t) :: h) k2
| walk_illegal b k op ws c l h k2 : skipn k src = ws ++ c :: l -> trivia b ws (c :: l) ->
    walks V src false (k + length ws) h k2 ->
    walks V src b k ((op, Failed (IllegalChar c)) :: h) k2
| walk_other b k op e b1 k1 h k2 : (forall c, e <> IllegalChar c) -> k < k1 <= length src ->
    (e <> UnterminatedComment -> b1 = false) ->
    walks V src b1 k1 h k2 ->
    walks V src b k ((op, Failed e) :: h) k2.

(** Nothing more can come of reading on. *)
Definition final (a : answer) : Prop :=
  match a with
  | Got t => tk_value t = TPunc T_EOF
  | Failed e => exists c, e = IllegalChar c
  end.
