(** Two texts with the same lexemes and different whitespace and comments. *)
From Coq Require Import String Ascii List NArith Bool.
From Verif Require Import Base Chars Token SpecLexer.
Import ListNotations.

(** [relaid V ops b s1 s2 ds]: both texts consist of the same lexemes, whose tokens
    are [ds] when they are requested with the flags [ops], each preceded by
    whitespace and comments of its own in each text; the whitespace before a lexeme
    contains a line terminator in one text when it does in the other.  [b] says that
    the texts begin a line. *)
Inductive relaid (V : env) : list bool -> bool -> str -> str -> list (bool * token_data) -> Prop :=
| rl_end : forall b s1 s2, relaid V [] b s1 s2 []
| rl_token : forall op ops b g1 g2 w r1 r2 nl d ds,
    trivia b g1 (w ++ r1) -> trivia b g2 (w ++ r2) ->
    (nl = true <-> has_newline g1) -> (nl = true <-> has_newline g2) ->
    lexeme V op d w r1 -> lexeme V op d w r2 ->
    relaid V ops false r1 r2 ds ->
    relaid V (op :: ops) b (g1 ++ w ++ r1) (g2 ++ w ++ r2) ((nl, d) :: ds).

(** What a token is apart from where it is. *)
Definition unplaced (t : token) : bool * token_data := (tk_newline t, tk_value t).

(** The text begins with whitespace or a line terminator, or is empty. *)
Definition blank_start (l : str) : Prop :=
  l = [] \/ starts_with white_space l \/ starts_with line_terminator l.
