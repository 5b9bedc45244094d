(** When a text can be put behind another (C85). *)
From Coq Require Import String List NArith Bool.
From Verif Require Import Base Chars Word Token Punc Ast SpecLexer SpecGrammar SpecParser SpecPlace SpecEntry SpecExact.
Import ListNotations.

(** The token can neither continue the statement before it, nor be its semicolon, nor be
    a directive: it is no string, no regular expression or division, and none of the
    operators and brackets that both begin expressions and continue them. *)
Definition starts_afresh (d : token_data) : Prop :=
  match d with
  | TString _ | TRegExp _ => False
  | TPunc p => ~ In p [T_Semi; T_LParen; T_LBrack; T_Plus; T_Minus; T_Slash; T_SlashAssign; T_Assign]
  | _ => True
  end.

(** The text with everything but its line terminators replaced by spaces: behind it
    another text stands where it stands behind [a]. *)
Definition blanked (a : str) : str := map (fun c => if existsb (N.eqb c) [10; 13; 8232; 8233]%N then c else 32%N) a.

(** The text ends with a line terminator, and its last word is not [let]. *)
Definition closed_line (V : env) (a : str) : Prop :=
  (exists a' c, a = a' ++ [c] /\ line_terminator c)
  /\ forall ts t e k, reads V a (ts ++ [t; e]) k -> tk_value e = TPunc T_EOF -> tk_value t <> TIdent (NAtom A_Let).

(** The text starts a statement of its own. *)
Definition opens (V : env) (b : str) : Prop := forall t k, reads V b [t] k -> starts_afresh (tk_value t).
