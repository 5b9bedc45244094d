(** Vocabulary for stating which texts the parser accepts (C72). *)
From Coq Require Import String Ascii List NArith Bool.
From Verif Require Import Base Chars Word Token Lexer Punc Ast Node SpecGrammar SpecParser SpecPlace.
Import ListNotations.
Local Open Scope nat_scope.

(** No statement inside [n] has the label of a statement around it (in the same
    function). *)
Definition own_label (d : around) (m : node) : Prop :=
  match m with
  | N_stmt (S_Label _ i _) => ~ In (id_name i) (map fst (ar_labels d))
  | _ => True
  end.
Definition labels_differ (n : node) : Prop := forall m d, inside n nothing m d -> own_label d m.

(** Tokens with which an operand can end. *)
Definition ends_operand (t : token) : Prop :=
  match tk_value t with
  | TIdent _ | TNumber _ | TString _ | TRegExp _ | TReserved _ => True
  | TPunc p => In p [T_RParen; T_RBrack; T_RBrace; T_Inc; T_Dec]
  end.

(** No regular expression stands behind such a token, and no division behind a string
    or the word [let]. *)
Definition calm (ts : tokens) : Prop :=
  forall before t t' after, ts = before ++ t :: t' :: after ->
    (regexp t' -> ~ ends_operand t)
    /\ (slash t' -> tk_value t <> TIdent (NAtom A_Let) /\ forall s, tk_value t <> TString s).

(** The tokens of the text begin with the script [t], in mode [m]. *)
Definition begins_with (V : env) (src : str) (m : mode) (t : body item) : Prop :=
  exists ts rest k, reads V src (ts ++ rest) k /\ G (top m) Script (ts ++ rest) rest t.
(** All the tokens of the text are the script [t]. *)
Definition consists_of (V : env) (src : str) (m : mode) (t : body item) : Prop :=
  exists ts e rest k, reads V src (ts ++ e :: rest) k /\ at_eof e
    /\ G (top m) Script (ts ++ e :: rest) (e :: rest) t.
