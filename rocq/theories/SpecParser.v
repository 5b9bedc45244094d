(** What the public entry points do with the token sequence of their input, in terms
    of the lexical grammar (SpecLexer.v) and the syntactic one (SpecGrammar.v). *)
From Coq Require Import String Ascii List NArith Bool.
From Verif Require Import Base Chars Word Token Lexer Ast SpecLexer SpecGrammar.
Import ListNotations.
Local Open Scope nat_scope.

(** [reads V src ts k]: [ts] are the first tokens of [src], and they end at index [k]. *)
Definition reads (V : env) (src : str) (ts : tokens) (k : nat) : Prop :=
  exists ops, tiles V src ops true 0 ts k.

(** Statements and declarations one after another. *)
Fixpoint item_seq (g : place) (is : list item) (i o : tokens) : Prop :=
  match is with
  | [] => i = o
  | it :: is' => exists m, G g (Item true) i m it /\ item_seq g is' m o
  end.

(** The body of a module or a program: directives (all the string statements at the
    start), then items. *)
Definition top_level (m : mode) (ds : list dir) (is : list item) (i o : tokens) : Prop :=
  exists j, G (top m) Directives i j ds
            /\ (forall t t' r s, j = t :: t' :: r -> tk_value t = TString s -> continues t')
            /\ item_seq (top m) is j o.

Definition at_eof (t : token) : Prop := tk_value t = TPunc T_EOF.
Definition is_port (t : token) : Prop :=
  tk_value t = TReserved R_Import \/ tk_value t = TReserved R_Export.

(** The panics known to be raised by the lexer, and when. *)
Definition lexer_panics (V : env) (src : str) (k : panic) : Prop :=
  (k = P_read_eof /\ (ends_in_escape src \/ ends_in_regexp src))
  \/ (k = P_overflow /\ overflow_checks V = true /\ has_long_escape src).

(** The input starts with directives and items, behind which an item would begin
    with [import] or [export]. *)
Definition meets_port (V : env) (src : str) (m : mode) : Prop :=
  exists ts rest k ds is, reads V src (ts ++ rest) k
    /\ top_level m ds is (ts ++ rest) rest /\ next is_port rest.
