(** What it means to group a sequence of operands and infix operators correctly. *)
From Coq Require Import String Ascii List NArith Bool.
From Verif Require Import Base Punc Ast Track Stack.
Import ListNotations.
Open Scope N_scope.

(** The levels of /repo/grammar.md, "Operator Precedence", loosest first. *)
Definition levels : list (list string) :=
  [ ["||"]; ["&&"]; ["|"]; ["^"]; ["&"]; ["=="; "!="; "==="; "!=="];
    ["<"; ">"; "<="; ">="; "instanceof"; "in"]; ["<<"; ">>"; ">>>"]; ["+"; "-"]; ["*"; "/"; "%"] ]%string.

(** The operator as it is written. *)
Definition infix_text (o : infix) : str :=
  match o with
  | In_Binop b => binop_tag_text (op_tag b)
  | In_Logop l => logop_tag_text (op_tag l)
  end.

(** How tightly an operator binds: the number of its level. *)
Definition at_level (o : infix) (n : nat) : Prop :=
  exists ws w, nth_error levels n = Some ws /\ In w ws /\ infix_text o = lit w.

(** A grouping of operands. *)
Inductive grouping : Type :=
| Operand (e : expr)
| Apply (l : grouping) (o : infix) (r : grouping).

(** The tree a grouping denotes. *)
Fixpoint denote (g : grouping) : expr :=
  match g with
  | Operand e => e
  | Apply l (In_Binop o) r =>
      E_Binop (span_of (expr_loc (denote l)) (expr_loc (denote r))) o (denote l) (denote r)
  | Apply l (In_Logop o) r =>
      E_Logop (span_of (expr_loc (denote l)) (expr_loc (denote r))) o (denote l) (denote r)
  end.

(** The operands and operators in the order in which they are written. *)
Fixpoint written (g : grouping) : expr * list (infix * expr) :=
  match g with
  | Operand e => (e, [])
  | Apply l o r => (fst (written l), snd (written l) ++ (o, fst (written r)) :: snd (written r))
  end.

(** The operators of a grouping. *)
Fixpoint applies (g : grouping) (o : infix) : Prop :=
  match g with
  | Operand _ => False
  | Apply l o' r => applies l o \/ o = o' \/ applies r o
  end.

(** Tighter operators are applied first, and operators of one level from left to
    right. *)
Fixpoint well_grouped (g : grouping) : Prop :=
  match g with
  | Operand _ => True
  | Apply l o r => well_grouped l /\ well_grouped r
      /\ (forall o' n n', applies l o' -> at_level o n -> at_level o' n' -> (n <= n')%nat)
      /\ (forall o' n n', applies r o' -> at_level o n -> at_level o' n' -> (n < n')%nat)
  end.

(** Feeding a sequence to the stack: [extend] for each operator with the operand to
    its left, then [finish] with the last operand.  This is the use made of it by
    src/parser.rs:1658-1667. *)
Fixpoint feed (s : stack) (operand : expr) (more : list (infix * expr)) : expr :=
  match more with
  | [] => stack_finish s operand
  | (o, e) :: more' => feed (stack_extend s operand o) e more'
  end.
