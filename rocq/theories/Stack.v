(** The operator stack.  Models src/stack.rs (its [Display] impls, which only serve
    debugging output, are not modelled). *)
From Coq Require Import String Ascii List NArith Bool.
From Verif Require Import Base Word Token Punc Ast Track.
Import ListNotations.
Open Scope N_scope.

(** src/stack.rs:9-12 *)
Inductive infix : Type :=
| In_Binop (o : binop)
| In_Logop (o : logop).

(** src/stack.rs:29-36 *)
Definition infix_precedence (i : infix) : N :=
  match i with
  | In_Binop o => binop_tag_precedence (op_tag o)
  | In_Logop o => logop_tag_precedence (op_tag o)
  end.

(** src/stack.rs:15-17 [groups_left] *)
Definition groups_left (l r : infix) : bool := infix_precedence r <=? infix_precedence l.

(** src/stack.rs:39-42 *)
Record frame : Type := Frame { fr_left : expr; fr_op : infix }.

(** src/stack.rs:51-57 [Frame::fill] *)
Definition fill (f : frame) (right : expr) : expr :=
  let location := span_of (expr_loc (fr_left f)) (expr_loc right) in
  match fr_op f with
  | In_Binop o => E_Binop location o (fr_left f) right
  | In_Logop o => E_Logop location o (fr_left f) right
  end.

(** src/stack.rs:118-125.  The list head is the top of the stack (the end of the
    [Vec]). *)
Definition stack : Type := list frame.
Definition stack_new : stack := [].

(** src/stack.rs:127-133 [Stack::extend] *)
Fixpoint stack_extend (s : stack) (left : expr) (o : infix) : stack :=
  match s with
  | [] => [Frame left o]
  | f :: s' => if groups_left (fr_op f) o then stack_extend s' (fill f left) o
               else Frame left o :: s
  end.

(** src/stack.rs:135-140 [Stack::finish] *)
Fixpoint stack_finish (s : stack) (right : expr) : expr :=
  match s with
  | [] => right
  | f :: s' => stack_finish s' (fill f right)
  end.
