(** What it means for two trees to be equal. *)
From Coq Require Import String Ascii List NArith ZArith QArith Permutation Bool.
From Verif Require Import Base F64 Word Token Punc Ast Track Node SpecTree.
Import ListNotations.
Local Open Scope nat_scope.

(** The rational number a finite double stands for. *)
Definition finite_value (neg : bool) (m : N) (e : Z) : Q :=
  Qmult (inject_Z (if neg then Z.opp (Z.of_N m) else Z.of_N m)) (Qpower (inject_Z 2) e).

(** Numeric equality of doubles: NaN is equal to nothing, the two zeros are equal. *)
Inductive same_number : f64 -> f64 -> Prop :=
| sn_inf : forall s, same_number (FInf s) (FInf s)
| sn_fin : forall s m e t n f,
    Qeq (finite_value s m e) (finite_value t n f) -> same_number (FFin s m e) (FFin t n f).

(** Two nodes of the same kind with the same data of their own.  How a literal is
    spelled and the order of the flags of a regular expression do not matter, nor
    does it matter whether an empty argument list of [new] is written. *)
Definition same_data (n m : node) : Prop :=
  match n, m with
  | N_expr (E_Number _ x), N_expr (E_Number _ y) => same_number (num_value x) (num_value y)
  | N_expr (E_String _ x), N_expr (E_String _ y) => str_value x = str_value y
  | N_expr (E_RegExp _ x), N_expr (E_RegExp _ y) =>
      re_pattern x = re_pattern y /\ Permutation (re_flags x) (re_flags y)
  | N_expr (E_New _ _ _), N_expr (E_New _ _ _) => True
  | N_dir x, N_dir y => str_value (dir_string x) = str_value (dir_string y)
  | N_pk (PK_String _ x), N_pk (PK_String _ y) => str_value x = str_value y
  | N_pk (PK_Number _ x), N_pk (PK_Number _ y) => same_number (num_value x) (num_value y)
  | N_import (Im_ForEffect _ x), N_import (Im_ForEffect _ y) => str_value x = str_value y
  | _, _ => shape n = shape m
  end.

(** Equal trees: the same location, semicolon and data at every node, and equal
    children in the same order. *)
Inductive same : node -> node -> Prop :=
| same_intro : forall n m,
    node_loc n = node_loc m -> node_semi n = node_semi m -> same_data n m ->
    Forall2 same (children n) (children m) -> same n m.

(** A literal whose value is NaN. *)
Definition nan_literal (n : node) : Prop :=
  match n with
  | N_expr (E_Number _ x) => num_value x = FNan
  | N_pk (PK_Number _ x) => num_value x = FNan
  | _ => False
  end.
