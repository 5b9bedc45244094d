(** What it means for a double to be the value of a numeric literal: the vocabulary of
    C12 and C73.  It does not mention how values are computed. *)
From Coq Require Import String Ascii List NArith ZArith QArith Qabs Bool.
From Verif Require Import Base F64 Token SpecLexer.
Import ListNotations.
Local Open Scope N_scope.

(** The natural numbers that are doubles: 53 significant bits, below [2^1024]. *)
Definition is_double (n : N) : Prop := exists m k, n = m * 2 ^ k /\ m < 2 ^ 53 /\ n < 2 ^ 1024.

Local Open Scope Q_scope.

(** [m * 2^e], and the pairs that are non-negative finite doubles. *)
Definition q_of (m : N) (e : Z) : Q := inject_Z (Z.of_N m) * 2 ^ e.
Definition finite (m : N) (e : Z) : Prop := (m < 2 ^ 53)%N /\ (-1074 <= e <= 971)%Z.
(** In the standard form of a double the leading bit of the significand is set, or the
    exponent is the least one. *)
Definition standard (m : N) (e : Z) : Prop := (2 ^ 52 <= m)%N \/ e = (-1074)%Z \/ m = 0%N.

(** From here on numbers are rounded to infinity: half way between the greatest double
    and [2^1024]. *)
Definition overflow : Q := 2 ^ 1024 - 2 ^ 970.

(** [v] is the double nearest to the non-negative rational [q]; of two that are equally
    near, the one with the even significand. *)
Definition nearest (v : f64) (q : Q) : Prop :=
  match v with
  | FFin false m e => q < overflow /\ finite m e /\ standard m e
      /\ forall m' e', finite m' e' ->
           Qabs (q_of m e - q) <= Qabs (q_of m' e' - q)
           /\ (Qabs (q_of m e - q) == Qabs (q_of m' e' - q) -> q_of m e == q_of m' e' \/ N.even m = true)
  | FInf false => overflow <= q
  | _ => False
  end.

(** The mathematical value of a decimal literal. *)
Definition digits_q (ds : str) : Q := inject_Z (Z.of_N (digits_value 10 ds)).
Definition exponent (e : option exp) : Z :=
  match e with
  | None => 0
  | Some e => let n := Z.of_N (digits_value 10 (exp_value e)) in
              match exp_sign e with Some Minus => - n | _ => n end
  end.
Definition decimal_q (s : number_source) : option Q :=
  match s with
  | DecimalInt m e => Some (digits_q m * 10 ^ exponent e)
  | Float ip fp e =>
      let part d := match d with Some ds => ds | None => [] end in
      Some ((digits_q (part ip) + digits_q (part fp) / 10 ^ Z.of_nat (length (part fp))) * 10 ^ exponent e)
  | RadixInt _ _ => None
  end.
