(** The fragment of IEEE-754 binary64 the code relies on: correctly rounded
    conversion from rationals (the documented contract of [str::parse::<f64>] and
    of integer-to-float casts), fused multiply-add of a non-negative double with
    small integers, and comparison. *)
From Coq Require Import List NArith ZArith Bool.
From Verif Require Import Base.
Import ListNotations.
Open Scope N_scope.

(** [FFin neg m e] stands for (-1)^neg * m * 2^e. *)
Inductive f64 : Type :=
| FNan
| FInf (neg : bool)
| FFin (neg : bool) (m : N) (e : Z).

Definition two53 : N := 9007199254740992.
Definition two52 : N := 4503599627370496.

(** numerator and denominator of [num/den * 2^-e] *)
Definition scale (num den : N) (e : Z) : N * N :=
  match e with
  | Z0 => (num, den)
  | Zpos p => (num, den * 2 ^ (Npos p))
  | Zneg p => (num * 2 ^ (Npos p), den)
  end.

(** Round half to even of [num/den]. *)
Definition round_half_even (num den : N) : N :=
  let q := num / den in
  let r := num mod den in
  match N.compare (2 * r) den with
  | Lt => q
  | Gt => q + 1
  | Eq => if N.even q then q else q + 1
  end.

(** The double nearest to the non-negative rational [num/den]. *)
Definition round_pos (neg : bool) (num den : N) : f64 :=
  if num =? 0 then FFin neg 0 0 else
  let e0 := (Z.of_N (N.log2 num) - Z.of_N (N.log2 den) - 52)%Z in
  let '(n0, d0) := scale num den e0 in
  let e1 := if n0 / d0 <? two52 then (e0 - 1)%Z else e0 in
  let e := Z.max e1 (-1074) in
  let '(n, d) := scale num den e in
  let q := round_half_even n d in
  let '(q, e) := if q =? two53 then (two52, (e + 1)%Z) else (q, e) in
  if (971 <? e)%Z then FInf neg else FFin neg q e.

(** Integer to double. *)
Definition f64_of_N (n : N) : f64 := round_pos false n 1.
Definition f64_of_Z (z : Z) : f64 := round_pos (z <? 0)%Z (Z.abs_N z) 1.

(** [res.mul_add(mult, digit)] for a non-negative [res]. *)
Definition fma_nat (r : f64) (mult digit : N) : f64 :=
  match r with
  | FNan => FNan
  | FInf s => FInf s
  | FFin s m e =>
      match e with
      | Zneg p => round_pos s (m * mult + digit * 2 ^ (Npos p)) (2 ^ (Npos p))
      | _ => round_pos s (m * 2 ^ (Z.to_N e) * mult + digit) 1
      end
  end.

(** [==] on f64: NaN is unequal to itself, zeros are equal. *)
Definition f64_eqb (a b : f64) : bool :=
  match a, b with
  | FInf s, FInf t => Bool.eqb s t
  | FFin s m e, FFin t n f =>
      let em := Z.min e f in
      let m' := m * 2 ^ (Z.to_N (e - em)) in
      let n' := n * 2 ^ (Z.to_N (f - em)) in
      (m' =? n') && (Bool.eqb s t || (m' =? 0))
  | _, _ => false
  end.

(** Value of a string of decimal digits. *)
Definition dec_value (ds : str) : N := fold_left (fun acc d => acc * 10 + (d - 48)) ds 0.

(** [str::parse::<f64>] on "[int].[frac]e[sign][exp]" (the dot and the exponent
    may be absent): fails when there is no mantissa digit, otherwise the nearest
    double. *)
Definition parse_f64 (ip fp : str) (exp_neg : bool) (exp : str) : option f64 :=
  match ip ++ fp with
  | [] => None
  | ds =>
      let m := dec_value ds in
      let k := ((if exp_neg then - Z.of_N (dec_value exp) else Z.of_N (dec_value exp))
                - Z.of_nat (length fp))%Z in
      Some (match k with
            | Zneg p => round_pos false m (10 ^ (Npos p))
            | _ => round_pos false (m * 10 ^ (Z.to_N k)) 1
            end)
  end.
