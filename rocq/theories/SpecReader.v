(** Specification of text positions and of the character reader, independent of
    the model. *)
From Coq Require Import List NArith Bool.
From Verif Require Import Base.
Import ListNotations.
Local Open Scope N_scope.

(** Does a line end with the character at index [i]?  Line feed, U+2028 and U+2029
    end a line; a carriage return does unless a line feed follows (the pair is one
    line end). *)
Definition ends_line (src : str) (i : nat) : bool :=
  match nth_error src i with
  | Some c =>
      (c =? 10) || (c =? 8232) || (c =? 8233)
      || ((c =? 13) && negb (match nth_error src (S i) with Some d => d =? 10 | None => false end))
  | None => false
  end.

(** The indices below [k] that end a line, in order. *)
Definition line_ends (src : str) (k : nat) : list nat := filter (ends_line src) (seq 0 k).

(** The position of index [k] in the text: its offset, the number of line ends
    before it, and the number of characters since the last of them. *)
Definition posn_at (src : str) (k : nat) : posn :=
  let ends := line_ends src k in
  Posn (N.of_nat k) (N.of_nat (length ends))
       (N.of_nat (k - match rev ends with [] => O | i :: _ => S i end)).

(** Operations on a character reader, and what they should return on a text read
    from index [k]: [peek n] the character [n] places ahead, [next] the next one,
    which is consumed. *)
Inductive rop : Type := RPeek (n : nat) | RNext.

Fixpoint text_run (src : str) (k : nat) (ops : list rop) : list (option N) * nat :=
  match ops with
  | [] => ([], k)
  | RPeek n :: ops' =>
      let '(out, k') := text_run src k ops' in (nth_error src (k + n) :: out, k')
  | RNext :: ops' =>
      let '(out, k') := text_run src (if Nat.ltb k (length src) then S k else k) ops' in
      (nth_error src k :: out, k')
  end.

Fixpoint count_next (ops : list rop) : nat :=
  match ops with
  | [] => O
  | RNext :: ops' => S (count_next ops')
  | RPeek _ :: ops' => count_next ops'
  end.
