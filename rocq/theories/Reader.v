(** The character reader.  Models joker/src/reader.rs, twice: [reader] is the data
    structure of the code (an iterator plus a look-ahead queue), [rd] is the
    remaining text plus the position.  ReaderProofs.v proves that the first
    behaves as the second; the lexer model uses the second. *)
From Coq Require Import List NArith Bool.
From Verif Require Import Base Chars.
Import ListNotations.
Open Scope N_scope.

(** joker/src/reader.rs:45-55: how the position changes when [c] is consumed and
    [nxt] is the character after it. *)
Definition advance (p : posn) (c : N) (nxt : option N) : posn :=
  if ((c =? 13) && negb (is_c nxt 10)) || (c =? 10) || (c =? 8232) || (c =? 8233)
  then Posn (offset p + 1) (line p + 1) 0
  else Posn (offset p + 1) (line p) (column p + 1).

(** ** The data structure of the code *)

(** joker/src/reader.rs:4-8.  The iterator is the list of characters it has still
    to yield (std [Chars] is fused). *)
Record reader : Type := Reader { chars : str; ahead : str; curr_posn : posn }.

(** joker/src/reader.rs:11-17 *)
Definition reader_new (l : str) : reader := Reader l [] origin.

(** joker/src/reader.rs:21-30: the loop of [peek]; [n] iterations remain. *)
Fixpoint fill (n : nat) (r : reader) : bool * reader :=
  match n with
  | O => (true, r)
  | S n' =>
      match chars r with
      | c :: l => fill n' (Reader l (ahead r ++ [c]) (curr_posn r))
      | [] => (false, r)
      end
  end.

(** joker/src/reader.rs:19-32 [Reader::peek]; the capacity assertion is
    [ahead_capacity]. *)
Definition ahead_capacity : nat := 4.
Definition reader_peek (n : nat) (r : reader) : res unit (option N * reader) :=
  if Nat.ltb n ahead_capacity then
    let '(full, r') := fill (S n - length (ahead r)) r in
    if full then Ok (nth_error (ahead r') n, r') else Ok (None, r')
  else Panic P_assert.

(** joker/src/reader.rs:40-58 [Iterator::next] *)
Definition reader_next (r : reader) : res unit (option N * reader) :=
  let '(c, r1) :=
    match ahead r with
    | c :: a => (Some c, Reader (chars r) a (curr_posn r))
    | [] => match chars r with
            | c :: l => (Some c, Reader l [] (curr_posn r))
            | [] => (None, r)
            end
    end in
  (* the position is computed before [curr_posn] is updated; [peek] may refill *)
  let finish (newline : bool) (r : reader) : reader :=
    let p := curr_posn r in
    Reader (chars r) (ahead r)
      (if newline then Posn (offset p + 1) (line p + 1) 0
       else Posn (offset p + 1) (line p) (column p + 1)) in
  if is_c c 13 then
    match reader_peek 0 r1 with
    | Ok (nxt, r2) => Ok (c, finish (negb (is_c nxt 10)) r2)
    | Err e => Err e
    | Panic k => Panic k
    | NoFuel => NoFuel
    end
  else Ok (c, finish (is_c c 10 || is_c c 8232 || is_c c 8233) r1).

(** joker/src/reader.rs:34 *)
Definition reader_posn (r : reader) : posn := curr_posn r.

(** ** The abstract reader *)

Record rd : Type := Rd { rest : str; pos : posn }.

Definition rd_new (l : str) : rd := Rd l origin.

(** [reader.peek(n)] *)
Definition rd_peek (n : nat) (r : rd) : option N := nth_error (rest r) n.

(** [reader.next()], on a non-empty rest *)
Definition rd_next (r : rd) : option (N * rd) :=
  match rest r with
  | [] => None
  | c :: l => Some (c, Rd l (advance (pos r) c (hd_error l)))
  end.

(** The position reached after consuming [l] when [tl] follows it. *)
Fixpoint advance_all (p : posn) (l tl : str) : posn :=
  match l with
  | [] => p
  | c :: l' => advance_all (advance p c (hd_error (l' ++ tl))) l' tl
  end.
