(** The character reader with positions of machine words.  Reader.v has unbounded
    positions; here each addition to a position is that of [u32]. *)
From Coq Require Import List NArith Bool.
From Verif Require Import Base Chars Reader SpecReader.
Import ListNotations.
Open Scope N_scope.

(** [u32] has this many values. *)
Definition words : N := 2 ^ 32.

(** [x += 1] on [u32]: with overflow checks (debug builds) it panics at the end of the
    range, without (release builds) it goes on at zero. *)
Definition incr (checks : bool) (a : N) : option N :=
  if a + 1 <? words then Some (a + 1) else if checks then None else Some 0.

(** joker/src/reader.rs:49-55: the additions, in the order of the code. *)
Definition bump (checks newline : bool) (p : posn) : option posn :=
  match (if newline then match incr checks (line p) with Some l => Some (l, 0) | None => None end
         else match incr checks (column p) with Some c => Some (line p, c) | None => None end) with
  | Some (l, c) => match incr checks (offset p) with Some o => Some (Posn o l c) | None => None end
  | None => None
  end.

(** joker/src/reader.rs:40-58 [Iterator::next], like [reader_next] but for the additions *)
Definition machine_next (checks : bool) (r : reader) : res unit (option N * reader) :=
  let '(c, r1) :=
    match ahead r with
    | c :: a => (Some c, Reader (chars r) a (curr_posn r))
    | [] => match chars r with
            | c :: l => (Some c, Reader l [] (curr_posn r))
            | [] => (None, r)
            end
    end in
  let finish (newline : bool) (r : reader) : res unit (option N * reader) :=
    match bump checks newline (curr_posn r) with
    | Some p => Ok (c, Reader (chars r) (ahead r) p)
    | None => Panic P_overflow
    end in
  if is_c c 13 then
    match reader_peek 0 r1 with
    | Ok (nxt, r2) => finish (negb (is_c nxt 10)) r2
    | Err e => Err e
    | Panic k => Panic k
    | NoFuel => NoFuel
    end
  else finish (is_c c 10 || is_c c 8232 || is_c c 8233) r1.

(** A sequence of calls of [peek] (joker/src/reader.rs:19-32) and [next]. *)
Fixpoint machine_run (checks : bool) (ops : list rop) (r : reader) : res unit (list (option N) * reader) :=
  match ops with
  | [] => Ok ([], r)
  | op :: ops' =>
      match (match op with RPeek n => reader_peek n r | RNext => machine_next checks r end) with
      | Ok (o, r') =>
          match machine_run checks ops' r' with
          | Ok (os, r'') => Ok (o :: os, r'')
          | Err e => Err e | Panic k => Panic k | NoFuel => NoFuel
          end
      | Err e => Err e | Panic k => Panic k | NoFuel => NoFuel
      end
  end.
