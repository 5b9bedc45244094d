(** Basic vocabulary: strings of code points, outcomes, a state-and-outcome
    monad, positions and spans. *)
From Coq Require Import String Ascii List NArith ZArith Bool.
Import ListNotations.
Open Scope N_scope.

(** A Rust [char] is represented by its code point, a [String] by the list of
    its characters (the UTF-8 encoding is not modelled; [String::len] is only
    used by the code where every character is ASCII). *)
Definition char := N.
Definition str := list N.

(** ASCII literals. *)
Definition lit (s : string) : str := map N_of_ascii (list_ascii_of_string s).
Definition chr (a : ascii) : N := N_of_ascii a.

(** [String == String] (std). *)
Fixpoint str_eqb (a b : str) : bool :=
  match a, b with
  | [], [] => true
  | x :: a', y :: b' => N.eqb x y && str_eqb a' b'
  | _, _ => false
  end.

(** Comparison [self.peek() == Some(ch)] of an optional character. *)
Definition is_c (o : option N) (c : N) : bool :=
  match o with Some x => N.eqb x c | None => false end.

(** Where a Rust panic comes from. *)
Inductive panic : Type :=
| P_read_eof        (* joker/src/lexer.rs:103  reader.next().unwrap() at end of input *)
| P_overflow        (* joker/src/lexer.rs:17-18  u32 overflow, overflow checks on *)
| P_assert          (* a failed debug_assert! *)
| P_unwrap          (* unwrap() on None/Err elsewhere *)
| P_lookahead       (* joker/src/lexer.rs:66,75  empty token buffer *)
| P_buffer_full     (* joker/src/lexer.rs:86  token buffer full *)
| P_unreachable     (* unreachable!() *)
| P_unimplemented.  (* src/parser.rs:304,306  unimplemented!() *)

(** Outcome of a fallible computation: a value, an error value, a panic, or (in
    the model only) exhausted recursion fuel. *)
Inductive res (E A : Type) : Type :=
| Ok (a : A)
| Err (e : E)
| Panic (k : panic)
| NoFuel.
Arguments Ok {E A} a.
Arguments Err {E A} e.
Arguments Panic {E A} k.
Arguments NoFuel {E A}.

(** State-and-outcome monad.  The state after an error is not represented: no
    caller in the modelled code resumes after an error. *)
Definition M (S E A : Type) : Type := S -> res E (A * S).

Definition ret {S E A} (a : A) : M S E A := fun s => Ok (a, s).
Definition bind {S E A B} (m : M S E A) (f : A -> M S E B) : M S E B :=
  fun s => match m s with
           | Ok (a, s') => f a s'
           | Err e => Err e
           | Panic k => Panic k
           | NoFuel => NoFuel
           end.
Definition err {S E A} (e : E) : M S E A := fun _ => Err e.
Definition panic_at {S E A} (k : panic) : M S E A := fun _ => Panic k.
Definition nofuel {S E A} : M S E A := fun _ => NoFuel.
Definition get {S E} : M S E S := fun s => Ok (s, s).
Definition put {S E} (s : S) : M S E unit := fun _ => Ok (tt, s).
Definition gets {S E A} (f : S -> A) : M S E A := fun s => Ok (f s, s).
Definition modify {S E} (f : S -> S) : M S E unit := fun s => Ok (tt, f s).

Declare Scope monad_scope.
Delimit Scope monad_scope with monad.
Notation "x <- m ;; k" := (bind m (fun x => k))
  (at level 61, m at next level, right associativity) : monad_scope.
Notation "' p <- m ;; k" := (bind m (fun p => k))
  (at level 61, p pattern, m at next level, right associativity) : monad_scope.
Notation "m ;;; k" := (bind m (fun _ => k))
  (at level 61, right associativity) : monad_scope.
Open Scope monad_scope.

(** [loop { ... }]: iterate [body] until it produces a result.  The fuel bounds
    the number of iterations. *)
Fixpoint loopM {S E A B} (fuel : nat) (body : A -> M S E (A + B)) (a : A) : M S E B :=
  match fuel with
  | O => nofuel
  | Datatypes.S fuel' =>
      x <- body a ;;
      match x with
      | inl a' => loopM fuel' body a'
      | inr b => ret b
      end
  end.

(** Positions and spans.  Models joker/src/track.rs:3-8 and 26-30; [u32] fields
    are unbounded here. *)
Record posn : Type := Posn { offset : N; line : N; column : N }.
Record span : Type := Span { sp_start : posn; sp_end : posn }.

(** joker/src/track.rs:11-17 [Posn::origin]. *)
Definition origin : posn := Posn 0 0 0.

(** joker/src/track.rs:3,26 derived equality. *)
Definition posn_eqb (a b : posn) : bool :=
  N.eqb (offset a) (offset b) && N.eqb (line a) (line b) && N.eqb (column a) (column b).
Definition span_eqb (a b : span) : bool :=
  posn_eqb (sp_start a) (sp_start b) && posn_eqb (sp_end a) (sp_end b).

(** An optional location, [Option<Span>]. *)
Definition loc := option span.

(** Derived [PartialEq] for [Option<T>] and [Vec<T>] (std). *)
Definition opt_eqb {A} (eqb : A -> A -> bool) (a b : option A) : bool :=
  match a, b with
  | Some x, Some y => eqb x y
  | None, None => true
  | _, _ => false
  end.
Definition list_eqb {A} (eqb : A -> A -> bool) : list A -> list A -> bool :=
  fix go a b :=
    match a, b with
    | [], [] => true
    | x :: a', y :: b' => eqb x y && go a' b'
    | _, _ => false
    end.

(** joker/src/track.rs:101-109 [span]. *)
Definition span_of (l r : loc) : loc :=
  match l, r with
  | Some l, Some r => Some (Span (sp_start l) (sp_end r))
  | _, _ => None
  end.
