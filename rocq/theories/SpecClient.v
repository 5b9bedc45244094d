(** What a client that moves a cursor over a token sequence should see. *)
From Coq Require Import List NArith Bool.
From Verif Require Import Base Token LexClient.
Import ListNotations.
Local Open Scope nat_scope.

(** [cursor_run toks ops i top out]: starting at index [i] of the sequence [toks],
    the first [top] of which have been requested before, the operations [ops] see
    the tokens [out].  At most two tokens can be pushed back. *)
Inductive cursor_run (toks : list token) : list cop -> nat -> nat -> list token -> Prop :=
| cr_nil : forall i top, cursor_run toks [] i top []
| cr_peek : forall ops i top t out, nth_error toks i = Some t ->
    cursor_run toks ops i (max top (S i)) out ->
    cursor_run toks (CPeek :: ops) i top (t :: out)
| cr_read : forall ops i top t out, nth_error toks i = Some t ->
    cursor_run toks ops (S i) (max top (S i)) out ->
    cursor_run toks (CRead :: ops) i top (t :: out)
| cr_unread : forall ops i top t out, nth_error toks i = Some t -> top - i <= 2 ->
    cursor_run toks ops i top out ->
    cursor_run toks (CUnread t :: ops) (S i) top out.
