(** Clients of the lexer: reading several tokens, and mixing reads with peeks and
    push-backs.  These model the calling pattern of the public functions
    joker/src/lexer.rs:57-88, not code of the repository. *)
From Coq Require Import List NArith Bool.
From Verif Require Import Base Chars Token Reader Lexer.
Import ListNotations.
Local Open Scope nat_scope.

(** Read one token per flag; a flag says whether a slash is an operator. *)
Fixpoint read_tokens (V : env) (ops : list bool) : XM (list token) :=
  match ops with
  | [] => ret []
  | op :: ops' => t <- read_token V op ;; ts <- read_tokens V ops' ;; ret (t :: ts)
  end.

(** [t] is delivered when reading [src]: it is the last of some sequence of reads. *)
Definition delivers (V : env) (src : str) (t : token) : Prop :=
  exists ops op ts x x', read_tokens V ops (lexer_new src) = Ok (ts, x)
                         /\ read_token V op x = Ok (t, x').

(** A client that keeps a cursor [i] in the token sequence and asks for the [i]-th
    token with the flag [flag i]: look at it, read it, or push back the one before. *)
Inductive cop : Type := CPeek | CRead | CUnread (t : token).

Fixpoint client_run (V : env) (flag : nat -> bool) (ops : list cop) (i : nat)
  : XM (list token) :=
  match ops with
  | [] => ret []
  | CPeek :: ops' =>
      t <- peek_token V (flag i) ;; ts <- client_run V flag ops' i ;; ret (t :: ts)
  | CRead :: ops' =>
      t <- read_token V (flag i) ;; ts <- client_run V flag ops' (S i) ;; ret (t :: ts)
  | CUnread t :: ops' =>
      unread_token t ;;; client_run V flag ops' (pred i)
  end.
