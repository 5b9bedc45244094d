(** Results of the public entry points of esprit, for statements that are about all of
    them. *)
From Coq Require Import String Ascii List NArith Bool.
From Verif Require Import Base Chars Word Token Lexer Punc Ast PState Parser Api Node SpecLexer SpecGrammar
  SpecParser.
Import ListNotations.
Local Open Scope nat_scope.

(** One of the entry points returned a tree with root [n], parsed in mode [m]. *)
Inductive returned (V : env) (src : str) : mode -> node -> Prop :=
| rt_script : forall t, script_of V src = Ok t -> returned V src Sloppy (N_body t)
| rt_strict : forall t, strict_of V src = Ok t -> returned V src Strict (N_body t)
| rt_module : forall t, module_of V src = Ok t -> returned V src Module_ (N_mod t)
| rt_program : forall cs t, program_of V src = Ok (Pg_Ambiguous cs t) -> returned V src Sloppy (N_body t)
| rt_program_module : forall t, program_of V src = Ok (Pg_Module t) -> returned V src Module_ (N_mod t).

(** One of the entry points panicked with [k]; [m] as above. *)
Inductive panicked (V : env) (src : str) : panic -> Prop :=
| pk_script : forall k, script_of V src = Panic k -> panicked V src k
| pk_strict : forall k, strict_of V src = Panic k -> panicked V src k
| pk_module : forall k, module_of V src = Panic k -> panicked V src k
| pk_program : forall k, program_of V src = Panic k -> panicked V src k.
