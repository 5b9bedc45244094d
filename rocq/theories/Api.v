(** The public entry points.  Models src/lib.rs and the methods of [Program]
    (src/parser.rs:77-140). *)
From Coq Require Import String Ascii List NArith Bool.
From Verif Require Import Base Chars Word Token Reader Lexer Punc Ast Track Cover Stack PState Parser.
Import ListNotations.
Open Scope N_scope.

(** src/parser.rs:143-156 [Parser::from_chars], [Parser::new] *)
Definition parser_new (src : str) : pst := PSt G_Unknown [] (lexer_new src) context_new.

(** Fuel granted to a parse; linear in the length of the input. *)
Definition fuel_for (src : str) : nat := 2 * length src + 10.

(** Run a parser method on a fresh parser and keep its result. *)
Definition run {A} (p : P A) (s : pst) : res perror A :=
  match p s with
  | Ok (a, _) => Ok a
  | Err e => Err e
  | Panic k => Panic k
  | NoFuel => NoFuel
  end.

Section WithEnv.
Context (V : env).

(** src/lib.rs:37-39 *)
Definition script_of (src : str) : res perror script :=
  run (script_ V (parse_rec V (fuel_for src)) false) (parser_new src).
(** src/lib.rs:41-43 *)
Definition strict_of (src : str) : res perror script :=
  run (script_ V (parse_rec V (fuel_for src)) true) (parser_new src).
(** src/lib.rs:45-47 *)
Definition module_of (src : str) : res perror module :=
  run (module_ V (parse_rec V (fuel_for src))) (parser_new src).
(** src/lib.rs:49-51 *)
Definition program_of (src : str) : res perror program :=
  run (program_ V (parse_rec V (fuel_for src))) (parser_new src).
End WithEnv.

(** src/parser.rs:86-92: the first import or export *)
Fixpoint blame_item (items : list mod_item) : option perror :=
  match items with
  | [] => None
  | MI_Import i :: _ => Some (ImportInScript i)
  | MI_Export e :: _ => Some (ExportInScript e)
  | MI_Item _ :: items' => blame_item items'
  end.
(** src/parser.rs:77-99 [unexpected_module] *)
Definition unexpected_module (m : module) : perror :=
  match find (fun d => str_eqb (dir_pragma d) (lit "use module")) (bo_dirs m) with
  | Some d => UnexpectedDirective (dir_loc d) (dir_string d)
  | None => match blame_item (bo_items m) with
            | Some e => e
            | None => UnexpectedModule (bo_loc m)
            end
  end.

(** src/parser.rs:102-107 [Program::script] *)
Definition program_script (p : program) : res perror script :=
  match p with
  | Pg_Ambiguous _ s => Ok s
  | Pg_Module m => Err (unexpected_module m)
  end.
(** src/parser.rs:109-120 [Program::strict] *)
Definition program_strict (p : program) : res perror script :=
  match p with
  | Pg_Ambiguous cs s => match perform_all false cs with Some e => Err e | None => Ok s end
  | Pg_Module m => Err (unexpected_module m)
  end.
(** src/parser.rs:122-139 [Program::module] *)
Definition program_module (p : program) : res perror module :=
  match p with
  | Pg_Ambiguous cs s =>
      match perform_all true cs with
      | Some e => Err e
      | None => Ok (Body (bo_loc s) (bo_dirs s) (map item_into_mod_item (bo_items s)))
      end
  | Pg_Module m => Ok m
  end.
