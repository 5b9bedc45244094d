(** Words: reserved words, contextual words ("atoms") and names.
    Models joker/src/word.rs. *)
From Coq Require Import String Ascii List NArith Bool.
From Verif Require Import Base.
Import ListNotations.
Open Scope N_scope.

(** joker/src/word.rs:33-75 *)
Inductive reserved : Type :=
| R_Null
| R_True
| R_False
| R_Break
| R_Case
| R_Catch
| R_Class
| R_Const
| R_Continue
| R_Debugger
| R_Default
| R_Delete
| R_Do
| R_Else
| R_Export
| R_Extends
| R_Finally
| R_For
| R_Function
| R_If
| R_Import
| R_In
| R_Instanceof
| R_New
| R_Return
| R_Super
| R_Switch
| R_This
| R_Throw
| R_Try
| R_Typeof
| R_Var
| R_Void
| R_While
| R_With
| R_Enum.

(** joker/src/word.rs:78-122 [Reserved::name] *)
Definition reserved_name (r : reserved) : str :=
  lit match r with
  | R_Null => "null"
  | R_True => "true"
  | R_False => "false"
  | R_Break => "break"
  | R_Case => "case"
  | R_Catch => "catch"
  | R_Class => "class"
  | R_Const => "const"
  | R_Continue => "continue"
  | R_Debugger => "debugger"
  | R_Default => "default"
  | R_Delete => "delete"
  | R_Do => "do"
  | R_Else => "else"
  | R_Export => "export"
  | R_Extends => "extends"
  | R_Finally => "finally"
  | R_For => "for"
  | R_Function => "function"
  | R_If => "if"
  | R_Import => "import"
  | R_In => "in"
  | R_Instanceof => "instanceof"
  | R_New => "new"
  | R_Return => "return"
  | R_Super => "super"
  | R_Switch => "switch"
  | R_This => "this"
  | R_Throw => "throw"
  | R_Try => "try"
  | R_Typeof => "typeof"
  | R_Var => "var"
  | R_Void => "void"
  | R_While => "while"
  | R_With => "with"
  | R_Enum => "enum"
  end.

(** joker/src/word.rs:31 derived [PartialEq] *)
Scheme Equality for reserved.
Definition reserved_eqb := reserved_beq.

(** joker/src/word.rs:131-150 *)
Inductive atom : Type :=
| A_Arguments
| A_Async
| A_Await
| A_Eval
| A_From
| A_Get
| A_Implements
| A_Interface
| A_Let
| A_Of
| A_Package
| A_Private
| A_Protected
| A_Public
| A_Set
| A_Static
| A_Target
| A_Yield.

(** joker/src/word.rs:210-231 [Atom::name] *)
Definition atom_name (a : atom) : str :=
  lit match a with
  | A_Arguments => "arguments"
  | A_Async => "async"
  | A_Await => "await"
  | A_Eval => "eval"
  | A_From => "from"
  | A_Get => "get"
  | A_Implements => "implements"
  | A_Interface => "interface"
  | A_Let => "let"
  | A_Of => "of"
  | A_Package => "package"
  | A_Private => "private"
  | A_Protected => "protected"
  | A_Public => "public"
  | A_Set => "set"
  | A_Static => "static"
  | A_Target => "target"
  | A_Yield => "yield"
  end.

(** joker/src/word.rs:130 derived [PartialEq] *)
Scheme Equality for atom.
Definition atom_eqb := atom_beq.

(** joker/src/word.rs:152-156 *)
Inductive name : Type :=
| NAtom (a : atom)
| NString (s : str).

(** joker/src/word.rs:152 derived [PartialEq] *)
Definition name_eqb (a b : name) : bool :=
  match a, b with
  | NAtom x, NAtom y => atom_eqb x y
  | NString x, NString y => str_eqb x y
  | _, _ => false
  end.

(** joker/src/word.rs:159-164 [Name::atom] *)
Definition name_atom (n : name) : option atom :=
  match n with NAtom a => Some a | NString _ => None end.

(** joker/src/word.rs:166-171 [Name::into_string]; 174-181 [AsRef<str>] is the same function. *)
Definition name_string (n : name) : str :=
  match n with NAtom a => atom_name a | NString s => s end.

(** Lookup in an association list with string keys: a chain of string match arms,
    or a [HashMap] filled from a literal list of distinct keys. *)
Fixpoint assoc {A} (l : list (str * A)) (s : str) : option A :=
  match l with
  | [] => None
  | (k, v) :: l' => if str_eqb k s then Some v else assoc l' s
  end.

(** joker/src/word.rs:185-203, the string arms of [Name::from] *)
Definition name_from_table : list (str * atom) :=
  [ (lit "arguments", A_Arguments);
    (lit "await", A_Await);
    (lit "eval", A_Eval);
    (lit "async", A_Async);
    (lit "from", A_From);
    (lit "get", A_Get);
    (lit "implements", A_Implements);
    (lit "interface", A_Interface);
    (lit "let", A_Let);
    (lit "of", A_Of);
    (lit "package", A_Package);
    (lit "private", A_Private);
    (lit "protected", A_Protected);
    (lit "public", A_Public);
    (lit "set", A_Set);
    (lit "static", A_Static);
    (lit "target", A_Target);
    (lit "yield", A_Yield) ].

(** joker/src/word.rs:183-207 [Name::from] *)
Definition name_from (s : str) : name :=
  match assoc name_from_table s with
  | Some a => NAtom a
  | None => NString s
  end.

(** joker/src/word.rs:254-273 *)
Definition reserved_table : list (str * reserved) :=
  [ (lit "null", R_Null);
    (lit "true", R_True);
    (lit "false", R_False);
    (lit "break", R_Break);
    (lit "case", R_Case);
    (lit "catch", R_Catch);
    (lit "class", R_Class);
    (lit "const", R_Const);
    (lit "continue", R_Continue);
    (lit "debugger", R_Debugger);
    (lit "default", R_Default);
    (lit "delete", R_Delete);
    (lit "do", R_Do);
    (lit "else", R_Else);
    (lit "export", R_Export);
    (lit "extends", R_Extends);
    (lit "finally", R_Finally);
    (lit "for", R_For);
    (lit "function", R_Function);
    (lit "if", R_If);
    (lit "import", R_Import);
    (lit "in", R_In);
    (lit "instanceof", R_Instanceof);
    (lit "new", R_New);
    (lit "return", R_Return);
    (lit "super", R_Super);
    (lit "switch", R_Switch);
    (lit "this", R_This);
    (lit "throw", R_Throw);
    (lit "try", R_Try);
    (lit "typeof", R_Typeof);
    (lit "var", R_Var);
    (lit "void", R_Void);
    (lit "while", R_While);
    (lit "with", R_With);
    (lit "enum", R_Enum) ].

(** joker/src/word.rs:275-293 *)
Definition contextual_table : list (str * atom) :=
  [ (lit "arguments", A_Arguments);
    (lit "eval", A_Eval);
    (lit "yield", A_Yield);
    (lit "await", A_Await);
    (lit "implements", A_Implements);
    (lit "interface", A_Interface);
    (lit "let", A_Let);
    (lit "package", A_Package);
    (lit "private", A_Private);
    (lit "protected", A_Protected);
    (lit "public", A_Public);
    (lit "static", A_Static);
    (lit "async", A_Async);
    (lit "from", A_From);
    (lit "of", A_Of);
    (lit "get", A_Get);
    (lit "set", A_Set);
    (lit "target", A_Target) ].

(** joker/src/word.rs:8-28 [Word] *)
Record word : Type := Word { had_escape : bool; text : str }.
