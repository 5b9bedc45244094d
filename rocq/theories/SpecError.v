(** What an error must be able to show for itself: it names tokens and places of the
    text, and the lexer's errors are the lexer's. *)
From Coq Require Import String Ascii List NArith Bool.
From Verif Require Import Base Chars Word Token Reader Lexer LexClient Ast Cover PState SpecReader SpecLoc.
Import ListNotations.

(** A token of the text, of a given kind. *)
Definition token_there (V : env) (src : str) (t : token) (d : token_data) : Prop :=
  delivers V src t /\ tk_value t = d.
(** A place in the text. *)
Definition place_there (src : str) (l : loc) : Prop := exists i j, spans src i j l.
(** The place and the name of an identifier of the text. *)
Definition name_there (V : env) (src : str) (l : loc) (n : name) : Prop :=
  exists t, delivers V src t /\ l = Some (tk_loc t) /\ tk_value t = TIdent n.

(** The place of an identifier of the text that spells a given name. *)
Definition word_there (V : env) (src : str) (l : loc) (n : name) : Prop :=
  exists t m, delivers V src t /\ l = Some (tk_loc t) /\ tk_value t = TIdent m /\ name_string m = name_string n.

Definition cover_honest (src : str) (e : cover_error) : Prop :=
  match e with
  | InvalidAssignTarget l => place_there src l
  | InvalidPropPatt l => place_there src l
  end.

(** The names that are keywords in strict code or in modules. *)
Definition contextual : list atom :=
  [A_Await; A_Implements; A_Interface; A_Let; A_Package; A_Private; A_Protected; A_Public; A_Static; A_Yield].

Definition honest (V : env) (src : str) (e : perror) : Prop :=
  match e with
  | UnexpectedToken t => delivers V src t
  | FailedASI t => delivers V src t /\ tk_newline t = false
      /\ tk_value t <> TPunc T_Semi /\ tk_value t <> TPunc T_RBrace /\ tk_value t <> TPunc T_EOF
  | LexError x => exists ops, read_tokens V ops (lexer_new src) = Err x
  | TopLevelReturn s => place_there src (Some s)
  | IllegalBreak t => token_there V src t (TReserved R_Break)
  | IllegalContinue t => token_there V src t (TReserved R_Continue)
  | InvalidLabel i => name_there V src (id_loc i) (id_name i)
  | InvalidLabelType i => name_there V src (id_loc i) (id_name i)
  | ContextualKeyword s a => word_there V src (Some s) (NAtom a) /\ In a contextual
  | IllegalStrictBinding s a => word_there V src (Some s) (NAtom a) /\ (a = A_Eval \/ a = A_Arguments)
  | DuplicateDefault t => token_there V src t (TReserved R_Default)
  | StrictWith t => token_there V src t (TReserved R_With)
  | ThrowArgument t => token_there V src t (TReserved R_Throw)
  | OrphanTry t => delivers V src t /\ tk_value t <> TReserved R_Catch /\ tk_value t <> TReserved R_Finally
  | InvalidLHS l x => place_there src l /\ cover_honest src x
  | UnsupportedFeature s => s = lit "destructuring"
  (** These are not returned by the entry points. *)
  | UnexpectedDirective _ _ => False
  | UnexpectedModule _ => False
  | ImportInScript _ => False
  | ExportInScript _ => False
  | ForOfLetExpr _ => False
  | CompoundParamWithUseStrict _ => False
  end.

(** The checks kept for later. *)
Definition check_honest (V : env) (src : str) (c : check) : Prop :=
  match c with Ck_Strict e => honest V src e | Ck_Module e => honest V src e end.

(** A panic in the lexer is one that reading tokens of the text raises. *)
Definition panic_honest (V : env) (src : str) (k : panic) : Prop :=
  (k = P_read_eof \/ k = P_overflow) -> exists ops, read_tokens V ops (lexer_new src) = Panic k.
