(** Operators and semicolons.  Models easter/src/punc.rs. *)
From Coq Require Import String Ascii List NArith Bool.
From Verif Require Import Base Word Token.
Import ListNotations.
Open Scope N_scope.

(** easter/src/punc.rs:9-12 *)
Inductive semi : Type :=
| Inserted
| Explicit (p : option posn).

(** easter/src/punc.rs:21-29; derived [PartialEq] *)
Inductive unop_tag : Type :=
| Un_Minus
| Un_Plus
| Un_Not
| Un_BitNot
| Un_Typeof
| Un_Void
| Un_Delete.
Scheme Equality for unop_tag.
Definition unop_tag_eqb := unop_tag_beq.

(** easter/src/punc.rs:34-45 [from_str] *)
Definition unop_tag_from_table : list (str * unop_tag) :=
  [ (lit "-", Un_Minus);
    (lit "+", Un_Plus);
    (lit "!", Un_Not);
    (lit "~", Un_BitNot);
    (lit "typeof", Un_Typeof);
    (lit "void", Un_Void);
    (lit "delete", Un_Delete) ].
Definition unop_tag_from_str (s : str) : option unop_tag := assoc unop_tag_from_table s.

(** easter/src/punc.rs:49-52 *)
Record op (T : Type) : Type := Op { op_loc : loc; op_tag : T }.
Arguments Op {T} _ _.
Arguments op_loc {T} _.
Arguments op_tag {T} _.

(** easter/src/punc.rs:57-62 [Op::from_str], given the tag's parser *)
Definition op_from_str {T} (f : str -> option T) (s : str) : option (op T) :=
  match f s with Some t => Some (Op None t) | None => None end.

(** easter/src/punc.rs:74-76 [Op] prints its tag *)
Definition op_text {T} (f : T -> str) (o : op T) : str := f (op_tag o).

(** easter/src/punc.rs:48 derived [PartialEq] *)
Definition op_eqb {T} (eqb : T -> T -> bool) (a b : op T) : bool :=
  opt_eqb span_eqb (op_loc a) (op_loc b) && eqb (op_tag a) (op_tag b).

(** easter/src/punc.rs:98-120; derived [PartialEq] *)
Inductive binop_tag : Type :=
| Bi_Eq
| Bi_NEq
| Bi_StrictEq
| Bi_StrictNEq
| Bi_Lt
| Bi_LEq
| Bi_Gt
| Bi_GEq
| Bi_LShift
| Bi_RShift
| Bi_URShift
| Bi_Plus
| Bi_Minus
| Bi_Times
| Bi_Div
| Bi_Mod
| Bi_BitOr
| Bi_BitXor
| Bi_BitAnd
| Bi_In
| Bi_Instanceof.
Scheme Equality for binop_tag.
Definition binop_tag_eqb := binop_tag_beq.

(** easter/src/punc.rs:125-150 [from_str] *)
Definition binop_tag_from_table : list (str * binop_tag) :=
  [ (lit "==", Bi_Eq);
    (lit "!=", Bi_NEq);
    (lit "===", Bi_StrictEq);
    (lit "!==", Bi_StrictNEq);
    (lit "<", Bi_Lt);
    (lit "<=", Bi_LEq);
    (lit ">", Bi_Gt);
    (lit ">=", Bi_GEq);
    (lit "<<", Bi_LShift);
    (lit ">>", Bi_RShift);
    (lit ">>>", Bi_URShift);
    (lit "+", Bi_Plus);
    (lit "-", Bi_Minus);
    (lit "*", Bi_Times);
    (lit "/", Bi_Div);
    (lit "%", Bi_Mod);
    (lit "|", Bi_BitOr);
    (lit "^", Bi_BitXor);
    (lit "&", Bi_BitAnd);
    (lit "in", Bi_In);
    (lit "instanceof", Bi_Instanceof) ].
Definition binop_tag_from_str (s : str) : option binop_tag := assoc binop_tag_from_table s.

(** easter/src/punc.rs:154-178 [precedence] *)
Definition binop_tag_precedence (t : binop_tag) : N :=
  match t with
  | Bi_Eq => 7
  | Bi_NEq => 7
  | Bi_StrictEq => 7
  | Bi_StrictNEq => 7
  | Bi_Lt => 8
  | Bi_LEq => 8
  | Bi_Gt => 8
  | Bi_GEq => 8
  | Bi_LShift => 9
  | Bi_RShift => 9
  | Bi_URShift => 9
  | Bi_Plus => 10
  | Bi_Minus => 10
  | Bi_Times => 11
  | Bi_Div => 11
  | Bi_Mod => 11
  | Bi_BitOr => 4
  | Bi_BitXor => 5
  | Bi_BitAnd => 6
  | Bi_In => 8
  | Bi_Instanceof => 8
  end.

(** easter/src/punc.rs:184-208 [Display] *)
Definition binop_tag_text (t : binop_tag) : str :=
  lit match t with
  | Bi_Eq => "=="
  | Bi_NEq => "!="
  | Bi_StrictEq => "==="
  | Bi_StrictNEq => "!=="
  | Bi_Lt => "<"
  | Bi_LEq => "<="
  | Bi_Gt => ">"
  | Bi_GEq => ">="
  | Bi_LShift => "<<"
  | Bi_RShift => ">>"
  | Bi_URShift => ">>>"
  | Bi_Plus => "+"
  | Bi_Minus => "-"
  | Bi_Times => "*"
  | Bi_Div => "/"
  | Bi_Mod => "%"
  | Bi_BitOr => "|"
  | Bi_BitXor => "^"
  | Bi_BitAnd => "&"
  | Bi_In => "in"
  | Bi_Instanceof => "instanceof"
  end.

(** easter/src/punc.rs:212-215; derived [PartialEq] *)
Inductive logop_tag : Type :=
| Lo_Or
| Lo_And.
Scheme Equality for logop_tag.
Definition logop_tag_eqb := logop_tag_beq.

(** easter/src/punc.rs:220-226 [from_str] *)
Definition logop_tag_from_table : list (str * logop_tag) :=
  [ (lit "||", Lo_Or);
    (lit "&&", Lo_And) ].
Definition logop_tag_from_str (s : str) : option logop_tag := assoc logop_tag_from_table s.

(** easter/src/punc.rs:230-235 [precedence] *)
Definition logop_tag_precedence (t : logop_tag) : N :=
  match t with
  | Lo_Or => 2
  | Lo_And => 3
  end.

(** easter/src/punc.rs:241-246 [Display] *)
Definition logop_tag_text (t : logop_tag) : str :=
  lit match t with
  | Lo_Or => "||"
  | Lo_And => "&&"
  end.

(** easter/src/punc.rs:250-262; derived [PartialEq] *)
Inductive assop_tag : Type :=
| As_PlusEq
| As_MinusEq
| As_TimesEq
| As_DivEq
| As_ModEq
| As_LShiftEq
| As_RShiftEq
| As_URShiftEq
| As_BitOrEq
| As_BitXorEq
| As_BitAndEq.
Scheme Equality for assop_tag.
Definition assop_tag_eqb := assop_tag_beq.

(** easter/src/punc.rs:267-282 [from_str] *)
Definition assop_tag_from_table : list (str * assop_tag) :=
  [ (lit "+=", As_PlusEq);
    (lit "-=", As_MinusEq);
    (lit "*=", As_TimesEq);
    (lit "/=", As_DivEq);
    (lit "%=", As_ModEq);
    (lit "<<=", As_LShiftEq);
    (lit ">>=", As_RShiftEq);
    (lit ">>>=", As_URShiftEq);
    (lit "|=", As_BitOrEq);
    (lit "^=", As_BitXorEq);
    (lit "&=", As_BitAndEq) ].
Definition assop_tag_from_str (s : str) : option assop_tag := assoc assop_tag_from_table s.

(** easter/src/punc.rs:292-306 [Display] *)
Definition assop_tag_text (t : assop_tag) : str :=
  lit match t with
  | As_PlusEq => "+="
  | As_MinusEq => "-="
  | As_TimesEq => "*="
  | As_DivEq => "/="
  | As_ModEq => "%="
  | As_LShiftEq => "<<="
  | As_RShiftEq => ">>="
  | As_URShiftEq => ">>>="
  | As_BitOrEq => "|="
  | As_BitXorEq => "^="
  | As_BitAndEq => "&="
  end.

Definition unop : Type := op unop_tag.
Definition binop : Type := op binop_tag.
Definition logop : Type := op logop_tag.
Definition assop : Type := op assop_tag.

(** easter/src/punc.rs:319-342: the tag of a binary operator token *)
Definition td_binop (v : token_data) (allow_in : bool) : option binop_tag :=
  match v with
  | TPunc p =>
      match p with
      | T_Star => Some Bi_Times
      | T_Slash => Some Bi_Div
      | T_Mod => Some Bi_Mod
      | T_Plus => Some Bi_Plus
      | T_Minus => Some Bi_Minus
      | T_LShift => Some Bi_LShift
      | T_RShift => Some Bi_RShift
      | T_URShift => Some Bi_URShift
      | T_LAngle => Some Bi_Lt
      | T_RAngle => Some Bi_Gt
      | T_LEq => Some Bi_LEq
      | T_GEq => Some Bi_GEq
      | T_Eq => Some Bi_Eq
      | T_NEq => Some Bi_NEq
      | T_StrictEq => Some Bi_StrictEq
      | T_StrictNEq => Some Bi_StrictNEq
      | T_BitAnd => Some Bi_BitAnd
      | T_BitXor => Some Bi_BitXor
      | T_BitOr => Some Bi_BitOr
      | _ => None
      end
  | TReserved R_Instanceof => Some Bi_Instanceof
  | TReserved R_In => if allow_in then Some Bi_In else None
  | _ => None
  end.

(** easter/src/punc.rs:349-353 *)
Definition td_logop (v : token_data) : option logop_tag :=
  match v with
  | TPunc T_LogicalAnd => Some Lo_And
  | TPunc T_LogicalOr => Some Lo_Or
  | _ => None
  end.

(** easter/src/punc.rs:360-373 *)
Definition td_assop (v : token_data) : option assop_tag :=
  match v with
  | TPunc p =>
      match p with
      | T_PlusAssign => Some As_PlusEq
      | T_MinusAssign => Some As_MinusEq
      | T_StarAssign => Some As_TimesEq
      | T_SlashAssign => Some As_DivEq
      | T_ModAssign => Some As_ModEq
      | T_LShiftAssign => Some As_LShiftEq
      | T_RShiftAssign => Some As_RShiftEq
      | T_URShiftAssign => Some As_URShiftEq
      | T_BitAndAssign => Some As_BitAndEq
      | T_BitOrAssign => Some As_BitOrEq
      | T_BitXorAssign => Some As_BitXorEq
      | _ => None
      end
  | _ => None
  end.

(** easter/src/punc.rs:316-344 [to_binop], 346-355 [to_logop], 357-375 [to_assop] *)
Definition mk_op {T} (t : token) (o : option T) : option (op T) :=
  match o with Some tag => Some (Op (Some (tk_loc t)) tag) | None => None end.
Definition to_binop (t : token) (allow_in : bool) : option binop := mk_op t (td_binop (tk_value t) allow_in).
Definition to_logop (t : token) : option logop := mk_op t (td_logop (tk_value t)).
Definition to_assop (t : token) : option assop := mk_op t (td_assop (tk_value t)).
