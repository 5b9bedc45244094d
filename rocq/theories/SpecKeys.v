(** Specification: documents that differ only in which property keys they call
    computed (C64). *)
From Coq Require Import String List.
From Verif Require Import Base Unjson SpecEstree.
Import ListNotations.

(** The fields the conversion looks at: those of encodings, but [computed] only in member
    expressions. *)
Definition fld (o : object) (k : string) : Prop :=
  In k est_fields /\ (k = "computed"%string -> typed o "MemberExpression").
(** Documents that differ in other fields only, at any depth. *)
Inductive same_plain : json -> json -> Prop :=
| SP_same v : same_plain v v
| SP_array a b : Forall2 same_plain a b -> same_plain (J_Array a) (J_Array b)
| SP_object o p :
    (forall k v, fld o k -> has o k v -> exists w, has p k w /\ same_plain v w) ->
    (forall k w, fld p k -> has p k w -> exists v, has o k v) ->
    same_plain (J_Object o) (J_Object p).

(** ** Positions in a document (C63) *)

(** What is expected at a place of a document. *)
Inductive role := R_Script | R_Statement | R_Expression | R_Property | R_Case | R_Catch | R_Declarator
  | R_Head (* of for and for-in *) | R_OfHead.
(** The fields of nodes and what ESTree expects there; [parts] depends on the node type,
    [fixed_parts] on the place only. *)
Definition parts : list (role * string * string * role) :=
  [ (R_Expression, "BinaryExpression", "left", R_Expression);
    (R_Expression, "BinaryExpression", "right", R_Expression);
    (R_Expression, "LogicalExpression", "left", R_Expression);
    (R_Expression, "LogicalExpression", "right", R_Expression);
    (R_Expression, "AssignmentExpression", "left", R_Expression);
    (R_Expression, "AssignmentExpression", "right", R_Expression);
    (R_Expression, "UnaryExpression", "argument", R_Expression);
    (R_Expression, "UpdateExpression", "argument", R_Expression);
    (R_Expression, "MemberExpression", "object", R_Expression);
    (R_Expression, "CallExpression", "callee", R_Expression);
    (R_Expression, "CallExpression", "arguments", R_Expression);
    (R_Expression, "NewExpression", "callee", R_Expression);
    (R_Expression, "NewExpression", "arguments", R_Expression);
    (R_Expression, "ArrayExpression", "elements", R_Expression);
    (R_Expression, "SpreadElement", "argument", R_Expression);
    (R_Expression, "ObjectExpression", "properties", R_Property);
    (R_Expression, "FunctionExpression", "body", R_Script);
    (R_Expression, "SequenceExpression", "expressions", R_Expression);
    (R_Expression, "ConditionalExpression", "test", R_Expression);
    (R_Expression, "ConditionalExpression", "consequent", R_Expression);
    (R_Expression, "ConditionalExpression", "alternate", R_Expression);
    (R_Statement, "FunctionDeclaration", "body", R_Script);
    (R_Statement, "VariableDeclaration", "declarations", R_Declarator);
    (R_Statement, "ExpressionStatement", "expression", R_Expression);
    (R_Statement, "IfStatement", "test", R_Expression);
    (R_Statement, "IfStatement", "consequent", R_Statement);
    (R_Statement, "IfStatement", "alternate", R_Statement);
    (R_Statement, "LabeledStatement", "body", R_Statement);
    (R_Statement, "WithStatement", "object", R_Expression);
    (R_Statement, "WithStatement", "body", R_Statement);
    (R_Statement, "SwitchStatement", "discriminant", R_Expression);
    (R_Statement, "SwitchStatement", "cases", R_Case);
    (R_Statement, "ReturnStatement", "argument", R_Expression);
    (R_Statement, "ThrowStatement", "argument", R_Expression);
    (R_Statement, "TryStatement", "block", R_Statement);
    (R_Statement, "TryStatement", "handler", R_Catch);
    (R_Statement, "TryStatement", "finalizer", R_Statement);
    (R_Statement, "WhileStatement", "test", R_Expression);
    (R_Statement, "WhileStatement", "body", R_Statement);
    (R_Statement, "DoWhileStatement", "test", R_Expression);
    (R_Statement, "DoWhileStatement", "body", R_Statement);
    (R_Statement, "ForStatement", "init", R_Head);
    (R_Statement, "ForStatement", "test", R_Expression);
    (R_Statement, "ForStatement", "update", R_Expression);
    (R_Statement, "ForStatement", "body", R_Statement);
    (R_Statement, "ForInStatement", "left", R_Head);
    (R_Statement, "ForInStatement", "right", R_Expression);
    (R_Statement, "ForInStatement", "body", R_Statement);
    (R_Statement, "ForOfStatement", "left", R_OfHead);
    (R_Statement, "ForOfStatement", "right", R_Expression);
    (R_Statement, "ForOfStatement", "body", R_Statement);
    (R_Statement, "BlockStatement", "body", R_Statement);
    (R_Head, "VariableDeclaration", "declarations", R_Declarator) ]%string.
Definition fixed_parts : list (role * string * role) :=
  [ (R_Script, "body", R_Statement);
    (R_Case, "test", R_Expression); (R_Case, "consequent", R_Statement);
    (R_Catch, "body", R_Statement); (R_Declarator, "init", R_Expression) ]%string.
(** An object in a field, or in the array in a field. *)
Definition child (o : object) (k : string) (c : object) : Prop :=
  has o k (J_Object c) \/ (exists js, has o k (J_Array js) /\ In (J_Object c) js).
Definition is_true (o : object) (k : string) := has o k (J_Bool true).
Definition is_false (o : object) (k : string) := has o k (J_Bool false).
Definition of_kind (o : object) (k : string) := has o "kind" (J_String (lit k)).

(** The document has the object at a place where the role is expected. *)
Inductive sits (d : object) : role -> object -> Prop :=
| Si_root : sits d R_Script d
| Si_part r o t k r' c : sits d r o -> typed o t -> In (r, t, k, r') parts -> child o k c -> sits d r' c
| Si_fixed r o k r' c : sits d r o -> In (r, k, r') fixed_parts -> child o k c -> sits d r' c
| Si_index o c : sits d R_Expression o -> typed o "MemberExpression" -> is_true o "computed" ->
    child o "property" c -> sits d R_Expression c
| Si_head r o t : sits d r o -> r = R_Head \/ r = R_OfHead -> typed o t -> t <> "VariableDeclaration"%string ->
    sits d R_Expression o
| Si_value o c : sits d R_Property o -> of_kind o "init" -> is_false o "method" -> is_false o "shorthand" ->
    has o "value" (J_Object c) -> sits d R_Expression c
| Si_function o v c : sits d R_Property o ->
    of_kind o "get" \/ of_kind o "set" \/ of_kind o "init" /\ is_true o "method" ->
    has o "value" (J_Object v) -> has v "body" (J_Object c) -> sits d R_Script c.
