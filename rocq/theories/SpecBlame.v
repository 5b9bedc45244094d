(** What each part of an ESTree document must contain, and which errors describe a fault
    of a document.  Written from the ESTree specification and from what the crate asks
    of a document, without reference to how it converts. *)
From Coq Require Import String Ascii List NArith ZArith Bool.
From Verif Require Import Base F64 Word Token Punc Ast Node SpecTree Unjson Estree SpecEstree.
Import ListNotations.
Local Open Scope string_scope.
Local Open Scope list_scope.

(** ** Parts of a document *)

(** The role an object plays where it stands. *)
Inductive role : Type :=
| R_body                      (* a program or the body of a function *)
| R_item (decl : bool)        (* a statement; with [decl], or a declaration *)
| R_expr | R_elem             (* an expression; or a spread element *)
| R_id | R_lit | R_regex | R_key | R_prop | R_getter
| R_fun | R_last              (* a function; its last parameter *)
| R_block | R_case | R_catch | R_dtor | R_dtor_of
| R_for | R_for_in | R_for_of (* the heads of loops *)
| R_any.                      (* an object of which nothing is asked *)

(** What a field must hold. *)
Inductive kind : Type :=
| K_string | K_bool | K_flag | K_value
| K_object (r : role) | K_object_opt (r : role)
| K_list (r : role) | K_holes (r : role) | K_params.

Definition holds (kd : kind) (v : json) : Prop :=
  match kd with
  | K_string => exists s, v = J_String s
  | K_bool => exists b, v = J_Bool b
  | K_flag => v = J_Null \/ exists b, v = J_Bool b
  | K_value => True
  | K_object _ => exists o, v = J_Object o
  | K_object_opt _ => v = J_Null \/ exists o, v = J_Object o
  | K_list _ | K_holes _ | K_params => exists a, v = J_Array a
  end.
(** How an error words it. *)
Definition wording (kd : kind) : string :=
  match kd with
  | K_string => "string"
  | K_bool | K_flag => "boolean"
  | K_value => "value"
  | K_object _ => "object"
  | K_object_opt _ => "object or null"
  | K_list _ | K_holes _ | K_params => "array"
  end.

Definition text (o : object) (k s : string) : Prop := has o k (J_String (lit s)).
Definition flag (o : object) (k : string) (b : bool) : Prop := has o k (J_Bool b).

(** The fields of the node types. *)
Definition expression_fields (t : string) : list (string * kind) :=
  let e k := (k, K_object R_expr) in
  if String.eqb t "BinaryExpression" then [("operator", K_string); e "left"; e "right"]
  else if String.eqb t "LogicalExpression" then [("operator", K_string); e "left"; e "right"]
  else if String.eqb t "AssignmentExpression" then [("operator", K_string); e "left"; e "right"]
  else if String.eqb t "UnaryExpression" then [("operator", K_string); e "argument"]
  else if String.eqb t "UpdateExpression" then [("operator", K_string); e "argument"; ("prefix", K_bool)]
  else if String.eqb t "MemberExpression" then [e "object"; ("computed", K_bool)]
  else if String.eqb t "CallExpression" then [e "callee"; ("arguments", K_list R_elem)]
  else if String.eqb t "NewExpression" then [e "callee"; ("arguments", K_list R_elem)]
  else if String.eqb t "ArrayExpression" then [("elements", K_holes R_elem)]
  else if String.eqb t "FunctionExpression" then [("id", K_object_opt R_id)]
  else if String.eqb t "SequenceExpression" then [("expressions", K_list R_expr)]
  else if String.eqb t "ObjectExpression" then [("properties", K_list R_prop)]
  else if String.eqb t "ConditionalExpression" then [e "test"; e "consequent"; e "alternate"]
  else if String.eqb t "MetaProperty" then [("meta", K_object R_id); ("property", K_object R_id)]
  else [].
Definition item_fields (decl : bool) (t : string) : list (string * kind) :=
  let e k := (k, K_object R_expr) in
  let eo k := (k, K_object_opt R_expr) in
  let s k := (k, K_object (R_item false)) in
  if String.eqb t "FunctionDeclaration" then if decl then [("id", K_object R_id)] else []
  else if String.eqb t "VariableDeclaration" then [("declarations", K_list R_dtor); ("kind", K_string)]
  else if String.eqb t "ExpressionStatement" then [e "expression"]
  else if String.eqb t "IfStatement" then [e "test"; s "consequent"; ("alternate", K_object_opt (R_item false))]
  else if String.eqb t "DoWhileStatement" then [s "body"; e "test"]
  else if String.eqb t "WhileStatement" then [e "test"; s "body"]
  else if String.eqb t "ForStatement" then [("init", K_object_opt R_for); eo "test"; eo "update"; s "body"]
  else if String.eqb t "ForInStatement" then [("left", K_object R_for_in); e "right"; s "body"]
  else if String.eqb t "ForOfStatement" then [("left", K_object R_for_of); e "right"; s "body"]
  else if String.eqb t "ReturnStatement" then [eo "argument"]
  else if String.eqb t "LabeledStatement" then [("label", K_object R_id); s "body"]
  else if String.eqb t "BreakStatement" then [("label", K_object_opt R_id)]
  else if String.eqb t "ContinueStatement" then [("label", K_object_opt R_id)]
  else if String.eqb t "SwitchStatement" then [e "discriminant"; ("cases", K_list R_case)]
  else if String.eqb t "WithStatement" then [e "object"; s "body"]
  else if String.eqb t "ThrowStatement" then [e "argument"]
  else if String.eqb t "TryStatement" then
    [("block", K_object R_block); ("handler", K_object_opt R_catch); ("finalizer", K_object_opt R_block)]
  else [].

(** The roles in which an object has a node type. *)
Definition has_type (r : role) : bool :=
  match r with
  | R_item _ | R_expr | R_elem | R_id | R_key | R_last | R_block | R_for | R_for_in | R_for_of => true
  | _ => false
  end.

(** [asks r o k kd]: an object [o] in the role [r] must have a field [k] that holds [kd]. *)
Inductive asks : role -> object -> string -> kind -> Prop :=
| A_type r o : has_type r = true -> asks r o "type" K_string
| A_body o : asks R_body o "body" (K_list (R_item true))
| A_expr o t k kd : typed o t -> In (k, kd) (expression_fields t) -> asks R_expr o k kd
| A_dot o : typed o "MemberExpression" -> flag o "computed" false -> asks R_expr o "property" (K_object R_id)
| A_brack o : typed o "MemberExpression" -> flag o "computed" true -> asks R_expr o "property" (K_object R_expr)
| A_spread o : typed o "SpreadElement" -> asks R_elem o "argument" (K_object R_expr)
| A_name o : typed o "Identifier" -> asks R_id o "name" K_string
| A_value o : asks R_lit o "value" K_value
| A_regex o : has o "value" J_Null /\ ~ lacks o "regex" \/ (exists v, has o "value" (J_Object v)) ->
    asks R_lit o "regex" (K_object R_regex)
| A_pattern o : asks R_regex o "pattern" K_string
| A_flags o : asks R_regex o "flags" K_string
| A_prop o k kd : In (k, kd) [("key", K_object R_any); ("value", K_object R_any); ("kind", K_string)] ->
    asks R_prop o k kd
| A_method o : text o "kind" "init" -> asks R_prop o "method" K_bool
| A_shorthand o : text o "kind" "init" -> flag o "method" false -> asks R_prop o "shorthand" K_bool
| A_key_short o : text o "kind" "init" -> flag o "method" false -> flag o "shorthand" true ->
    asks R_prop o "key" (K_object R_id)
| A_key o : ~ (text o "kind" "init" /\ flag o "method" false /\ flag o "shorthand" true) ->
    asks R_prop o "key" (K_object R_key)
| A_init o : text o "kind" "init" -> flag o "method" false -> flag o "shorthand" false ->
    asks R_prop o "value" (K_object R_expr)
| A_get o : text o "kind" "get" -> asks R_prop o "value" (K_object R_getter)
| A_function o : text o "kind" "init" /\ flag o "method" true \/ text o "kind" "set" ->
    asks R_prop o "value" (K_object R_fun)
| A_getter o : asks R_getter o "body" (K_object R_body)
| A_fun o k kd : In (k, kd) [("generator", K_flag); ("params", K_params); ("body", K_object R_body)] ->
    asks R_fun o k kd
| A_last o : typed o "RestElement" -> asks R_last o "argument" (K_object R_id)
| A_item b o t k kd : typed o t -> In (k, kd) (item_fields b t) -> asks (R_item b) o k kd
| A_block o : typed o "BlockStatement" -> asks R_block o "body" (K_list (R_item true))
| A_case o k kd : In (k, kd) [("test", K_object_opt R_expr); ("consequent", K_list (R_item true))] ->
    asks R_case o k kd
| A_catch o k kd : In (k, kd) [("param", K_object R_id); ("body", K_object R_block)] -> asks R_catch o k kd
| A_dtor o k kd : In (k, kd) [("id", K_object R_id); ("init", K_object_opt R_expr)] -> asks R_dtor o k kd
| A_dtor_of o : asks R_dtor_of o "id" (K_object R_id)
| A_for r d o k kd : In (r, d) [(R_for, R_dtor); (R_for_in, R_dtor); (R_for_of, R_dtor_of)] ->
    typed o "VariableDeclaration" -> In (k, kd) [("declarations", K_list d); ("kind", K_string)] ->
    asks r o k kd.

(** An object in one role plays another as well. *)
Inductive also_plays : role -> object -> role -> Prop :=
| AP_expr r o t : In (r, t) [(R_elem, "SpreadElement"); (R_for, "VariableDeclaration");
      (R_for_in, "VariableDeclaration"); (R_for_of, "VariableDeclaration")] ->
    ~ typed o t -> also_plays r o R_expr
| AP_id r o : In r [R_expr; R_key] -> typed o "Identifier" -> also_plays r o R_id
| AP_literal o : typed o "Literal" -> also_plays R_expr o R_lit
| AP_key o : ~ typed o "Identifier" -> also_plays R_key o R_lit
| AP_function o : typed o "FunctionExpression" -> also_plays R_expr o R_fun
| AP_declaration o : typed o "FunctionDeclaration" -> also_plays (R_item true) o R_fun
| AP_block b o : typed o "BlockStatement" -> also_plays (R_item b) o R_block.

(** [part d r o]: the object [o] is part of the document [d], in the role [r]. *)
Inductive part (d : object) : role -> object -> Prop :=
| P_document : part d R_body d
| P_also r o r' : part d r o -> also_plays r o r' -> part d r' o
| P_object r o k r' o' : part d r o -> asks r o k (K_object r') \/ asks r o k (K_object_opt r') ->
    has o k (J_Object o') -> part d r' o'
| P_element r o k r' a o' : part d r o -> asks r o k (K_list r') \/ asks r o k (K_holes r') ->
    has o k (J_Array a) -> In (J_Object o') a -> part d r' o'
| P_param r o k a o' b : part d r o -> asks r o k K_params -> has o k (J_Array (a ++ J_Object o' :: b)) ->
    (b = [] -> ~ typed o' "RestElement") -> part d R_id o'
| P_last r o k a o' : part d r o -> asks r o k K_params -> has o k (J_Array (a ++ [J_Object o'])) ->
    part d R_last o'.

(** ** Faults *)

(** The name of the JSON type of a value, as it is printed. *)
Inductive type_name : json -> string -> Prop :=
| TN_null : type_name J_Null "null"
| TN_bool b : type_name (J_Bool b) "boolean"
| TN_i64 z : type_name (J_I64 z) "number"
| TN_u64 n : type_name (J_U64 n) "number"
| TN_f64 f : type_name (J_F64 f) "number"
| TN_string s : type_name (J_String s) "string"
| TN_array a : type_name (J_Array a) "array"
| TN_object o : type_name (J_Object o) "object".
(** The error that names the type wanted and the type of the value found. *)
Definition mismatch (wanted : string) (v : json) (e : json_error) : Prop :=
  exists t n, e = TypeMismatch (lit wanted) t /\ type_name v n /\ ty_text t = lit n.

Definition expression_types : list string :=
  [ "Identifier"; "Literal"; "BinaryExpression"; "AssignmentExpression"; "LogicalExpression";
    "UnaryExpression"; "UpdateExpression"; "MemberExpression"; "CallExpression"; "NewExpression";
    "ArrayExpression"; "FunctionExpression"; "SequenceExpression"; "ObjectExpression";
    "ConditionalExpression"; "ThisExpression"; "MetaProperty" ].
Definition statement_types : list string :=
  [ "VariableDeclaration"; "EmptyStatement"; "ExpressionStatement"; "IfStatement"; "DoWhileStatement";
    "WhileStatement"; "ForStatement"; "ForInStatement"; "ForOfStatement"; "BlockStatement";
    "ReturnStatement"; "LabeledStatement"; "BreakStatement"; "ContinueStatement"; "SwitchStatement";
    "WithStatement"; "ThrowStatement"; "DebuggerStatement"; "TryStatement" ].
(** The node types a role admits, and what it is called. *)
Inductive admits : role -> string -> list string -> Prop :=
| Ad_id : admits R_id "identifier" ["Identifier"]
| Ad_block : admits R_block "block statement" ["BlockStatement"]
| Ad_expr : admits R_expr "expression" expression_types
| Ad_stmt : admits (R_item false) "statement" statement_types
| Ad_item : admits (R_item true) "statement or declaration" ("FunctionDeclaration" :: statement_types).

(** A string that a field must not hold, and what is expected instead. *)
Inductive bad_string : role -> object -> string -> str -> Prop :=
| B_binary o s : typed o "BinaryExpression" -> has o "operator" (J_String s) ->
    (forall t, s <> binop_tag_text t) -> bad_string R_expr o "binary operator" s
| B_logical o s : typed o "LogicalExpression" -> has o "operator" (J_String s) ->
    (forall t, s <> logop_tag_text t) -> bad_string R_expr o "logical operator" s
| B_assign o s : typed o "AssignmentExpression" -> has o "operator" (J_String s) ->
    s <> lit "=" -> (forall t, s <> assop_tag_text t) -> bad_string R_expr o "assignment operator" s
| B_unary o s : typed o "UnaryExpression" -> has o "operator" (J_String s) ->
    (forall t, s <> lit (unop_spelling t)) -> bad_string R_expr o "unary operator" s
| B_update o s : typed o "UpdateExpression" -> has o "operator" (J_String s) ->
    s <> lit "++" -> s <> lit "--" -> bad_string R_expr o "'++' or '--'" s
| B_meta o m p s t : typed o "MetaProperty" -> has o "meta" (J_Object m) -> has m "name" (J_String s) ->
    has o "property" (J_Object p) -> has p "name" (J_String t) -> ~ (s = lit "new" /\ t = lit "target") ->
    bad_string R_expr o "new.target" (s ++ lit "." ++ t)%list
| B_kind r o s : In r [R_item true; R_item false; R_for; R_for_in; R_for_of] ->
    typed o "VariableDeclaration" -> has o "kind" (J_String s) ->
    (forall k, In k ["var"; "let"; "const"] -> s <> lit k) -> bad_string r o "var or let" s
| B_nested o k : typed o "VariableDeclaration" -> text o "kind" k -> In k ["let"; "const"] ->
    bad_string (R_item false) o "var" (lit k).

(** The number of parameters of a function besides a rest parameter. *)
Definition arity (o : object) (n : nat) : Prop :=
  exists a rest, has o "params" (J_Array (a ++ rest)) /\ length a = n
    /\ (rest = [] \/ exists r, rest = [J_Object r] /\ typed r "RestElement")
    /\ (rest = [] -> forall a' r, a = a' ++ [J_Object r] -> ~ typed r "RestElement").

(** An array with a wrong number of elements: the declarations of a loop over properties
    or elements, and the parameters of a setter. *)
Inductive bad_length : role -> object -> nat -> nat -> Prop :=
| BL_for r o a : In r [R_for_in; R_for_of] -> typed o "VariableDeclaration" ->
    has o "declarations" (J_Array a) -> length a <> 1%nat -> bad_length r o 1%nat (length a)
| BL_set o v n : text o "kind" "set" -> has o "value" (J_Object v) -> arity v n -> n <> 1%nat ->
    bad_length R_prop o 1%nat n.

(** A left side that is no assignment target, and the field it stands in. *)
Inductive bad_left : role -> object -> string -> Prop :=
| BA_assign o l e : typed o "AssignmentExpression" -> text o "operator" "=" ->
    has o "left" (J_Object l) -> est false l (N_expr e) -> (forall p, rests_unlocated p -> e <> patt_expr p) ->
    bad_left R_expr o "left"
| BA_op o t l e : typed o "AssignmentExpression" -> has o "operator" (J_String (assop_tag_text t)) ->
    has o "left" (J_Object l) -> est false l (N_expr e) -> (forall x, e <> target_expr x) ->
    bad_left R_expr o "left"
| BA_update o l e : typed o "UpdateExpression" ->
    has o "argument" (J_Object l) -> est false l (N_expr e) -> (forall x, e <> target_expr x) ->
    bad_left R_expr o "argument"
| BA_for r o e : In r [R_for_in; R_for_of] ->
    est false o (N_expr e) -> (forall p, rests_unlocated p -> e <> patt_expr p) -> bad_left r o "left".

(** [fault d e]: the error [e] describes something wrong in the document [d]. *)
Inductive fault (d : object) : est_error -> Prop :=
| F_missing r o k kd : part d r o -> asks r o k kd -> lacks o k -> fault d (EE_Json (MissingField (lit k)))
| F_type r o k kd v e : part d r o -> asks r o k kd -> has o k v -> ~ holds kd v ->
    mismatch (wording kd) v e -> fault d (EE_Json e)
| F_element r o k r' a v e : part d r o -> asks r o k (K_list r') \/ asks r o k K_params ->
    has o k (J_Array a) -> In v a -> (forall o', v <> J_Object o') -> mismatch "object" v e -> fault d (EE_Json e)
| F_hole r o k r' a v e : part d r o -> asks r o k (K_holes r') ->
    has o k (J_Array a) -> In v a -> v <> J_Null -> (forall o', v <> J_Object o') ->
    mismatch "object or null" v e -> fault d (EE_Json e)
| F_value o a e : part d R_lit o -> has o "value" (J_Array a) ->
    mismatch "null, number, boolean, string, or object" (J_Array a) e -> fault d (EE_Json e)
| F_key o e : part d R_key o -> ~ typed o "Identifier" ->
    (forall v, has o "value" v -> ~ type_name v "number" /\ ~ type_name v "string") ->
    mismatch "identifier, number literal, or string literal" (J_Object o) e -> fault d (EE_Json e)
| F_kind o s e : part d R_prop o -> has o "kind" (J_String s) ->
    (forall k, In k ["init"; "get"; "set"] -> s <> lit k) ->
    mismatch "'init', 'get', or 'set'" (J_String s) e -> fault d (EE_Json e)
| F_string r o wanted s : part d r o -> bad_string r o wanted s ->
    fault d (EE_Json (IllegalString (lit wanted) s))
| F_length r o m n : part d r o -> bad_length r o m n -> fault d (EE_Json (WrongArrayLength m n))
| F_tag r o s : part d r o -> has_type r = true -> has o "type" (J_String s) ->
    (forall t, In t node_types -> s <> lit t) -> fault d (EE_InvalidTypeTag s)
| F_node r o wanted l t tg : part d r o -> admits r wanted l -> typed o t -> ~ In t l ->
    tag_text tg = lit t -> fault d (EE_NodeTypeMismatch (lit wanted) tg)
| F_initializer o k v x e : part d R_for_in o -> typed o "VariableDeclaration" ->
    has o "kind" (J_String k) -> k <> lit "var" -> has o "declarations" (J_Array [J_Object v]) ->
    has v "init" (J_Object x) -> est false x (N_expr e) -> fault d (EE_UnexpectedInitializer e)
| F_left r o k : part d r o -> bad_left r o k -> fault d (EE_InvalidLHS (lit k))
| F_constant r o a v i : part d r o -> In r [R_item true; R_for] -> typed o "VariableDeclaration" ->
    text o "kind" "const" -> has o "declarations" (J_Array a) -> In (J_Object v) a ->
    est_id_at v "id" i -> has v "init" J_Null -> fault d (EE_UninitializedPattern (Simple i)).
