(** ESTree: which JSON objects encode which syntax trees.  Written from the ESTree
    specification and from what the crate accepts, without reference to how it
    converts. *)
From Coq Require Import String Ascii List NArith ZArith Bool.
From Coq Require DecimalString.
From Verif Require Import Base F64 Word Token Punc Ast Node SpecTree Unjson.
Import ListNotations.

(** ** JSON objects as maps *)

(** The object's value for a key is [v]. *)
Definition field (o : object) (k : str) (v : json) : Prop :=
  exists before after, o = before ++ (k, v) :: after /\ ~ In k (map fst before).
Definition has (o : object) (k : string) (v : json) : Prop := field o (lit k) v.
Definition lacks (o : object) (k : string) : Prop := forall v, ~ has o k v.

(** ** Node types *)
Definition node_types : list string :=
  [ "Identifier"; "Literal"; "BinaryExpression"; "AssignmentExpression"; "LogicalExpression";
    "UnaryExpression"; "UpdateExpression"; "MemberExpression"; "CallExpression"; "NewExpression";
    "ArrayExpression"; "FunctionExpression"; "SequenceExpression"; "ObjectExpression";
    "ConditionalExpression"; "ThisExpression"; "MetaProperty"; "SpreadElement"; "RestElement";
    "FunctionDeclaration"; "VariableDeclaration"; "EmptyStatement"; "ExpressionStatement";
    "IfStatement"; "DoWhileStatement"; "WhileStatement"; "ForStatement"; "ForInStatement";
    "ForOfStatement"; "BlockStatement"; "ReturnStatement"; "LabeledStatement"; "BreakStatement";
    "ContinueStatement"; "SwitchStatement"; "WithStatement"; "ThrowStatement"; "DebuggerStatement";
    "TryStatement" ]%string.
Definition typed (o : object) (t : string) : Prop := has o "type" (J_String (lit t)).

(** ** Leaves *)

(** The decimal digits of an integer, and its nearest double. *)
Definition decimal (z : Z) : str := lit (DecimalString.NilZero.string_of_int (Z.to_int z)).
Definition integer_literal (z : Z) : number_literal :=
  NumberLiteral (Some (DecimalInt (decimal z) None)) (f64_of_Z z).

Inductive est_id : object -> id -> Prop :=
| EI o s : typed o "Identifier" -> has o "name" (J_String s) -> est_id o (Id None (name_from s)).
Inductive est_id_at (o : object) (k : string) : id -> Prop :=
| EIA o' i : has o k (J_Object o') -> est_id o' i -> est_id_at o k i.
Inductive est_id_opt (o : object) (k : string) : option id -> Prop :=
| EIO_none : has o k J_Null -> est_id_opt o k None
| EIO_some i : est_id_at o k i -> est_id_opt o k (Some i).

(** The value of a literal; a regular expression has a value JSON cannot express and a
    field of its own. *)
Inductive est_value (o : object) : expr -> Prop :=
| EV_null : has o "value" J_Null -> lacks o "regex" -> est_value o (E_Null None)
| EV_true : has o "value" (J_Bool true) -> est_value o (E_True None)
| EV_false : has o "value" (J_Bool false) -> est_value o (E_False None)
| EV_string s : has o "value" (J_String s) -> est_value o (E_String None (StringLiteral None s))
| EV_i64 z : has o "value" (J_I64 z) -> est_value o (E_Number None (integer_literal z))
| EV_u64 n : has o "value" (J_U64 n) -> est_value o (E_Number None (integer_literal (Z.of_N n)))
| EV_f64 f : has o "value" (J_F64 f) -> est_value o (E_Number None (NumberLiteral None f))
| EV_regexp r p f :
    has o "value" J_Null \/ (exists v, has o "value" (J_Object v)) ->
    has o "regex" (J_Object r) -> has r "pattern" (J_String p) -> has r "flags" (J_String f) ->
    est_value o (E_RegExp None (RegExpLiteral p f)).

(** Where the crate accepts more than ESTree, [std] tells ESTree's own encodings. *)
Section Std.
Variable std : bool.
Definition also (P : Prop) : Prop := std = true -> P.

(** Property keys.  Without [std] the type of a key that is not an identifier may be
    any node type. *)
Inductive est_key (o : object) : prop_key -> Prop :=
| EK_id s : typed o "Identifier" -> has o "name" (J_String s) -> est_key o (PK_Id None s)
| EK_number t n : In t node_types -> t <> "Identifier"%string -> typed o t -> also (t = "Literal"%string) ->
    est_value o (E_Number None n) -> est_key o (PK_Number None n)
| EK_string t s : In t node_types -> t <> "Identifier"%string -> typed o t -> also (t = "Literal"%string) ->
    est_value o (E_String None s) -> est_key o (PK_String None s).
Inductive est_key_at (o : object) : prop_key -> Prop :=
| EKA o' k : has o "key" (J_Object o') -> est_key o' k -> est_key_at o k.

(** Formal parameters: identifiers, and a last rest element. *)
Inductive est_param : json -> patt id -> Prop :=
| EPa o i : est_id o i -> est_param (J_Object o) (Simple i).
Inductive est_params : list json -> params -> Prop :=
| EPs js ps : Forall2 est_param js ps -> est_params js (Params None ps None)
| EPs_rest js ps o i : Forall2 est_param js ps ->
    typed o "RestElement" -> est_id_at o "argument" i ->
    est_params (js ++ [J_Object o]) (Params None ps (Some (RestPatt None (Simple i)))).

(** The semicolon of a converted statement. *)
Definition semicolon : semi := Explicit None.

(** The declarators of a constant are those of a variable with a value. *)
Inductive const_of : dtor -> const_dtor -> Prop :=
| CO i e : const_of (Dt_Simple None i (Some e)) (CDt None (Simple i) e).

(** A list of statements split into directives and the rest: the directives come first,
    and the first of the rest is not one. *)
Definition directive_item (d : dir) (i : item) : Prop :=
  exists l, i = I_Stmt (S_Expr (dir_loc d) (E_String l (dir_string d)) (dir_semi d)).
Definition is_directive (i : item) : Prop := exists d, directive_item d i.
Inductive splits (l : list item) : list dir -> list item -> Prop :=
| SP front items ds : l = front ++ items -> Forall2 directive_item ds front ->
    (forall i rest, items = i :: rest -> ~ is_directive i) -> splits l ds items.

(** A pattern that is a variable or a property, not a destructuring pattern: those have
    node types of their own in ESTree, and the crate takes array and object expressions
    for them. *)
Definition plain_patt (p : patt target) : Prop := exists t, p = Simple t.

(** ** Nodes *)

(** [est o n]: the object encodes the node.  [est_at o k n]: the field [k] of the object
    is an object that encodes the node; [est_opt]: or is null, for no node; [est_list]:
    is an array of objects that encode the nodes in order; [est_holes]: or nulls.
    At an [N_fexpr] node the name of the function is not looked at. *)
Inductive est : object -> node -> Prop :=
(* expressions *)
| Es_id o i : est_id o i -> est o (N_expr (E_Id i))
| Es_literal o e : typed o "Literal" -> est_value o e -> est o (N_expr e)
| Es_binary o t l r : typed o "BinaryExpression" -> has o "operator" (J_String (binop_tag_text t)) ->
    est_at o "left" (N_expr l) -> est_at o "right" (N_expr r) ->
    est o (N_expr (E_Binop None (Op None t) l r))
| Es_logical o t l r : typed o "LogicalExpression" -> has o "operator" (J_String (logop_tag_text t)) ->
    est_at o "left" (N_expr l) -> est_at o "right" (N_expr r) ->
    est o (N_expr (E_Logop None (Op None t) l r))
| Es_assign o l r p : typed o "AssignmentExpression" -> has o "operator" (J_String (lit "=")) ->
    est_at o "left" (N_expr l) -> est_at o "right" (N_expr r) ->
    l = patt_expr p -> rests_unlocated p -> also (plain_patt p) ->
    est o (N_expr (E_Assign None p r))
| Es_assignop o t l r x : typed o "AssignmentExpression" ->
    has o "operator" (J_String (assop_tag_text t)) ->
    est_at o "left" (N_expr l) -> est_at o "right" (N_expr r) -> l = target_expr x ->
    est o (N_expr (E_BinAssign None (Op None t) x r))
| Es_unary o t a : typed o "UnaryExpression" -> has o "operator" (J_String (lit (unop_spelling t))) ->
    also (has o "prefix" (J_Bool true)) ->
    est_at o "argument" (N_expr a) -> est o (N_expr (E_Unop None (Op None t) a))
| Es_preinc o a x : typed o "UpdateExpression" -> has o "operator" (J_String (lit "++")) ->
    has o "prefix" (J_Bool true) -> est_at o "argument" (N_expr a) -> a = target_expr x ->
    est o (N_expr (E_PreInc None x))
| Es_postinc o a x : typed o "UpdateExpression" -> has o "operator" (J_String (lit "++")) ->
    has o "prefix" (J_Bool false) -> est_at o "argument" (N_expr a) -> a = target_expr x ->
    est o (N_expr (E_PostInc None x))
| Es_predec o a x : typed o "UpdateExpression" -> has o "operator" (J_String (lit "--")) ->
    has o "prefix" (J_Bool true) -> est_at o "argument" (N_expr a) -> a = target_expr x ->
    est o (N_expr (E_PreDec None x))
| Es_postdec o a x : typed o "UpdateExpression" -> has o "operator" (J_String (lit "--")) ->
    has o "prefix" (J_Bool false) -> est_at o "argument" (N_expr a) -> a = target_expr x ->
    est o (N_expr (E_PostDec None x))
| Es_dot o a p s : typed o "MemberExpression" -> has o "computed" (J_Bool false) ->
    est_at o "object" (N_expr a) -> has o "property" (J_Object p) ->
    typed p "Identifier" -> has p "name" (J_String s) ->
    est o (N_expr (E_Dot None a (DotKey None s)))
| Es_brack o a b : typed o "MemberExpression" -> has o "computed" (J_Bool true) ->
    est_at o "object" (N_expr a) -> est_at o "property" (N_expr b) ->
    est o (N_expr (E_Brack None a b))
| Es_call o a args : typed o "CallExpression" -> est_at o "callee" (N_expr a) ->
    est_list o "arguments" (map N_eli args) -> est o (N_expr (E_Call None a args))
| Es_new o a args : typed o "NewExpression" -> est_at o "callee" (N_expr a) ->
    est_list o "arguments" (map N_eli args) -> est o (N_expr (E_New None a (Some args)))
| Es_array o es : typed o "ArrayExpression" -> est_holes o "elements" (map (option_map N_eli) es) ->
    est o (N_expr (E_Arr None es))
| Es_object o ps : typed o "ObjectExpression" -> est_list o "properties" (map N_prop ps) ->
    est o (N_expr (E_Obj None ps))
| Es_function o i f : typed o "FunctionExpression" -> est_id_opt o "id" i -> fn_id f = i ->
    est o (N_fexpr f) -> est o (N_expr (E_Fun f))
| Es_sequence o es : typed o "SequenceExpression" -> est_list o "expressions" (map N_expr es) ->
    est o (N_expr (E_Seq None es))
| Es_cond o a b c : typed o "ConditionalExpression" -> est_at o "test" (N_expr a) ->
    est_at o "consequent" (N_expr b) -> est_at o "alternate" (N_expr c) ->
    est o (N_expr (E_Cond None a b c))
| Es_this o : typed o "ThisExpression" -> est o (N_expr (E_This None))
| Es_newtarget o m p : typed o "MetaProperty" ->
    has o "meta" (J_Object m) -> typed m "Identifier" -> has m "name" (J_String (lit "new")) ->
    has o "property" (J_Object p) -> typed p "Identifier" -> has p "name" (J_String (lit "target")) ->
    est o (N_expr (E_NewTarget None))
(* list items *)
| Es_item o e : est o (N_expr e) -> est o (N_eli (L_Expr e))
| Es_spread o e : typed o "SpreadElement" -> est_at o "argument" (N_expr e) ->
    est o (N_eli (L_Spread None e))
(* properties *)
| Es_init o k e : also (typed o "Property") -> also (has o "computed" (J_Bool false)) ->
    has o "kind" (J_String (lit "init")) ->
    has o "method" (J_Bool false) -> has o "shorthand" (J_Bool false) -> est_key_at o k ->
    est_at o "value" (N_expr e) -> est o (N_prop (Pr_Regular None k (PV_Init e)))
| Es_shorthand o i v : also (typed o "Property") -> also (has o "computed" (J_Bool false)) ->
    has o "kind" (J_String (lit "init")) ->
    has o "method" (J_Bool false) -> has o "shorthand" (J_Bool true) -> est_id_at o "key" i ->
    has o "value" (J_Object v) -> also (est_id v i) -> est o (N_prop (Pr_Shorthand i))
| Es_method o k v f ps b g : also (typed o "Property") -> also (has o "computed" (J_Bool false)) ->
    has o "kind" (J_String (lit "init")) ->
    has o "method" (J_Bool true) -> also (has o "shorthand" (J_Bool false)) -> est_key_at o k ->
    has o "value" (J_Object v) ->
    also (typed v "FunctionExpression" /\ has v "id" J_Null) -> f = Fun None None ps b g ->
    est v (N_fexpr f) -> est o (N_prop (Pr_Method (Fun None k ps b g)))
| Es_get o k v bo b : also (typed o "Property") -> also (has o "computed" (J_Bool false)) ->
    has o "kind" (J_String (lit "get")) ->
    also (has o "method" (J_Bool false) /\ has o "shorthand" (J_Bool false)) -> est_key_at o k ->
    has o "value" (J_Object v) ->
    also (typed v "FunctionExpression" /\ has v "id" J_Null /\ has v "params" (J_Array [])
          /\ has v "generator" (J_Bool false)) ->
    has v "body" (J_Object bo) -> also (typed bo "BlockStatement") -> est bo (N_body b) ->
    est o (N_prop (Pr_Regular None k (PV_Get None b)))
| Es_set o k v f p rest b g : also (typed o "Property") -> also (has o "computed" (J_Bool false)) ->
    has o "kind" (J_String (lit "set")) ->
    also (has o "method" (J_Bool false) /\ has o "shorthand" (J_Bool false)) -> est_key_at o k ->
    has o "value" (J_Object v) ->
    also (typed v "FunctionExpression" /\ has v "id" J_Null /\ rest = None /\ g = false) ->
    f = Fun None None (Params None [p] rest) b g -> est v (N_fexpr f) ->
    est o (N_prop (Pr_Regular None k (PV_Set None p b)))
(* functions and scripts *)
| Es_fun o i ps b g v js bo : has o "generator" v -> v = J_Bool g \/ v = J_Null /\ g = false ->
    also (v = J_Bool g) ->
    has o "params" (J_Array js) -> est_params js ps ->
    has o "body" (J_Object bo) -> also (typed bo "BlockStatement") -> est bo (N_body b) ->
    est o (N_fexpr (Fun None i ps b g))
| Es_body o l ds is : est_list o "body" (map N_item l) -> splits l ds is ->
    est o (N_body (Body None ds is))
(* statements *)
| Es_empty o : typed o "EmptyStatement" -> est o (N_stmt (S_Empty None))
| Es_block o b : est o (N_block b) -> est o (N_stmt (S_Block b))
| Es_var o ds : typed o "VariableDeclaration" -> has o "kind" (J_String (lit "var")) ->
    est_list o "declarations" (map N_dtor ds) -> est o (N_stmt (S_Var None ds semicolon))
| Es_expr o e : typed o "ExpressionStatement" -> est_at o "expression" (N_expr e) ->
    est o (N_stmt (S_Expr None e semicolon))
| Es_if o e a b : typed o "IfStatement" -> est_at o "test" (N_expr e) ->
    est_at o "consequent" (N_stmt a) -> est_opt o "alternate" (option_map N_stmt b) ->
    est o (N_stmt (S_If None e a b))
| Es_label o i b : typed o "LabeledStatement" -> est_id_at o "label" i -> est_at o "body" (N_stmt b) ->
    est o (N_stmt (S_Label None i b))
| Es_break o i : typed o "BreakStatement" -> est_id_opt o "label" i ->
    est o (N_stmt (S_Break None i semicolon))
| Es_continue o i : typed o "ContinueStatement" -> est_id_opt o "label" i ->
    est o (N_stmt (S_Cont None i semicolon))
| Es_with o e b : typed o "WithStatement" -> est_at o "object" (N_expr e) -> est_at o "body" (N_stmt b) ->
    est o (N_stmt (S_With None e b))
| Es_switch o e cs : typed o "SwitchStatement" -> est_at o "discriminant" (N_expr e) ->
    est_list o "cases" (map N_case cs) -> est o (N_stmt (S_Switch None e cs))
| Es_return o e : typed o "ReturnStatement" -> est_opt o "argument" (option_map N_expr e) ->
    est o (N_stmt (S_Return None e semicolon))
| Es_throw o e : typed o "ThrowStatement" -> est_at o "argument" (N_expr e) ->
    est o (N_stmt (S_Throw None e semicolon))
| Es_try o b c f : typed o "TryStatement" -> est_at o "block" (N_block b) ->
    est_opt o "handler" (option_map N_catch c) -> est_opt o "finalizer" (option_map N_block f) ->
    est o (N_stmt (S_Try None b c f))
| Es_while o e b : typed o "WhileStatement" -> est_at o "test" (N_expr e) -> est_at o "body" (N_stmt b) ->
    est o (N_stmt (S_While None e b))
| Es_dowhile o e b : typed o "DoWhileStatement" -> est_at o "test" (N_expr e) ->
    est_at o "body" (N_stmt b) -> est o (N_stmt (S_DoWhile None b e semicolon))
| Es_for o h t u b : typed o "ForStatement" -> est_opt o "init" (option_map N_fh h) ->
    est_opt o "test" (option_map N_expr t) -> est_opt o "update" (option_map N_expr u) ->
    est_at o "body" (N_stmt b) -> est o (N_stmt (S_For None h t u b))
| Es_forin o h e b : typed o "ForInStatement" -> est_at o "left" (N_fi h) ->
    est_at o "right" (N_expr e) -> est_at o "body" (N_stmt b) -> est o (N_stmt (S_ForIn None h e b))
| Es_forof o h e b : typed o "ForOfStatement" -> est_at o "left" (N_fo h) ->
    est_at o "right" (N_expr e) -> est_at o "body" (N_stmt b) -> est o (N_stmt (S_ForOf None h e b))
| Es_debugger o : typed o "DebuggerStatement" -> est o (N_stmt (S_Debugger None semicolon))
(* parts of statements *)
| Es_blk o is : typed o "BlockStatement" -> est_list o "body" (map N_item is) ->
    est o (N_block (Block None is))
| Es_catch o p b : also (typed o "CatchClause") -> est_id_at o "param" p -> est_at o "body" (N_block b) ->
    est o (N_catch (Catch None (Simple p) b))
| Es_case o e is : also (typed o "SwitchCase") -> est_opt o "test" (option_map N_expr e) ->
    est_list o "consequent" (map N_item is) -> est o (N_case (Case None e is))
| Es_dtor o i e : also (typed o "VariableDeclarator") -> est_id_at o "id" i ->
    est_opt o "init" (option_map N_expr e) -> est o (N_dtor (Dt_Simple None i e))
| Es_head_var o ds : typed o "VariableDeclaration" -> has o "kind" (J_String (lit "var")) ->
    est_list o "declarations" (map N_dtor ds) -> est o (N_fh (FH_Var None ds))
| Es_head_let o ds : typed o "VariableDeclaration" -> has o "kind" (J_String (lit "let")) ->
    est_list o "declarations" (map N_dtor ds) -> est o (N_fh (FH_Let None ds))
| Es_head_const o ds cs : typed o "VariableDeclaration" -> has o "kind" (J_String (lit "const")) ->
    est_list o "declarations" (map N_dtor ds) -> Forall2 const_of ds cs ->
    est o (N_fh (FH_Const None cs))
| Es_head_expr o e : est o (N_expr e) -> est o (N_fh (FH_Expr None e))
| Es_in_var o d i e : typed o "VariableDeclaration" -> has o "kind" (J_String (lit "var")) ->
    est_list o "declarations" [N_dtor d] -> d = Dt_Simple None i (Some e) ->
    est o (N_fi (FI_VarInit None i e))
| Es_in o k d i h : typed o "VariableDeclaration" -> has o "kind" (J_String (lit k)) ->
    est_list o "declarations" [N_dtor d] -> d = Dt_Simple None i None ->
    In (k, h) [("var", FI_Var); ("let", FI_Let); ("const", FI_Const)]%string ->
    est o (N_fi (h None (Simple i)))
| Es_in_patt o e p : est o (N_expr e) -> e = patt_expr p -> rests_unlocated p -> also (plain_patt p) ->
    est o (N_fi (FI_Patt p))
| Es_of o k do i h : typed o "VariableDeclaration" -> has o "kind" (J_String (lit k)) ->
    has o "declarations" (J_Array [J_Object do]) ->
    also (typed do "VariableDeclarator" /\ has do "init" J_Null) -> est_id_at do "id" i ->
    In (k, h) [("var", FO_Var); ("let", FO_Let); ("const", FO_Const)]%string ->
    est o (N_fo (h None (Simple i)))
| Es_of_patt o e p : est o (N_expr e) -> e = patt_expr p -> rests_unlocated p -> also (plain_patt p) ->
    est o (N_fo (FO_Patt p))
(* declarations and items *)
| Es_fundecl o f ps b g i : typed o "FunctionDeclaration" -> est_id_at o "id" i ->
    f = Fun None None ps b g -> est o (N_fexpr f) -> est o (N_decl (D_Fun (Fun None i ps b g)))
| Es_let o ds : typed o "VariableDeclaration" -> has o "kind" (J_String (lit "let")) ->
    est_list o "declarations" (map N_dtor ds) -> est o (N_decl (D_Let None ds semicolon))
| Es_const o ds cs : typed o "VariableDeclaration" -> has o "kind" (J_String (lit "const")) ->
    est_list o "declarations" (map N_dtor ds) -> Forall2 const_of ds cs ->
    est o (N_decl (D_Const None cs semicolon))
| Es_stmt_item o s : est o (N_stmt s) -> est o (N_item (I_Stmt s))
| Es_decl_item o d : est o (N_decl d) -> est o (N_item (I_Decl d))
with est_at : object -> string -> node -> Prop :=
| EAt o k o' n : has o k (J_Object o') -> est o' n -> est_at o k n
with est_opt : object -> string -> option node -> Prop :=
| EOpt_none o k : has o k J_Null -> est_opt o k None
| EOpt_some o k n : est_at o k n -> est_opt o k (Some n)
with est_list : object -> string -> list node -> Prop :=
| EList o k js ns : has o k (J_Array js) -> est_elems js (map Some ns) -> est_list o k ns
with est_holes : object -> string -> list (option node) -> Prop :=
| EHoles o k js ns : has o k (J_Array js) -> est_elems js ns -> est_holes o k ns
with est_elems : list json -> list (option node) -> Prop :=
| EE_nil : est_elems [] []
| EE_node o n js ns : est o n -> est_elems js ns -> est_elems (J_Object o :: js) (Some n :: ns)
| EE_hole js ns : est_elems js ns -> est_elems (J_Null :: js) (None :: ns).
End Std.

(** A script is encoded by a Program node. *)
Definition encodes (o : object) (s : script) : Prop := typed o "Program" /\ est true o (N_body s).
(** What the crate takes as an encoding. *)
Definition taken_for (o : object) (s : script) : Prop := est false o (N_body s).

(** ** Trees ESTree can express *)

(** What a converted tree looks like at each of its nodes: names are those of their text,
    literals have no source text but for integers, statements end in semicolons, [new]
    has arguments, bindings are identifiers, and the statements of a body do not start with
    a directive. *)
Definition machine_integer (z : Z) : Prop := (-2^63 <= z < 2^64)%Z.
Definition plain_number (n : number_literal) : Prop :=
  num_source n = None \/ exists z, machine_integer z /\ n = integer_literal z.
Definition expressible_at (n : node) : Prop :=
  node_loc n = None
  /\ (forall s, node_semi n = Some s -> s = semicolon)
  /\ match n with
     | N_expr (E_New _ _ args) => args <> None
     | N_expr (E_String _ s) => str_source s = None
     | N_expr (E_Number _ n) => plain_number n
     | N_pk (PK_String _ s) => str_source s = None
     | N_pk (PK_Number _ n) => plain_number n
     | N_dir d => str_source (dir_string d) = None
     | N_id i => id_name i = name_from (name_string (id_name i))
     | N_ipatt (Compound _) => False
     | N_dtor (Dt_Compound _ _ _) => False
     | N_body b => forall i rest, bo_items b = i :: rest -> ~ is_directive i
     | _ => True
     end.
Definition expressible (n : node) : Prop := forall m, within n m -> expressible_at m.
(** Without destructuring assignments, it has an encoding ESTree itself defines. *)
Definition plain_assignments (n : node) : Prop := forall p, within n (N_tpatt p) -> plain_patt p.

(** The integers of a document are machine integers. *)
Definition holds_machine_integer (v : json) : Prop :=
  match v with
  | J_I64 z => (-2^63 <= z < 2^63)%Z
  | J_U64 n => (n < 2^64)%N
  | _ => True
  end.
Inductive inside : json -> json -> Prop :=
| In_self v : inside v v
| In_array a x v : In x a -> inside x v -> inside (J_Array a) v
| In_object o k x v : In (k, x) o -> inside x v -> inside (J_Object o) v.
Definition machine (o : object) : Prop := forall v, inside (J_Object o) v -> holds_machine_integer v.

(** ** Documents that differ in fields ESTree does not give a meaning *)

(** The fields that encodings are made of.  Others, such as locations, ranges and source
    texts, say nothing about the tree. *)
Definition est_fields : list string :=
  [ "type"; "name"; "value"; "regex"; "pattern"; "flags"; "operator"; "left"; "right"; "argument";
    "prefix"; "object"; "computed"; "property"; "callee"; "arguments"; "elements"; "properties"; "id";
    "expressions"; "test"; "consequent"; "alternate"; "meta"; "kind"; "method"; "shorthand"; "key";
    "generator"; "params"; "body"; "declarations"; "expression"; "label"; "discriminant"; "cases";
    "block"; "handler"; "finalizer"; "init"; "update"; "param" ]%string.
Inductive same_json : json -> json -> Prop :=
| SJ_same v : same_json v v
| SJ_array a b : Forall2 same_json a b -> same_json (J_Array a) (J_Array b)
| SJ_object o p :
    (forall k v, In k est_fields -> has o k v -> exists w, has p k w /\ same_json v w) ->
    (forall k w, In k est_fields -> has p k w -> exists v, has o k v) ->
    same_json (J_Object o) (J_Object p).
