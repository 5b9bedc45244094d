(** Conversion of ESTree JSON into syntax trees.  Models crates/estree.  The
    [Deserialize] wrapper of lib.rs:27-37 and the printing of errors are not modelled. *)
From Coq Require Import String Ascii List NArith ZArith Bool.
From Coq Require DecimalString.
From Verif Require Import Base F64 Word Token Punc Ast Track Cover Unjson.
From Verif Require Parser.
Import ListNotations.

(** estree/src/tag.rs:11-55 *)
Inductive tag : Type :=
| Tg_Identifier
| Tg_Literal
| Tg_BinaryExpression
| Tg_AssignmentExpression
| Tg_LogicalExpression
| Tg_UnaryExpression
| Tg_UpdateExpression
| Tg_MemberExpression
| Tg_CallExpression
| Tg_NewExpression
| Tg_ArrayExpression
| Tg_FunctionExpression
| Tg_SequenceExpression
| Tg_ObjectExpression
| Tg_ConditionalExpression
| Tg_ThisExpression
| Tg_MetaProperty
| Tg_SpreadElement
| Tg_RestElement
| Tg_FunctionDeclaration
| Tg_VariableDeclaration
| Tg_EmptyStatement
| Tg_ExpressionStatement
| Tg_IfStatement
| Tg_DoWhileStatement
| Tg_WhileStatement
| Tg_ForStatement
| Tg_ForInStatement
| Tg_ForOfStatement
| Tg_BlockStatement
| Tg_ReturnStatement
| Tg_LabeledStatement
| Tg_BreakStatement
| Tg_ContinueStatement
| Tg_SwitchStatement
| Tg_WithStatement
| Tg_ThrowStatement
| Tg_DebuggerStatement
| Tg_TryStatement.

(** estree/src/tag.rs:66-109 [from_str] *)
Definition tag_from_table : list (str * tag) :=
  [ (lit "Identifier", Tg_Identifier);
    (lit "Literal", Tg_Literal);
    (lit "BinaryExpression", Tg_BinaryExpression);
    (lit "AssignmentExpression", Tg_AssignmentExpression);
    (lit "LogicalExpression", Tg_LogicalExpression);
    (lit "UnaryExpression", Tg_UnaryExpression);
    (lit "UpdateExpression", Tg_UpdateExpression);
    (lit "MemberExpression", Tg_MemberExpression);
    (lit "CallExpression", Tg_CallExpression);
    (lit "NewExpression", Tg_NewExpression);
    (lit "ArrayExpression", Tg_ArrayExpression);
    (lit "FunctionExpression", Tg_FunctionExpression);
    (lit "SequenceExpression", Tg_SequenceExpression);
    (lit "ObjectExpression", Tg_ObjectExpression);
    (lit "ConditionalExpression", Tg_ConditionalExpression);
    (lit "ThisExpression", Tg_ThisExpression);
    (lit "MetaProperty", Tg_MetaProperty);
    (lit "FunctionDeclaration", Tg_FunctionDeclaration);
    (lit "VariableDeclaration", Tg_VariableDeclaration);
    (lit "SpreadElement", Tg_SpreadElement);
    (lit "RestElement", Tg_RestElement);
    (lit "EmptyStatement", Tg_EmptyStatement);
    (lit "ExpressionStatement", Tg_ExpressionStatement);
    (lit "IfStatement", Tg_IfStatement);
    (lit "DoWhileStatement", Tg_DoWhileStatement);
    (lit "WhileStatement", Tg_WhileStatement);
    (lit "ForStatement", Tg_ForStatement);
    (lit "ForInStatement", Tg_ForInStatement);
    (lit "ForOfStatement", Tg_ForOfStatement);
    (lit "BlockStatement", Tg_BlockStatement);
    (lit "ReturnStatement", Tg_ReturnStatement);
    (lit "LabeledStatement", Tg_LabeledStatement);
    (lit "BreakStatement", Tg_BreakStatement);
    (lit "ContinueStatement", Tg_ContinueStatement);
    (lit "SwitchStatement", Tg_SwitchStatement);
    (lit "WithStatement", Tg_WithStatement);
    (lit "ThrowStatement", Tg_ThrowStatement);
    (lit "DebuggerStatement", Tg_DebuggerStatement);
    (lit "TryStatement", Tg_TryStatement) ].
Definition tag_from_str (s : str) : option tag := assoc tag_from_table s.

(** estree/src/tag.rs:10,57-61: [Display] is the derived [Debug], the name of the variant *)
Definition tag_text (t : tag) : str :=
  lit match t with
      | Tg_Identifier => "Identifier"
      | Tg_Literal => "Literal"
      | Tg_BinaryExpression => "BinaryExpression"
      | Tg_AssignmentExpression => "AssignmentExpression"
      | Tg_LogicalExpression => "LogicalExpression"
      | Tg_UnaryExpression => "UnaryExpression"
      | Tg_UpdateExpression => "UpdateExpression"
      | Tg_MemberExpression => "MemberExpression"
      | Tg_CallExpression => "CallExpression"
      | Tg_NewExpression => "NewExpression"
      | Tg_ArrayExpression => "ArrayExpression"
      | Tg_FunctionExpression => "FunctionExpression"
      | Tg_SequenceExpression => "SequenceExpression"
      | Tg_ObjectExpression => "ObjectExpression"
      | Tg_ConditionalExpression => "ConditionalExpression"
      | Tg_ThisExpression => "ThisExpression"
      | Tg_MetaProperty => "MetaProperty"
      | Tg_SpreadElement => "SpreadElement"
      | Tg_RestElement => "RestElement"
      | Tg_FunctionDeclaration => "FunctionDeclaration"
      | Tg_VariableDeclaration => "VariableDeclaration"
      | Tg_EmptyStatement => "EmptyStatement"
      | Tg_ExpressionStatement => "ExpressionStatement"
      | Tg_IfStatement => "IfStatement"
      | Tg_DoWhileStatement => "DoWhileStatement"
      | Tg_WhileStatement => "WhileStatement"
      | Tg_ForStatement => "ForStatement"
      | Tg_ForInStatement => "ForInStatement"
      | Tg_ForOfStatement => "ForOfStatement"
      | Tg_BlockStatement => "BlockStatement"
      | Tg_ReturnStatement => "ReturnStatement"
      | Tg_LabeledStatement => "LabeledStatement"
      | Tg_BreakStatement => "BreakStatement"
      | Tg_ContinueStatement => "ContinueStatement"
      | Tg_SwitchStatement => "SwitchStatement"
      | Tg_WithStatement => "WithStatement"
      | Tg_ThrowStatement => "ThrowStatement"
      | Tg_DebuggerStatement => "DebuggerStatement"
      | Tg_TryStatement => "TryStatement"
      end.

Scheme Equality for tag.
(** estree/src/tag.rs:10 derived [PartialEq] *)
Definition tag_eqb := tag_beq.

(** estree/src/error.rs:13-20 *)
Inductive est_error : Type :=
| EE_Json (e : json_error)
| EE_InvalidTypeTag (actual : str)
| EE_NodeTypeMismatch (expected : str) (actual : tag)
| EE_UnexpectedInitializer (e : expr)
| EE_InvalidLHS (field : str)
| EE_UninitializedPattern (p : patt id).

(** estree/src/result.rs:4 *)
Definition eres (A : Type) : Type := res est_error A.
(** A method taking [&mut self] on an object *)
Definition eM (A : Type) : Type := M object est_error A.

(** estree/src/error.rs:52-56: [?] on a JSON error *)
Definition from_json {A} (r : jres A) : eres A :=
  match r with Ok a => Ok a | Err e => Err (EE_Json e) | Panic k => Panic k | NoFuel => NoFuel end.
Definition ex {A} (m : M object json_error A) : eM A := fun o => from_json (m o).

(** A method taking [mut self]: the object is dropped at the end *)
Definition run {A} (m : eM A) (o : object) : eres A :=
  match m o with Ok (a, _) => Ok a | Err e => Err e | Panic k => Panic k | NoFuel => NoFuel end.

(** estree/src/error.rs:58-60, 66-68, 74-76, 82-84 *)
Definition est_type_error {A} (expected : string) (t : ty) : eres A :=
  Err (EE_Json (TypeMismatch (lit expected) t)).
Definition array_error {A} (expected actual : nat) : eres A :=
  Err (EE_Json (WrongArrayLength expected actual)).
Definition string_error {A} (expected : string) (actual : str) : eres A :=
  Err (EE_Json (IllegalString (lit expected) actual)).
Definition node_type_error {A} (expected : string) (actual : tag) : eres A :=
  Err (EE_NodeTypeMismatch (lit expected) actual).

(** estree/src/tag.rs:116-122 [tag] *)
Definition tag_of (o : object) : eres tag :=
  and_then (from_json (get_string o (lit "type")))
    (fun s => match tag_from_str s with
              | Some t => Ok t
              | None => Err (EE_InvalidTypeTag s)
              end).

(** estree/src/result.rs:10-18 [Map::map] *)
Fixpoint map_res {E A B} (f : A -> res E B) (l : list A) : res E (list B) :=
  match l with
  | [] => Ok []
  | a :: l' => and_then (f a) (fun b => and_then (map_res f l') (fun bs => Ok (b :: bs)))
  end.

(** estree/src/id.rs:15-24 [into_id] *)
Definition into_id (o : object) : eres id :=
  run (t <- lift (tag_of o) ;;
       if negb (tag_eqb t Tg_Identifier) then lift (node_type_error "identifier" t)
       else s <- ex (extract_string (lit "name")) ;; ret (Id None (name_from s))) o.

(** estree/src/patt.rs:13-15 [into_patt] *)
Definition into_patt (o : object) : eres (patt id) :=
  and_then (into_id o) (fun i => Ok (id_into_patt i)).

(** [to_string] of an integer (std): its decimal digits, after a sign *)
Definition text_of_N (n : N) : str := lit (DecimalString.NilZero.string_of_uint (N.to_uint n)).
Definition text_of_Z (z : Z) : str := lit (DecimalString.NilZero.string_of_int (Z.to_int z)).

(** estree/src/lit.rs:8-13, 21-26, 30-35, 39-44 *)
Definition string_literal_of (s : str) : string_literal := StringLiteral None s.
Definition number_literal_of_i64 (z : Z) : number_literal :=
  NumberLiteral (Some (DecimalInt (text_of_Z z) None)) (i64_as_f64 z).
Definition number_literal_of_u64 (n : N) : number_literal :=
  NumberLiteral (Some (DecimalInt (text_of_N n) None)) (u64_as_f64 n).
Definition number_literal_of_f64 (f : f64) : number_literal := NumberLiteral None f.

(** estree/src/expr.rs:160-167: the regular expression arm of [into_lit] *)
Definition into_regexp : eM expr :=
  regex <- ex (extract_object (lit "regex")) ;;
  '(pattern, regex) <- lift (ex (extract_string (lit "pattern")) regex) ;;
  '(flags, _) <- lift (ex (extract_string (lit "flags")) regex) ;;
  ret (E_RegExp None (RegExpLiteral pattern flags)).

(** estree/src/expr.rs:149-172 [into_lit] *)
Definition into_lit (o : object) : eres expr :=
  run (json <- ex (extract_field (lit "value")) ;;
       self <- get ;;
       match json with
       | J_Null => if negb (contains_key (lit "regex") self) then ret (E_Null None) else into_regexp
       | J_Bool true => ret (E_True None)
       | J_Bool false => ret (E_False None)
       | J_String value => ret (E_String None (string_literal_of value))
       | J_I64 val => ret (E_Number None (number_literal_of_i64 val))
       | J_U64 val => ret (E_Number None (number_literal_of_u64 val))
       | J_F64 val => ret (E_Number None (number_literal_of_f64 val))
       | J_Object _ => into_regexp
       | _ => lift (est_type_error "null, number, boolean, string, or object" (ty_of json))
       end) o.

(** estree/src/obj.rs:50-60 [into_prop_key] *)
Definition into_prop_key (o : object) : eres prop_key :=
  and_then (tag_of o) (fun t =>
  if tag_eqb t Tg_Identifier
  then and_then (into_id o) (fun i => Ok (PK_Id None (name_string (id_name i))))
  else and_then (into_lit o) (fun e =>
       match e with
       | E_Number _ n => Ok (PK_Number None n)
       | E_String _ s => Ok (PK_String None s)
       | _ => est_type_error "identifier, number literal, or string literal" Ty_Object
       end)).

(** estree/src/decl.rs:25-41 [into_const] *)
Definition into_const (ds : list dtor) : eres (list const_dtor) :=
  map_res (fun d =>
    match d with
    | Dt_Simple _ i (Some e) => Ok (Parser.const_dtor_from_init (Simple i) e)
    | Dt_Simple _ i None => Err (EE_UninitializedPattern (Simple i))
    | Dt_Compound _ p e => Ok (Parser.const_dtor_from_init (Compound p) e)
    end) ds.

(** estree/src/node.rs:45-52 [split_prefix]: the prefix of elements satisfying the
    predicate, and the rest.  The code cuts the prefix in place and returns the rest;
    when every element satisfies the predicate it returns nothing and leaves the whole. *)
Fixpoint position {A} (p : A -> bool) (v : list A) : option nat :=
  match v with
  | [] => None
  | x :: v' => if p x then Some 0%nat else option_map S (position p v')
  end.
Definition split_prefix {A} (v : list A) (p : A -> bool) : list A * list A :=
  match position (fun x => negb (p x)) v with
  | Some i => (firstn i v, skipn i v)
  | None => (v, [])
  end.

(** [Iterator::filter_map] (std) *)
Fixpoint filter_map {A B} (f : A -> option B) (l : list A) : list B :=
  match l with
  | [] => []
  | a :: l' => match f a with Some b => b :: filter_map f l' | None => filter_map f l' end
  end.

(** [list.map(|v| v.into_object().map_err(Error::Json))] *)
Definition into_objects (l : array) : eres (list object) := map_res (fun v => from_json (into_object v)) l.

(** estree/src/node.rs:55-57, 59-64, 137-139 *)
Definition extract_id (k : str) : eM id :=
  o <- ex (extract_object k) ;; lift (into_id o).
Definition extract_id_opt (k : str) : eM (option id) :=
  o <- ex (extract_object_opt k) ;;
  match o with
  | Some o => i <- lift (into_id o) ;; ret (Some i)
  | None => ret None
  end.
Definition extract_patt (k : str) : eM (patt id) :=
  o <- ex (extract_object k) ;; lift (into_patt o).
(** The common part of node.rs:97-178: an array of objects, each converted *)
Definition extract_list {A} (f : object -> eres A) (k : str) : eM (list A) :=
  l <- ex (extract_array k) ;;
  objs <- lift (into_objects l) ;;
  lift (map_res f objs).

(** estree/src/node.rs:141-160 [extract_params] *)
Definition extract_params (k : str) : eM params :=
  l <- ex (extract_array k) ;;
  objs <- lift (into_objects l) ;;
  '(objs, rest) <-
    match rev objs with
    | [] => ret (objs, None)
    | last :: before =>
        t <- lift (tag_of last) ;;
        if tag_eqb t Tg_RestElement
        then p <- lift (run (extract_patt (lit "argument")) last) ;;
             ret (rev before, Some (RestPatt None p))
        else ret (objs, None)
    end ;;
  ps <- lift (map_res into_patt objs) ;;
  ret (Params None ps rest).

(** The mutually recursive conversions call each other on objects inside the one being
    converted; [r_item false] is the statement conversion before its last step. *)
Record est_rec : Type := EstRec {
  r_expr : object -> eres expr;
  r_item : bool -> object -> eres item }.

Section Conversions.
Variable R : est_rec.

(** estree/src/stmt.rs:244-249 [into_stmt], 251-253 [into_stmt_list_item] *)
Definition into_stmt (o : object) : eres stmt :=
  and_then (r_item R false o) (fun i =>
    match i with I_Stmt s => Ok s | I_Decl _ => Panic P_unreachable end).
Definition into_stmt_list_item (o : object) : eres item := r_item R true o.

(** estree/src/node.rs:86-95 *)
Definition extract_expr (k : str) : eM expr :=
  o <- ex (extract_object k) ;; lift (r_expr R o).
Definition extract_expr_opt (k : str) : eM (option expr) :=
  o <- ex (extract_object_opt k) ;;
  match o with
  | Some o => e <- lift (r_expr R o) ;; ret (Some e)
  | None => ret None
  end.

(** estree/src/node.rs:66-80 *)
Definition extract_assign_target (k : str) : eM target :=
  e <- extract_expr k ;;
  match into_assign_target e with
  | inr t => ret t
  | inl _ => err (EE_InvalidLHS k)
  end.
Definition extract_assign_patt (k : str) : eM (patt target) :=
  e <- extract_expr k ;;
  match into_assign_patt e with
  | inr p => ret p
  | inl _ => err (EE_InvalidLHS k)
  end.

(** estree/src/node.rs:82-84, 120-125 *)
Definition extract_stmt (k : str) : eM stmt :=
  o <- ex (extract_object k) ;; lift (into_stmt o).
Definition extract_stmt_opt (k : str) : eM (option stmt) :=
  o <- ex (extract_object_opt k) ;;
  match o with
  | Some o => s <- lift (into_stmt o) ;; ret (Some s)
  | None => ret None
  end.

(** estree/src/expr.rs:140-147 [into_expr_list_item]; its last arm converts the object
    itself, which is inside the one being converted by the caller *)
Definition into_expr_list_item (o : object) : eres eli :=
  and_then (tag_of o) (fun t =>
  match t with
  | Tg_SpreadElement => and_then (run (extract_expr (lit "argument")) o) (fun e => Ok (L_Spread None e))
  | _ => and_then (r_expr R o) (fun e => Ok (L_Expr e))
  end).

(** estree/src/node.rs:97-118, 127-131 *)
Definition extract_expr_list : str -> eM (list eli) := extract_list into_expr_list_item.
Definition extract_exprs : str -> eM (list expr) := extract_list (r_expr R).
Definition extract_expr_opt_list (k : str) : eM (list (option eli)) :=
  l <- ex (extract_array k) ;;
  lift (map_res (fun v =>
    and_then (from_json (into_object_opt v)) (fun o =>
    match o with
    | None => Ok None
    | Some o => and_then (into_expr_list_item o) (fun i => Ok (Some i))
    end)) l).
Definition extract_stmt_list : str -> eM (list item) := extract_list into_stmt_list_item.

(** estree/src/node.rs:187-198 [extract_script] *)
Definition extract_script (k : str) : eM script :=
  l <- extract_stmt_list k ;;
  let '(l, items) := split_prefix l item_is_directive in
  ret (Body None (filter_map item_to_directive l) items).

(** estree/src/fun.rs:13-19 [into_fun] *)
Definition into_fun {I} (o : object) (i : I) : eres (func I (body item)) :=
  run (g <- ex (extract_bool_opt (lit "generator")) ;;
       ps <- extract_params (lit "params") ;;
       obj <- ex (extract_object (lit "body")) ;;
       b <- lift (run (extract_script (lit "body")) obj) ;;
       ret (Fun None i ps b (match g with Some g => g | None => false end))) o.

(** estree/src/stmt.rs:267-275 [into_block]; node.rs:133-135 [extract_block] *)
Definition into_block (o : object) : eres block :=
  and_then (tag_of o) (fun t =>
  match t with
  | Tg_BlockStatement => and_then (run (extract_stmt_list (lit "body")) o) (fun l => Ok (Block None l))
  | _ => node_type_error "block statement" t
  end).
Definition extract_block (k : str) : eM block :=
  o <- ex (extract_object k) ;; lift (into_block o).

(** estree/src/stmt.rs:255-259 [into_case]; node.rs:174-178 [extract_case_list] *)
Definition into_case (o : object) : eres case :=
  run (t <- extract_expr_opt (lit "test") ;;
       b <- extract_stmt_list (lit "consequent") ;;
       ret (Case None t b)) o.
Definition extract_case_list : str -> eM (list case) := extract_list into_case.

(** estree/src/stmt.rs:261-265 [into_catch]; node.rs:180-185 [extract_catch_opt] *)
Definition into_catch (o : object) : eres catch :=
  run (p <- extract_patt (lit "param") ;;
       b <- extract_block (lit "body") ;;
       ret (Catch None p b)) o.
Definition extract_catch_opt (k : str) : eM (option catch) :=
  o <- ex (extract_object_opt k) ;;
  match o with
  | Some o => c <- lift (into_catch o) ;; ret (Some c)
  | None => ret None
  end.

(** estree/src/decl.rs:14-18 [into_dtor]; node.rs:168-172 [extract_dtor_list] *)
Definition into_dtor (o : object) : eres dtor :=
  run (lhs <- extract_patt (lit "id") ;;
       init <- extract_expr_opt (lit "init") ;;
       match Parser.dtor_from_init_opt lhs init with
       | inl d => ret d
       | inr p => err (EE_UninitializedPattern p)
       end) o.
Definition extract_dtor_list : str -> eM (list dtor) := extract_list into_dtor.

(** estree/src/obj.rs:20-48 [into_prop]; node.rs:162-166 [extract_prop_list].  The key
    is converted last in the arms that build a [Regular] property. *)
Definition into_prop (o : object) : eres prop :=
  run (key <- ex (extract_object (lit "key")) ;;
       val <- ex (extract_object (lit "value")) ;;
       kind <- ex (extract_string (lit "kind")) ;;
       let regular (v : prop_val) : eM prop :=
         k <- lift (into_prop_key key) ;; ret (Pr_Regular None k v) in
       if str_eqb kind (lit "init") then
         m <- ex (extract_bool (lit "method")) ;;
         if m then
           k <- lift (into_prop_key key) ;;
           f <- lift (into_fun val k) ;;
           ret (Pr_Method f)
         else
           sh <- ex (extract_bool (lit "shorthand")) ;;
           if sh then i <- lift (into_id key) ;; ret (Pr_Shorthand i)
           else e <- lift (r_expr R val) ;; regular (PV_Init e)
       else if str_eqb kind (lit "get") then
         '(b, _) <- lift (ex (extract_object (lit "body")) val) ;;
         s <- lift (run (extract_script (lit "body")) b) ;;
         regular (PV_Get None s)
       else if str_eqb kind (lit "set") then
         f <- lift (into_fun val tt) ;;
         match pa_list (fn_params f) with
         | [p] => regular (PV_Set None p (fn_body f))
         | ps => lift (array_error 1 (length ps))
         end
       else lift (est_type_error "'init', 'get', or 'set'" Ty_String)) o.
Definition extract_prop_list : str -> eM (list prop) := extract_list into_prop.

(** estree/src/expr.rs:25-138 [into_expr] *)
Definition into_expr_body (o : object) : eres expr :=
  and_then (tag_of o) (fun t =>
  run
  match t with
  | Tg_Identifier => i <- lift (into_id o) ;; ret (id_into_expr i)
  | Tg_Literal => lift (into_lit o)
  | Tg_BinaryExpression =>
      s <- ex (extract_string (lit "operator")) ;;
      match op_from_str binop_tag_from_str s with
      | Some op =>
          left <- extract_expr (lit "left") ;;
          right <- extract_expr (lit "right") ;;
          ret (E_Binop None op left right)
      | None => lift (string_error "binary operator" s)
      end
  | Tg_AssignmentExpression =>
      s <- ex (extract_string (lit "operator")) ;;
      right <- extract_expr (lit "right") ;;
      if str_eqb s (lit "=") then
        p <- extract_assign_patt (lit "left") ;; ret (E_Assign None p right)
      else
        match op_from_str assop_tag_from_str s with
        | Some op => t <- extract_assign_target (lit "left") ;; ret (E_BinAssign None op t right)
        | None => lift (string_error "assignment operator" s)
        end
  | Tg_LogicalExpression =>
      s <- ex (extract_string (lit "operator")) ;;
      match op_from_str logop_tag_from_str s with
      | Some op =>
          left <- extract_expr (lit "left") ;;
          right <- extract_expr (lit "right") ;;
          ret (E_Logop None op left right)
      | None => lift (string_error "logical operator" s)
      end
  | Tg_UnaryExpression =>
      s <- ex (extract_string (lit "operator")) ;;
      match op_from_str unop_tag_from_str s with
      | Some op => arg <- extract_expr (lit "argument") ;; ret (E_Unop None op arg)
      | None => lift (string_error "unary operator" s)
      end
  | Tg_UpdateExpression =>
      op <- ex (extract_string (lit "operator")) ;;
      arg <- extract_assign_target (lit "argument") ;;
      prefix <- ex (extract_bool (lit "prefix")) ;;
      if str_eqb op (lit "++") then ret (if prefix : bool then E_PreInc None arg else E_PostInc None arg)
      else if str_eqb op (lit "--") then ret (if prefix : bool then E_PreDec None arg else E_PostDec None arg)
      else lift (string_error "'++' or '--'" op)
  | Tg_MemberExpression =>
      obj <- extract_expr (lit "object") ;;
      computed <- ex (extract_bool (lit "computed")) ;;
      if computed : bool then
        p <- extract_expr (lit "property") ;; ret (E_Brack None obj p)
      else
        i <- extract_id (lit "property") ;;
        ret (E_Dot None obj (DotKey None (name_string (id_name i))))
  | Tg_CallExpression =>
      callee <- extract_expr (lit "callee") ;;
      args <- extract_expr_list (lit "arguments") ;;
      ret (E_Call None callee args)
  | Tg_NewExpression =>
      callee <- extract_expr (lit "callee") ;;
      args <- extract_expr_list (lit "arguments") ;;
      ret (E_New None callee (Some args))
  | Tg_ArrayExpression =>
      elts <- extract_expr_opt_list (lit "elements") ;; ret (E_Arr None elts)
  | Tg_FunctionExpression =>
      i <- extract_id_opt (lit "id") ;;
      self <- get ;;
      f <- lift (into_fun self i) ;;
      ret (E_Fun f)
  | Tg_SequenceExpression =>
      es <- extract_exprs (lit "expressions") ;; ret (E_Seq None es)
  | Tg_ObjectExpression =>
      ps <- extract_prop_list (lit "properties") ;; ret (E_Obj None ps)
  | Tg_ConditionalExpression =>
      test <- extract_expr (lit "test") ;;
      cons <- extract_expr (lit "consequent") ;;
      alt <- extract_expr (lit "alternate") ;;
      ret (E_Cond None test cons alt)
  | Tg_ThisExpression => ret (E_This None)
  | Tg_MetaProperty =>
      meta <- extract_id (lit "meta") ;;
      prop <- extract_id (lit "property") ;;
      let m := name_string (id_name meta) in
      let p := name_string (id_name prop) in
      if str_eqb m (lit "new") && str_eqb p (lit "target") then ret (E_NewTarget None)
      else lift (string_error "new.target" (m ++ lit "." ++ p))
  | _ => lift (node_type_error "expression" t)
  end o).

(** estree/src/stmt.rs:22-36 [into_for_head] *)
Definition into_for_head (o : object) : eres for_head :=
  and_then (tag_of o) (fun t =>
  match t with
  | Tg_VariableDeclaration =>
      run (ds <- extract_dtor_list (lit "declarations") ;;
           kind <- ex (extract_string (lit "kind")) ;;
           if str_eqb kind (lit "var") then ret (FH_Var None ds)
           else if str_eqb kind (lit "let") then ret (FH_Let None ds)
           else if str_eqb kind (lit "const") then cs <- lift (into_const ds) ;; ret (FH_Const None cs)
           else lift (string_error "var or let" kind)) o
  | _ => and_then (r_expr R o) (fun e => Ok (FH_Expr None e))
  end).

(** estree/src/stmt.rs:44-76 [into_for_in_head] *)
Definition into_for_in_head (o : object) : eres for_in_head :=
  and_then (tag_of o) (fun t =>
  match t with
  | Tg_VariableDeclaration =>
      run (ds <- ex (extract_array (lit "declarations")) ;;
           kind <- ex (extract_string (lit "kind")) ;;
           match ds with
           | [d] =>
               obj <- lift (from_json (into_object d)) ;;
               '(lhs, obj) <- lift (extract_patt (lit "id") obj) ;;
               '(init, _) <- lift (extract_expr_opt (lit "init") obj) ;;
               match lhs, init with
               | Simple i, Some e =>
                   if str_eqb kind (lit "var") then ret (FI_VarInit None i e)
                   else err (EE_UnexpectedInitializer e)
               | _, Some e => err (EE_UnexpectedInitializer e)
               | _, None =>
                   if str_eqb kind (lit "var") then ret (FI_Var None lhs)
                   else if str_eqb kind (lit "let") then ret (FI_Let None lhs)
                   else if str_eqb kind (lit "const") then ret (FI_Const None lhs)
                   else lift (string_error "var or let" kind)
               end
           | _ => lift (array_error 1 (length ds))
           end) o
  | _ => and_then (r_expr R o) (fun e =>
           match into_assign_patt e with
           | inr p => Ok (FI_Patt p)
           | inl _ => Err (EE_InvalidLHS (lit "left"))
           end)
  end).

(** estree/src/stmt.rs:84-109 [into_for_of_head] *)
Definition into_for_of_head (o : object) : eres for_of_head :=
  and_then (tag_of o) (fun t =>
  match t with
  | Tg_VariableDeclaration =>
      run (ds <- ex (extract_array (lit "declarations")) ;;
           kind <- ex (extract_string (lit "kind")) ;;
           match ds with
           | [d] =>
               obj <- lift (from_json (into_object d)) ;;
               '(lhs, _) <- lift (extract_patt (lit "id") obj) ;;
               if str_eqb kind (lit "var") then ret (FO_Var None lhs)
               else if str_eqb kind (lit "let") then ret (FO_Let None lhs)
               else if str_eqb kind (lit "const") then ret (FO_Const None lhs)
               else lift (string_error "var or let" kind)
           | _ => lift (array_error 1 (length ds))
           end) o
  | _ => and_then (r_expr R o) (fun e =>
           match into_assign_patt e with
           | inr p => Ok (FO_Patt p)
           | inl _ => Err (EE_InvalidLHS (lit "left"))
           end)
  end).

(** estree/src/stmt.rs:120-241 [into_stmt_list_item] *)
Definition into_item_body (allow_decl : bool) (o : object) : eres item :=
  and_then (tag_of o) (fun t =>
  let stmt (m : eM stmt) : eM item := s <- m ;; ret (I_Stmt s) in
  let semi := Explicit None in
  run
  match t with
  | Tg_FunctionDeclaration =>
      if negb allow_decl then lift (node_type_error "statement" t)
      else
        i <- extract_id (lit "id") ;;
        this <- get ;;
        f <- lift (into_fun this i) ;;
        ret (I_Decl (D_Fun f))
  | Tg_VariableDeclaration =>
      ds <- extract_dtor_list (lit "declarations") ;;
      kind <- ex (extract_string (lit "kind")) ;;
      if str_eqb kind (lit "var") then ret (I_Stmt (S_Var None ds semi))
      else if str_eqb kind (lit "let") then
        if negb allow_decl then lift (string_error "var" kind)
        else ret (I_Decl (D_Let None ds semi))
      else if str_eqb kind (lit "const") then
        if negb allow_decl then lift (string_error "var" kind)
        else cs <- lift (into_const ds) ;; ret (I_Decl (D_Const None cs semi))
      else lift (string_error "var or let" kind)
  | Tg_EmptyStatement => stmt (ret (S_Empty None))
  | Tg_ExpressionStatement =>
      stmt (e <- extract_expr (lit "expression") ;; ret (S_Expr None e semi))
  | Tg_IfStatement =>
      stmt (test <- extract_expr (lit "test") ;;
            cons <- extract_stmt (lit "consequent") ;;
            alt <- extract_stmt_opt (lit "alternate") ;;
            ret (S_If None test cons alt))
  | Tg_DoWhileStatement =>
      stmt (b <- extract_stmt (lit "body") ;;
            test <- extract_expr (lit "test") ;;
            ret (S_DoWhile None b test semi))
  | Tg_WhileStatement =>
      stmt (test <- extract_expr (lit "test") ;;
            b <- extract_stmt (lit "body") ;;
            ret (S_While None test b))
  | Tg_ForStatement =>
      stmt (obj <- ex (extract_object_opt (lit "init")) ;;
            init <- match obj with
                    | None => ret None
                    | Some obj => h <- lift (into_for_head obj) ;; ret (Some h)
                    end ;;
            test <- extract_expr_opt (lit "test") ;;
            update <- extract_expr_opt (lit "update") ;;
            b <- extract_stmt (lit "body") ;;
            ret (S_For None init test update b))
  | Tg_ForInStatement =>
      stmt (obj <- ex (extract_object (lit "left")) ;;
            left <- lift (into_for_in_head obj) ;;
            right <- extract_expr (lit "right") ;;
            b <- extract_stmt (lit "body") ;;
            ret (S_ForIn None left right b))
  | Tg_ForOfStatement =>
      stmt (obj <- ex (extract_object (lit "left")) ;;
            left <- lift (into_for_of_head obj) ;;
            right <- extract_expr (lit "right") ;;
            b <- extract_stmt (lit "body") ;;
            ret (S_ForOf None left right b))
  | Tg_BlockStatement => stmt (b <- lift (into_block o) ;; ret (S_Block b))
  | Tg_ReturnStatement =>
      stmt (arg <- extract_expr_opt (lit "argument") ;; ret (S_Return None arg semi))
  | Tg_LabeledStatement =>
      stmt (label <- extract_id (lit "label") ;;
            b <- extract_stmt (lit "body") ;;
            ret (S_Label None label b))
  | Tg_BreakStatement =>
      stmt (label <- extract_id_opt (lit "label") ;; ret (S_Break None label semi))
  | Tg_ContinueStatement =>
      stmt (label <- extract_id_opt (lit "label") ;; ret (S_Cont None label semi))
  | Tg_SwitchStatement =>
      stmt (disc <- extract_expr (lit "discriminant") ;;
            cs <- extract_case_list (lit "cases") ;;
            ret (S_Switch None disc cs))
  | Tg_WithStatement =>
      stmt (obj <- extract_expr (lit "object") ;;
            b <- extract_stmt (lit "body") ;;
            ret (S_With None obj b))
  | Tg_ThrowStatement =>
      stmt (arg <- extract_expr (lit "argument") ;; ret (S_Throw None arg semi))
  | Tg_DebuggerStatement => stmt (ret (S_Debugger None semi))
  | Tg_TryStatement =>
      stmt (b <- extract_block (lit "block") ;;
            c <- extract_catch_opt (lit "handler") ;;
            obj <- ex (extract_object_opt (lit "finalizer")) ;;
            f <- match obj with
                 | Some obj => b <- lift (into_block obj) ;; ret (Some b)
                 | None => ret None
                 end ;;
            ret (S_Try None b c f))
  | _ => lift (node_type_error (if allow_decl then "statement or declaration" else "statement") t)
  end o).

End Conversions.

(** The recursion, cut off after [fuel] nested calls. *)
Fixpoint est_rec_of (fuel : nat) : est_rec :=
  match fuel with
  | O => EstRec (fun _ => NoFuel) (fun _ _ => NoFuel)
  | S fuel' =>
      EstRec (into_expr_body (est_rec_of fuel')) (into_item_body (est_rec_of fuel'))
  end.

(** Nesting depth of a value: calls nest at most this deep *)
Fixpoint json_depth (v : json) : nat :=
  match v with
  | J_Array a => S ((fix go l := match l with [] => O | x :: l' => Nat.max (json_depth x) (go l') end) a)
  | J_Object o =>
      S ((fix go l := match l with [] => O | (_, x) :: l' => Nat.max (json_depth x) (go l') end) o)
  | _ => O
  end.

(** estree/src/prog.rs:11-13 [into_script]; lib.rs:30-36 is this on the object read *)
Definition into_script (o : object) : eres script :=
  run (extract_script (est_rec_of (json_depth (J_Object o))) (lit "body")) o.
