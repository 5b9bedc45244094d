(** Syntax trees.  Models easter/src/{id,obj,patt,fun,expr,decl,stmt}.rs.
    Boxes are transparent; [Vec] is [list]; [Option] is [option]. *)
From Coq Require Import String Ascii List NArith Bool.
From Verif Require Import Base Word Token Punc.
Import ListNotations.

(** easter/src/id.rs:9-12 *)
Record id : Type := Id { id_loc : loc; id_name : name }.

(** easter/src/obj.rs:11-14 *)
Record dot_key : Type := DotKey { dk_loc : loc; dk_value : str }.

(** easter/src/obj.rs:28-32 *)
Inductive prop_key : Type :=
| PK_Id (l : loc) (s : str)
| PK_String (l : loc) (s : string_literal)
| PK_Number (l : loc) (n : number_literal).

(** easter/src/patt.rs:26-29 [Patt<T>], with the compound patterns as a parameter *)
Inductive patt_of (T C : Type) : Type :=
| Simple (t : T)
| Compound (c : C).
Arguments Simple {T C} t.
Arguments Compound {T C} c.

(** easter/src/patt.rs:8-11 [RestPatt], with the pattern type as a parameter *)
Record rest_of (P : Type) : Type := RestPatt { rp_loc : loc; rp_patt : P }.
Arguments RestPatt {P} _ _.
Arguments rp_loc {P} _.
Arguments rp_patt {P} _.

(** easter/src/patt.rs:20-23 [PropPatt], with the pattern type as a parameter *)
Inductive prop_patt_of (P : Type) : Type :=
| PP_Regular (l : loc) (k : prop_key) (p : P)
| PP_Shorthand (i : id).
Arguments PP_Regular {P} l k p.
Arguments PP_Shorthand {P} i.

(** easter/src/patt.rs:14-17 *)
Inductive cpatt (T : Type) : Type :=
| C_Arr (l : loc) (elts : list (option (patt_of T (cpatt T))))
        (rest : option (rest_of (patt_of T (cpatt T))))
| C_Obj (l : loc) (props : list (prop_patt_of (patt_of T (cpatt T)))).
Arguments C_Arr {T} l elts rest.
Arguments C_Obj {T} l props.

Definition patt (T : Type) : Type := patt_of T (cpatt T).
Definition rest_patt (T : Type) : Type := rest_of (patt T).
Definition prop_patt (T : Type) : Type := prop_patt_of (patt T).

(** easter/src/fun.rs:8-12 *)
Record params : Type := Params {
  pa_loc : loc; pa_list : list (patt id); pa_rest : option (rest_patt id) }.

(** easter/src/stmt.rs:123-127 *)
Record dir : Type := Dir { dir_loc : loc; dir_string : string_literal; dir_semi : semi }.

(** easter/src/stmt.rs:34-38 *)
Record body (I : Type) : Type := Body {
  bo_loc : loc; bo_dirs : list dir; bo_items : list I }.
Arguments Body {I} _ _ _.
Arguments bo_loc {I} _.
Arguments bo_dirs {I} _.
Arguments bo_items {I} _.

(** easter/src/fun.rs:15-21; [B] is the type of the body *)
Record func (I B : Type) : Type := Fun {
  fn_loc : loc; fn_id : I; fn_params : params; fn_body : B; fn_generator : bool }.
Arguments Fun {I B} _ _ _ _ _.
Arguments fn_loc {I B} _.
Arguments fn_id {I B} _.
Arguments fn_params {I B} _.
Arguments fn_body {I B} _.
Arguments fn_generator {I B} _.

(** easter/src/expr.rs:19-47 *)
Inductive expr : Type :=
| E_This (l : loc)
| E_Id (i : id)
| E_Arr (l : loc) (elts : list (option eli))
| E_Obj (l : loc) (props : list prop)
| E_Fun (f : func (option id) (body item))
| E_Seq (l : loc) (es : list expr)
| E_Unop (l : loc) (o : unop) (arg : expr)
| E_Binop (l : loc) (o : binop) (left right : expr)
| E_Logop (l : loc) (o : logop) (left right : expr)
| E_PreInc (l : loc) (arg : target)
| E_PostInc (l : loc) (arg : target)
| E_PreDec (l : loc) (arg : target)
| E_PostDec (l : loc) (arg : target)
| E_Assign (l : loc) (lhs : patt_of target (cpatt target)) (rhs : expr)
| E_BinAssign (l : loc) (o : assop) (lhs : target) (rhs : expr)
| E_Cond (l : loc) (test cons alt : expr)
| E_Call (l : loc) (callee : expr) (args : list eli)
| E_New (l : loc) (callee : expr) (args : option (list eli))
| E_Dot (l : loc) (obj : expr) (key : dot_key)
| E_Brack (l : loc) (obj : expr) (key : expr)
| E_NewTarget (l : loc)
| E_True (l : loc)
| E_False (l : loc)
| E_Null (l : loc)
| E_Number (l : loc) (n : number_literal)
| E_RegExp (l : loc) (r : regexp_literal)
| E_String (l : loc) (s : string_literal)

(** easter/src/expr.rs:13-16 [ExprListItem] *)
with eli : Type :=
| L_Expr (e : expr)
| L_Spread (l : loc) (e : expr)

(** easter/src/obj.rs:21-25 *)
with prop : Type :=
| Pr_Regular (l : loc) (k : prop_key) (v : prop_val)
| Pr_Method (f : func prop_key (body item))
| Pr_Shorthand (i : id)

(** easter/src/obj.rs:41-45 *)
with prop_val : Type :=
| PV_Init (e : expr)
| PV_Get (l : loc) (b : body item)
| PV_Set (l : loc) (p : patt_of id (cpatt id)) (b : body item)

(** easter/src/patt.rs:59-63 [AssignTarget] *)
with target : Type :=
| AT_Id (i : id)
| AT_Dot (l : loc) (obj : expr) (key : dot_key)
| AT_Brack (l : loc) (obj : expr) (key : expr)

(** easter/src/stmt.rs:11-31 *)
with stmt : Type :=
| S_Empty (l : loc)
| S_Block (b : block)
| S_Var (l : loc) (ds : list dtor) (s : semi)
| S_Expr (l : loc) (e : expr) (s : semi)
| S_If (l : loc) (test : expr) (cons : stmt) (alt : option stmt)
| S_Label (l : loc) (i : id) (b : stmt)
| S_Break (l : loc) (i : option id) (s : semi)
| S_Cont (l : loc) (i : option id) (s : semi)
| S_With (l : loc) (e : expr) (b : stmt)
| S_Switch (l : loc) (e : expr) (cs : list case)
| S_Return (l : loc) (e : option expr) (s : semi)
| S_Throw (l : loc) (e : expr) (s : semi)
| S_Try (l : loc) (b : block) (c : option catch) (f : option block)
| S_While (l : loc) (test : expr) (b : stmt)
| S_DoWhile (l : loc) (b : stmt) (test : expr) (s : semi)
| S_For (l : loc) (h : option for_head) (test update : option expr) (b : stmt)
| S_ForIn (l : loc) (h : for_in_head) (e : expr) (b : stmt)
| S_ForOf (l : loc) (h : for_of_head) (e : expr) (b : stmt)
| S_Debugger (l : loc) (s : semi)

(** easter/src/stmt.rs:41-44 *)
with block : Type :=
| Block (l : loc) (items : list item)

(** easter/src/stmt.rs:84-89 *)
with for_head : Type :=
| FH_Var (l : loc) (ds : list dtor)
| FH_Let (l : loc) (ds : list dtor)
| FH_Const (l : loc) (ds : list const_dtor)
| FH_Expr (l : loc) (e : expr)

(** easter/src/stmt.rs:92-98 *)
with for_in_head : Type :=
| FI_VarInit (l : loc) (i : id) (e : expr)
| FI_Var (l : loc) (p : patt_of id (cpatt id))
| FI_Let (l : loc) (p : patt_of id (cpatt id))
| FI_Const (l : loc) (p : patt_of id (cpatt id))
| FI_Patt (p : patt_of target (cpatt target))

(** easter/src/stmt.rs:101-106 *)
with for_of_head : Type :=
| FO_Var (l : loc) (p : patt_of id (cpatt id))
| FO_Let (l : loc) (p : patt_of id (cpatt id))
| FO_Const (l : loc) (p : patt_of id (cpatt id))
| FO_Patt (p : patt_of target (cpatt target))

(** easter/src/stmt.rs:109-113 *)
with catch : Type :=
| Catch (l : loc) (param : patt_of id (cpatt id)) (b : block)

(** easter/src/stmt.rs:116-120 *)
with case : Type :=
| Case (l : loc) (test : option expr) (b : list item)

(** easter/src/stmt.rs:147-150 [StmtListItem] *)
with item : Type :=
| I_Decl (d : decl)
| I_Stmt (s : stmt)

(** easter/src/decl.rs:24-28 *)
with decl : Type :=
| D_Fun (f : func id (body item))
| D_Let (l : loc) (ds : list dtor) (s : semi)
| D_Const (l : loc) (ds : list const_dtor) (s : semi)

(** easter/src/decl.rs:31-34 *)
with dtor : Type :=
| Dt_Simple (l : loc) (i : id) (init : option expr)
| Dt_Compound (l : loc) (p : cpatt id) (init : expr)

(** easter/src/decl.rs:37-41 *)
with const_dtor : Type :=
| CDt (l : loc) (p : patt_of id (cpatt id)) (value : expr).

(** easter/src/stmt.rs:46 *)
Definition script : Type := body item.

(** easter/src/decl.rs:11-14 *)
Inductive import : Type := Im_ForEffect (l : loc) (s : string_literal).

(** easter/src/decl.rs:17-21 *)
Inductive export : Type :=
| Ex_Var (l : loc) (ds : list dtor) (s : semi)
| Ex_Decl (d : decl).

(** easter/src/stmt.rs:140-144 *)
Inductive mod_item : Type :=
| MI_Import (i : import)
| MI_Export (e : export)
| MI_Item (i : item).

(** easter/src/stmt.rs:48 *)
Definition module : Type := body mod_item.

(** easter/src/id.rs:26-31 [IdExt::new], 33-35 [into_patt], 37-39 [into_expr], 41-43 [into_dtor] *)
Definition id_new (n : name) (l : loc) : id := Id l n.
Definition id_into_patt (i : id) : patt id := Simple i.
Definition id_into_expr (i : id) : expr := E_Id i.
Definition id_into_dtor (i : id) : dtor := Dt_Simple (id_loc i) i None.

(** easter/src/patt.rs:32-37 [Patt::is_simple] *)
Definition is_simple {T C} (p : patt_of T C) : bool :=
  match p with Simple _ => true | Compound _ => false end.

(** easter/src/stmt.rs:51-56 [Stmt::is_directive] *)
Definition stmt_is_directive (s : stmt) : bool :=
  match s with S_Expr _ (E_String _ _) _ => true | _ => false end.

(** easter/src/stmt.rs:58-67 [Stmt::to_directive]; 69-80 [into_directive] succeeds on
    the same statements with the same result *)
Definition stmt_to_directive (s : stmt) : option dir :=
  match s with
  | S_Expr l (E_String _ str) sm => Some (Dir l str sm)
  | _ => None
  end.
Definition stmt_into_directive (s : stmt) : dir + stmt :=
  match s with
  | S_Expr l (E_String _ str) sm => inl (Dir l str sm)
  | _ => inr s
  end.

(** easter/src/stmt.rs:153-158, 160-165, 167-172 *)
Definition item_is_directive (i : item) : bool :=
  match i with I_Stmt s => stmt_is_directive s | I_Decl _ => false end.
Definition item_to_directive (i : item) : option dir :=
  match i with I_Stmt s => stmt_to_directive s | I_Decl _ => None end.
Definition item_into_directive (i : item) : dir + item :=
  match i with
  | I_Stmt s => match stmt_into_directive s with inl d => inl d | inr s => inr (I_Stmt s) end
  | I_Decl d => inr (I_Decl d)
  end.

(** easter/src/stmt.rs:174-176 [into_mod_item] *)
Definition item_into_mod_item (i : item) : mod_item := MI_Item i.

(** easter/src/stmt.rs:130-136 [Dir::pragma] *)
Definition dir_pragma (d : dir) : str :=
  match str_source (dir_string d) with
  | Some source => source
  | None => str_value (dir_string d)
  end.
