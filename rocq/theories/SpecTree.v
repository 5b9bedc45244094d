(** Vocabulary for statements about trees: reading a pattern back as an
    expression, nodes without their locations, trees alike but for locations. *)
From Coq Require Import String Ascii List NArith Bool.
From Verif Require Import Base F64 Word Token Punc Ast Track Node.
Import ListNotations.

(** ** Patterns read back as expressions *)

(** The expression an assignment target is written as. *)
Definition target_expr (t : target) : expr :=
  match t with
  | AT_Id i => E_Id i
  | AT_Dot l o k => E_Dot l o k
  | AT_Brack l o k => E_Brack l o k
  end.

(** The expression an assignment pattern is written as. *)
Definition patt_expr_of (f : cpatt target -> expr) (p : patt target) : expr :=
  match p with Simple t => target_expr t | Compound c => f c end.
Fixpoint cpatt_expr (c : cpatt target) : expr :=
  match c with
  | C_Arr l es r =>
      E_Arr l (map (option_map (fun p => L_Expr (patt_expr_of cpatt_expr p))) es
               ++ match r with
                  | Some r => [Some (L_Spread (rp_loc r) (patt_expr_of cpatt_expr (rp_patt r)))]
                  | None => []
                  end)
  | C_Obj l ps =>
      E_Obj l (map (fun p => match p with
                             | PP_Regular l k q => Pr_Regular l k (PV_Init (patt_expr_of cpatt_expr q))
                             | PP_Shorthand i => Pr_Shorthand i
                             end) ps)
  end.
Definition patt_expr (p : patt target) : expr := patt_expr_of cpatt_expr p.

(** No rest element of the pattern carries a location. *)
Inductive rests_unlocated : patt target -> Prop :=
| ru_simple : forall t, rests_unlocated (Simple t)
| ru_arr : forall l es r,
    (forall p, In (Some p) es -> rests_unlocated p) ->
    (forall x, r = Some x -> rp_loc x = None /\ rests_unlocated (rp_patt x)) ->
    rests_unlocated (Compound (C_Arr l es r))
| ru_obj : forall l ps,
    (forall l' k q, In (PP_Regular l' k q) ps -> rests_unlocated q) ->
    rests_unlocated (Compound (C_Obj l ps)).

(** ** Nodes without their locations *)

(** [untrack] at any node. *)
Definition node_untrack (n : node) : node :=
  match n with
  | N_expr e => N_expr (expr_untrack e)
  | N_eli e => N_eli (eli_untrack e)
  | N_prop p => N_prop (prop_untrack p)
  | N_pval v => N_pval (prop_val_untrack v)
  | N_target t => N_target (target_untrack t)
  | N_stmt s => N_stmt (stmt_untrack s)
  | N_block b => N_block (block_untrack b)
  | N_fh h => N_fh (for_head_untrack h)
  | N_fi h => N_fi (for_in_head_untrack h)
  | N_fo h => N_fo (for_of_head_untrack h)
  | N_catch c => N_catch (catch_untrack c)
  | N_case c => N_case (case_untrack c)
  | N_item i => N_item (item_untrack i)
  | N_decl d => N_decl (decl_untrack d)
  | N_dtor d => N_dtor (dtor_untrack d)
  | N_cdtor d => N_cdtor (const_dtor_untrack d)
  | N_fexpr f => N_fexpr (func_untrack (option_map id_untrack) (body_untrack item_untrack) f)
  | N_fmeth f => N_fmeth (func_untrack prop_key_untrack (body_untrack item_untrack) f)
  | N_fdecl f => N_fdecl (func_untrack id_untrack (body_untrack item_untrack) f)
  | N_body b => N_body (body_untrack item_untrack b)
  | N_tpatt p => N_tpatt (patt_untrack target_untrack p)
  | N_trest r => N_trest (rest_untrack (patt_untrack target_untrack) r)
  | N_tpp p => N_tpp (prop_patt_untrack (patt_untrack target_untrack) p)
  | N_ipatt p => N_ipatt (patt_untrack id_untrack p)
  | N_irest r => N_irest (rest_untrack (patt_untrack id_untrack) r)
  | N_ipp p => N_ipp (prop_patt_untrack (patt_untrack id_untrack) p)
  | N_params p => N_params (params_untrack p)
  | N_dir d => N_dir (dir_untrack d)
  | N_id i => N_id (id_untrack i)
  | N_dk k => N_dk (dot_key_untrack k)
  | N_pk k => N_pk (prop_key_untrack k)
  | N_unop o => N_unop (op_untrack o)
  | N_binop o => N_binop (op_untrack o)
  | N_logop o => N_logop (op_untrack o)
  | N_assop o => N_assop (op_untrack o)
  | N_mod m => N_mod (module_untrack m)
  | N_mitem i => N_mitem (mod_item_untrack i)
  | N_import i => N_import (import_untrack i)
  | N_export e => N_export (export_untrack e)
  end.

(** Assignment to a node's location through [tracking_mut]. *)
Definition node_set_loc (n : node) (l : loc) : node :=
  match n with
  | N_expr e => N_expr (expr_set_loc e l)
  | N_eli e => N_eli (eli_set_loc e l)
  | N_prop p => N_prop (prop_set_loc p l)
  | N_pval v => N_pval (prop_val_set_loc v l)
  | N_target t => N_target (target_set_loc t l)
  | N_stmt s => N_stmt (stmt_set_loc s l)
  | N_block b => N_block (block_set_loc b l)
  | N_fh h => N_fh (for_head_set_loc h l)
  | N_fi h => N_fi (for_in_head_set_loc h l)
  | N_fo h => N_fo (for_of_head_set_loc h l)
  | N_catch c => N_catch (catch_set_loc c l)
  | N_case c => N_case (case_set_loc c l)
  | N_item i => N_item (item_set_loc i l)
  | N_decl d => N_decl (decl_set_loc d l)
  | N_dtor d => N_dtor (dtor_set_loc d l)
  | N_cdtor d => N_cdtor (const_dtor_set_loc d l)
  | N_fexpr f => N_fexpr (func_set_loc f l)
  | N_fmeth f => N_fmeth (func_set_loc f l)
  | N_fdecl f => N_fdecl (func_set_loc f l)
  | N_body b => N_body (body_set_loc b l)
  | N_tpatt p => N_tpatt (patt_target_set_loc p l)
  | N_trest r => N_trest (rest_set_loc r l)
  | N_tpp p => N_tpp (prop_patt_set_loc p l)
  | N_ipatt p => N_ipatt (patt_id_set_loc p l)
  | N_irest r => N_irest (rest_set_loc r l)
  | N_ipp p => N_ipp (prop_patt_set_loc p l)
  | N_params p => N_params (params_set_loc p l)
  | N_dir d => N_dir (dir_set_loc d l)
  | N_id i => N_id (id_set_loc i l)
  | N_dk k => N_dk (dot_key_set_loc k l)
  | N_pk k => N_pk (prop_key_set_loc k l)
  | N_unop o => N_unop (Op l (op_tag o))
  | N_binop o => N_binop (Op l (op_tag o))
  | N_logop o => N_logop (Op l (op_tag o))
  | N_assop o => N_assop (Op l (op_tag o))
  | N_mod m => N_mod (body_set_loc m l)
  | N_mitem i => N_mitem (mod_item_set_loc i l)
  | N_import i => N_import (import_set_loc i l)
  | N_export e => N_export (export_set_loc e l)
  end.

(** ** Trees alike but for locations and semicolon marks *)

(** Fixed stand-ins for children. *)
Definition no_id : id := Id None (NString []).
Definition no_expr : expr := E_This None.
Definition no_eli : eli := L_Expr no_expr.
Definition no_stmt : stmt := S_Empty None.
Definition no_item : item := I_Stmt no_stmt.
Definition no_prop : prop := Pr_Shorthand no_id.
Definition no_key : prop_key := PK_Id None [].
Definition no_body : body item := Body None [] [].
Definition no_params : params := Params None [] None.
Definition no_ipatt : patt id := Simple no_id.
Definition no_target : target := AT_Id no_id.
Definition no_tpatt : patt target := Simple no_target.
Definition no_dtor : dtor := Dt_Simple None no_id None.
Definition no_cdtor : const_dtor := CDt None no_ipatt no_expr.
Definition no_block : block := Block None [].
Definition no_semi : semi := Inserted.
Definition no_dir : dir := Dir None (StringLiteral None []) no_semi.
Definition no_decl : decl := D_Let None [] no_semi.

Definition each {A B} (b : B) (l : list A) : list B := map (fun _ => b) l.
Definition opt {A B} (b : B) (o : option A) : option B := option_map (fun _ => b) o.
Definition holes {A B} (b : B) (l : list (option A)) : list (option B) := map (opt b) l.

(** A node stripped of its location, its semicolon and its children: what is left
    is the kind of node, its own data (names, literals, operator, flags) and which
    optional children are present. *)
Definition expr_shape (e : expr) : expr :=
  match e with
  | E_This _ => E_This None
  | E_Id _ => E_Id no_id
  | E_Arr _ es => E_Arr None (holes no_eli es)
  | E_Obj _ ps => E_Obj None (each no_prop ps)
  | E_Fun _ => E_Fun (Fun None None no_params no_body false)
  | E_Seq _ es => E_Seq None (each no_expr es)
  | E_Unop _ o _ => E_Unop None (Op None Un_Minus) no_expr
  | E_Binop _ o _ _ => E_Binop None (Op None Bi_Eq) no_expr no_expr
  | E_Logop _ o _ _ => E_Logop None (Op None Lo_Or) no_expr no_expr
  | E_PreInc _ _ => E_PreInc None no_target
  | E_PostInc _ _ => E_PostInc None no_target
  | E_PreDec _ _ => E_PreDec None no_target
  | E_PostDec _ _ => E_PostDec None no_target
  | E_Assign _ _ _ => E_Assign None no_tpatt no_expr
  | E_BinAssign _ o _ _ => E_BinAssign None (Op None As_PlusEq) no_target no_expr
  | E_Cond _ _ _ _ => E_Cond None no_expr no_expr no_expr
  | E_Call _ _ args => E_Call None no_expr (each no_eli args)
  | E_New _ _ args => E_New None no_expr (option_map (each no_eli) args)
  | E_Dot _ _ _ => E_Dot None no_expr (DotKey None [])
  | E_Brack _ _ _ => E_Brack None no_expr no_expr
  | E_NewTarget _ => E_NewTarget None
  | E_True _ => E_True None
  | E_False _ => E_False None
  | E_Null _ => E_Null None
  | E_Number _ n => E_Number None n
  | E_RegExp _ r => E_RegExp None r
  | E_String _ s => E_String None s
  end.
Definition stmt_shape (s : stmt) : stmt :=
  match s with
  | S_Empty _ => S_Empty None
  | S_Block _ => S_Block no_block
  | S_Var _ ds _ => S_Var None (each no_dtor ds) no_semi
  | S_Expr _ _ _ => S_Expr None no_expr no_semi
  | S_If _ _ _ b => S_If None no_expr no_stmt (opt no_stmt b)
  | S_Label _ _ _ => S_Label None no_id no_stmt
  | S_Break _ i _ => S_Break None (opt no_id i) no_semi
  | S_Cont _ i _ => S_Cont None (opt no_id i) no_semi
  | S_With _ _ _ => S_With None no_expr no_stmt
  | S_Switch _ _ cs => S_Switch None no_expr (each (Case None None []) cs)
  | S_Return _ e _ => S_Return None (opt no_expr e) no_semi
  | S_Throw _ _ _ => S_Throw None no_expr no_semi
  | S_Try _ _ c f => S_Try None no_block (opt (Catch None no_ipatt no_block) c) (opt no_block f)
  | S_While _ _ _ => S_While None no_expr no_stmt
  | S_DoWhile _ _ _ _ => S_DoWhile None no_stmt no_expr no_semi
  | S_For _ h t u _ => S_For None (opt (FH_Var None []) h) (opt no_expr t) (opt no_expr u) no_stmt
  | S_ForIn _ _ _ _ => S_ForIn None (FI_Var None no_ipatt) no_expr no_stmt
  | S_ForOf _ _ _ _ => S_ForOf None (FO_Var None no_ipatt) no_expr no_stmt
  | S_Debugger _ _ => S_Debugger None no_semi
  end.
Definition patt_shape {T} (no : T) (p : patt T) : patt T :=
  match p with
  | Simple _ => Simple no
  | Compound (C_Arr _ es r) => Compound (C_Arr None (holes (Simple no) es) (opt (RestPatt None (Simple no)) r))
  | Compound (C_Obj _ ps) => Compound (C_Obj None (each (PP_Shorthand no_id) ps))
  end.
Definition pp_shape {T} (no : T) (p : prop_patt T) : prop_patt T :=
  match p with
  | PP_Regular _ _ _ => PP_Regular None no_key (Simple no)
  | PP_Shorthand _ => PP_Shorthand no_id
  end.
Definition func_shape {I} (i : I) (f : func I (body item)) : func I (body item) :=
  Fun None i no_params no_body (fn_generator f).

Definition shape (n : node) : node :=
  match n with
  | N_expr e => N_expr (expr_shape e)
  | N_eli (L_Expr _) => N_eli no_eli
  | N_eli (L_Spread _ _) => N_eli (L_Spread None no_expr)
  | N_prop (Pr_Regular _ _ _) => N_prop (Pr_Regular None no_key (PV_Init no_expr))
  | N_prop (Pr_Method _) => N_prop (Pr_Method (Fun None no_key no_params no_body false))
  | N_prop (Pr_Shorthand _) => N_prop no_prop
  | N_pval (PV_Init _) => N_pval (PV_Init no_expr)
  | N_pval (PV_Get _ _) => N_pval (PV_Get None no_body)
  | N_pval (PV_Set _ _ _) => N_pval (PV_Set None no_ipatt no_body)
  | N_target (AT_Id _) => N_target no_target
  | N_target (AT_Dot _ _ _) => N_target (AT_Dot None no_expr (DotKey None []))
  | N_target (AT_Brack _ _ _) => N_target (AT_Brack None no_expr no_expr)
  | N_stmt s => N_stmt (stmt_shape s)
  | N_block (Block _ is) => N_block (Block None (each no_item is))
  | N_fh (FH_Var _ ds) => N_fh (FH_Var None (each no_dtor ds))
  | N_fh (FH_Let _ ds) => N_fh (FH_Let None (each no_dtor ds))
  | N_fh (FH_Const _ ds) => N_fh (FH_Const None (each no_cdtor ds))
  | N_fh (FH_Expr _ _) => N_fh (FH_Expr None no_expr)
  | N_fi (FI_VarInit _ _ _) => N_fi (FI_VarInit None no_id no_expr)
  | N_fi (FI_Var _ _) => N_fi (FI_Var None no_ipatt)
  | N_fi (FI_Let _ _) => N_fi (FI_Let None no_ipatt)
  | N_fi (FI_Const _ _) => N_fi (FI_Const None no_ipatt)
  | N_fi (FI_Patt _) => N_fi (FI_Patt no_tpatt)
  | N_fo (FO_Var _ _) => N_fo (FO_Var None no_ipatt)
  | N_fo (FO_Let _ _) => N_fo (FO_Let None no_ipatt)
  | N_fo (FO_Const _ _) => N_fo (FO_Const None no_ipatt)
  | N_fo (FO_Patt _) => N_fo (FO_Patt no_tpatt)
  | N_catch _ => N_catch (Catch None no_ipatt no_block)
  | N_case (Case _ t is) => N_case (Case None (opt no_expr t) (each no_item is))
  | N_item (I_Decl _) => N_item (I_Decl no_decl)
  | N_item (I_Stmt _) => N_item no_item
  | N_decl (D_Fun _) => N_decl (D_Fun (Fun None no_id no_params no_body false))
  | N_decl (D_Let _ ds _) => N_decl (D_Let None (each no_dtor ds) no_semi)
  | N_decl (D_Const _ ds _) => N_decl (D_Const None (each no_cdtor ds) no_semi)
  | N_dtor (Dt_Simple _ _ e) => N_dtor (Dt_Simple None no_id (opt no_expr e))
  | N_dtor (Dt_Compound _ _ _) => N_dtor (Dt_Compound None (C_Obj None []) no_expr)
  | N_cdtor _ => N_cdtor no_cdtor
  | N_fexpr f => N_fexpr (func_shape (opt no_id (fn_id f)) f)
  | N_fmeth f => N_fmeth (func_shape no_key f)
  | N_fdecl f => N_fdecl (func_shape no_id f)
  | N_body b => N_body (Body None (each no_dir (bo_dirs b)) (each no_item (bo_items b)))
  | N_tpatt p => N_tpatt (patt_shape no_target p)
  | N_trest _ => N_trest (RestPatt None no_tpatt)
  | N_tpp p => N_tpp (pp_shape no_target p)
  | N_ipatt p => N_ipatt (patt_shape no_id p)
  | N_irest _ => N_irest (RestPatt None no_ipatt)
  | N_ipp p => N_ipp (pp_shape no_id p)
  | N_params p => N_params (Params None (each no_ipatt (pa_list p)) (opt (RestPatt None no_ipatt) (pa_rest p)))
  | N_dir d => N_dir (Dir None (dir_string d) no_semi)
  | N_id i => N_id (Id None (id_name i))
  | N_dk k => N_dk (DotKey None (dk_value k))
  | N_pk (PK_Id _ s) => N_pk (PK_Id None s)
  | N_pk (PK_String _ s) => N_pk (PK_String None s)
  | N_pk (PK_Number _ s) => N_pk (PK_Number None s)
  | N_unop o => N_unop (Op None (op_tag o))
  | N_binop o => N_binop (Op None (op_tag o))
  | N_logop o => N_logop (Op None (op_tag o))
  | N_assop o => N_assop (Op None (op_tag o))
  | N_mod b => N_mod (Body None (each no_dir (bo_dirs b)) (each (MI_Item no_item) (bo_items b)))
  | N_mitem (MI_Import _) => N_mitem (MI_Import (Im_ForEffect None (StringLiteral None [])))
  | N_mitem (MI_Export _) => N_mitem (MI_Export (Ex_Decl no_decl))
  | N_mitem (MI_Item _) => N_mitem (MI_Item no_item)
  | N_import (Im_ForEffect _ s) => N_import (Im_ForEffect None s)
  | N_export (Ex_Var _ ds _) => N_export (Ex_Var None (each no_dtor ds) no_semi)
  | N_export (Ex_Decl _) => N_export (Ex_Decl no_decl)
  end.

(** Two trees that differ at most in locations and semicolon marks. *)
Inductive alike : node -> node -> Prop :=
| alike_intro : forall n m, shape n = shape m -> Forall2 alike (children n) (children m) -> alike n m.

(** The spelling of a unary operator in the language (the code does not print them). *)
Definition unop_spelling (t : unop_tag) : string :=
  match t with
  | Un_Minus => "-" | Un_Plus => "+" | Un_Not => "!" | Un_BitNot => "~"
  | Un_Typeof => "typeof" | Un_Void => "void" | Un_Delete => "delete"
  end.
