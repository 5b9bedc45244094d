(** Trees seen as nodes with children: vocabulary for stating that something holds
    at every node of a syntax tree. *)
From Coq Require Import String Ascii List NArith Bool.
From Verif Require Import Base Word Token Punc Ast Track.
Import ListNotations.

(** A node is a value of one of the types of easter. *)
Inductive node : Type :=
| N_expr (e : expr)
| N_eli (e : eli)
| N_prop (p : prop)
| N_pval (v : prop_val)
| N_target (t : target)
| N_stmt (s : stmt)
| N_block (b : block)
| N_fh (h : for_head)
| N_fi (h : for_in_head)
| N_fo (h : for_of_head)
| N_catch (c : catch)
| N_case (c : case)
| N_item (i : item)
| N_decl (d : decl)
| N_dtor (d : dtor)
| N_cdtor (d : const_dtor)
| N_fexpr (f : func (option id) (body item))
| N_fmeth (f : func prop_key (body item))
| N_fdecl (f : func id (body item))
| N_body (b : body item)
| N_tpatt (p : patt target)
| N_trest (r : rest_patt target)
| N_tpp (p : prop_patt target)
| N_ipatt (p : patt id)
| N_irest (r : rest_patt id)
| N_ipp (p : prop_patt id)
| N_params (p : params)
| N_dir (d : dir)
| N_id (i : id)
| N_dk (k : dot_key)
| N_pk (k : prop_key)
| N_unop (o : unop)
| N_binop (o : binop)
| N_logop (o : logop)
| N_assop (o : assop)
| N_mod (m : module)
| N_mitem (i : mod_item)
| N_import (i : import)
| N_export (e : export).

Definition of_list {A} (f : A -> node) (l : list A) : list node := map f l.
Definition of_opt {A} (f : A -> node) (o : option A) : list node :=
  match o with Some a => [f a] | None => [] end.
Definition of_holes {A} (f : A -> node) (l : list (option A)) : list node := flat_map (of_opt f) l.

(** The children of a node, in source order. *)
Definition expr_children (e : expr) : list node :=
  match e with
  | E_This _ | E_NewTarget _ | E_True _ | E_False _ | E_Null _ | E_Number _ _ | E_RegExp _ _
  | E_String _ _ => []
  | E_Id i => [N_id i]
  | E_Arr _ es => of_holes N_eli es
  | E_Obj _ ps => of_list N_prop ps
  | E_Fun f => [N_fexpr f]
  | E_Seq _ es => of_list N_expr es
  | E_Unop _ o a => [N_unop o; N_expr a]
  | E_Binop _ o a b => [N_expr a; N_binop o; N_expr b]
  | E_Logop _ o a b => [N_expr a; N_logop o; N_expr b]
  | E_PreInc _ t | E_PostInc _ t | E_PreDec _ t | E_PostDec _ t => [N_target t]
  | E_Assign _ p a => [N_tpatt p; N_expr a]
  | E_BinAssign _ o t a => [N_target t; N_assop o; N_expr a]
  | E_Cond _ a b c => [N_expr a; N_expr b; N_expr c]
  | E_Call _ a args => N_expr a :: of_list N_eli args
  | E_New _ a args => N_expr a :: match args with Some args => of_list N_eli args | None => [] end
  | E_Dot _ a k => [N_expr a; N_dk k]
  | E_Brack _ a b => [N_expr a; N_expr b]
  end.
Definition prop_children (p : prop) : list node :=
  match p with
  | Pr_Regular _ k v => [N_pk k; N_pval v]
  | Pr_Method f => [N_fmeth f]
  | Pr_Shorthand i => [N_id i]
  end.
Definition pval_children (v : prop_val) : list node :=
  match v with
  | PV_Init e => [N_expr e]
  | PV_Get _ b => [N_body b]
  | PV_Set _ p b => [N_ipatt p; N_body b]
  end.
Definition target_children (t : target) : list node :=
  match t with
  | AT_Id i => [N_id i]
  | AT_Dot _ e k => [N_expr e; N_dk k]
  | AT_Brack _ e k => [N_expr e; N_expr k]
  end.
Definition stmt_children (s : stmt) : list node :=
  match s with
  | S_Empty _ | S_Debugger _ _ => []
  | S_Block b => [N_block b]
  | S_Var _ ds _ => of_list N_dtor ds
  | S_Expr _ e _ => [N_expr e]
  | S_If _ e a b => N_expr e :: N_stmt a :: of_opt N_stmt b
  | S_Label _ i b => [N_id i; N_stmt b]
  | S_Break _ i _ | S_Cont _ i _ => of_opt N_id i
  | S_With _ e b => [N_expr e; N_stmt b]
  | S_Switch _ e cs => N_expr e :: of_list N_case cs
  | S_Return _ e _ => of_opt N_expr e
  | S_Throw _ e _ => [N_expr e]
  | S_Try _ b c f => N_block b :: of_opt N_catch c ++ of_opt N_block f
  | S_While _ e b => [N_expr e; N_stmt b]
  | S_DoWhile _ b e _ => [N_stmt b; N_expr e]
  | S_For _ h t u b => of_opt N_fh h ++ of_opt N_expr t ++ of_opt N_expr u ++ [N_stmt b]
  | S_ForIn _ h e b => [N_fi h; N_expr e; N_stmt b]
  | S_ForOf _ h e b => [N_fo h; N_expr e; N_stmt b]
  end.
Definition func_children {I} (idn : I -> list node) (f : func I (body item)) : list node :=
  idn (fn_id f) ++ [N_params (fn_params f); N_body (fn_body f)].
Definition patt_children {T} (simple : T -> node) (np : patt T -> node) (nr : rest_patt T -> node)
    (npp : prop_patt T -> node) (p : patt T) : list node :=
  match p with
  | Simple t => [simple t]
  | Compound (C_Arr _ es r) => of_holes np es ++ of_opt nr r
  | Compound (C_Obj _ ps) => of_list npp ps
  end.
Definition pp_children {T} (np : patt T -> node) (p : prop_patt T) : list node :=
  match p with
  | PP_Regular _ k q => [N_pk k; np q]
  | PP_Shorthand i => [N_id i]
  end.

Definition children (n : node) : list node :=
  match n with
  | N_expr e => expr_children e
  | N_eli (L_Expr e) => [N_expr e]
  | N_eli (L_Spread _ e) => [N_expr e]
  | N_prop p => prop_children p
  | N_pval v => pval_children v
  | N_target t => target_children t
  | N_stmt s => stmt_children s
  | N_block (Block _ is) => of_list N_item is
  | N_fh (FH_Var _ ds) => of_list N_dtor ds
  | N_fh (FH_Let _ ds) => of_list N_dtor ds
  | N_fh (FH_Const _ ds) => of_list N_cdtor ds
  | N_fh (FH_Expr _ e) => [N_expr e]
  | N_fi (FI_VarInit _ i e) => [N_id i; N_expr e]
  | N_fi (FI_Var _ p) => [N_ipatt p]
  | N_fi (FI_Let _ p) => [N_ipatt p]
  | N_fi (FI_Const _ p) => [N_ipatt p]
  | N_fi (FI_Patt p) => [N_tpatt p]
  | N_fo (FO_Var _ p) => [N_ipatt p]
  | N_fo (FO_Let _ p) => [N_ipatt p]
  | N_fo (FO_Const _ p) => [N_ipatt p]
  | N_fo (FO_Patt p) => [N_tpatt p]
  | N_catch (Catch _ p b) => [N_ipatt p; N_block b]
  | N_case (Case _ t b) => of_opt N_expr t ++ of_list N_item b
  | N_item (I_Decl d) => [N_decl d]
  | N_item (I_Stmt s) => [N_stmt s]
  | N_decl (D_Fun f) => [N_fdecl f]
  | N_decl (D_Let _ ds _) => of_list N_dtor ds
  | N_decl (D_Const _ ds _) => of_list N_cdtor ds
  | N_dtor (Dt_Simple _ i e) => N_id i :: of_opt N_expr e
  | N_dtor (Dt_Compound _ p e) => [N_ipatt (Compound p); N_expr e]
  | N_cdtor (CDt _ p e) => [N_ipatt p; N_expr e]
  | N_fexpr f => func_children (of_opt N_id) f
  | N_fmeth f => func_children (fun k => [N_pk k]) f
  | N_fdecl f => func_children (fun i => [N_id i]) f
  | N_body b => of_list N_dir (bo_dirs b) ++ of_list N_item (bo_items b)
  | N_tpatt p => patt_children N_target N_tpatt N_trest N_tpp p
  | N_trest r => [N_tpatt (rp_patt r)]
  | N_tpp p => pp_children N_tpatt p
  | N_ipatt p => patt_children N_id N_ipatt N_irest N_ipp p
  | N_irest r => [N_ipatt (rp_patt r)]
  | N_ipp p => pp_children N_ipatt p
  | N_params p => of_list N_ipatt (pa_list p) ++ of_opt N_irest (pa_rest p)
  | N_dir _ | N_id _ | N_dk _ | N_pk _ | N_unop _ | N_binop _ | N_logop _ | N_assop _ => []
  | N_mod m => of_list N_dir (bo_dirs m) ++ of_list N_mitem (bo_items m)
  | N_mitem (MI_Import i) => [N_import i]
  | N_mitem (MI_Export e) => [N_export e]
  | N_mitem (MI_Item i) => [N_item i]
  | N_import _ => []
  | N_export (Ex_Var _ ds _) => of_list N_dtor ds
  | N_export (Ex_Decl d) => [N_decl d]
  end.

(** [within n m]: [m] is [n] or a node below it. *)
Inductive within (n : node) : node -> Prop :=
| wi_refl : within n n
| wi_step : forall m c, within n m -> In c (children m) -> within n c.

(** The location a node carries ([tracking_ref]). *)
Definition node_loc (n : node) : loc :=
  match n with
  | N_expr e => expr_loc e
  | N_eli e => eli_loc e
  | N_prop p => prop_loc p
  | N_pval v => prop_val_loc v
  | N_target t => target_loc t
  | N_stmt s => stmt_loc s
  | N_block b => block_loc b
  | N_fh h => for_head_loc h
  | N_fi h => for_in_head_loc h
  | N_fo h => for_of_head_loc h
  | N_catch c => catch_loc c
  | N_case c => case_loc c
  | N_item i => item_loc i
  | N_decl d => decl_loc d
  | N_dtor d => dtor_loc d
  | N_cdtor d => const_dtor_loc d
  | N_fexpr f => fn_loc f
  | N_fmeth f => fn_loc f
  | N_fdecl f => fn_loc f
  | N_body b => bo_loc b
  | N_tpatt p => patt_target_loc p
  | N_trest r => rp_loc r
  | N_tpp p => prop_patt_loc p
  | N_ipatt p => patt_id_loc p
  | N_irest r => rp_loc r
  | N_ipp p => prop_patt_loc p
  | N_params p => pa_loc p
  | N_dir d => dir_loc d
  | N_id i => id_loc i
  | N_dk k => dk_loc k
  | N_pk k => prop_key_loc k
  | N_unop o => op_loc o
  | N_binop o => op_loc o
  | N_logop o => op_loc o
  | N_assop o => op_loc o
  | N_mod m => bo_loc m
  | N_mitem i => mod_item_loc i
  | N_import i => import_loc i
  | N_export e => export_loc e
  end.

(** The semicolon a node carries, if its kind has one. *)
Definition node_semi (n : node) : option semi :=
  match n with
  | N_stmt (S_Var _ _ s) => Some s
  | N_stmt (S_Expr _ _ s) => Some s
  | N_stmt (S_Break _ _ s) => Some s
  | N_stmt (S_Cont _ _ s) => Some s
  | N_stmt (S_Return _ _ s) => Some s
  | N_stmt (S_Throw _ _ s) => Some s
  | N_stmt (S_DoWhile _ _ _ s) => Some s
  | N_stmt (S_Debugger _ s) => Some s
  | N_decl (D_Let _ _ s) => Some s
  | N_decl (D_Const _ _ s) => Some s
  | N_dir d => Some (dir_semi d)
  | N_export (Ex_Var _ _ s) => Some s
  | _ => None
  end.
