(** Source locations of syntax trees.  Models the traits of joker/src/track.rs,
    the impls generated by derive/src/lib.rs and the hand-written impls in
    easter/src.

    [X_loc] is [tracking_ref]; [X_set_loc] is assignment through [tracking_mut];
    [X_untrack] is [untrack].  The generated [tracking_ref] of an enum returns the
    first field of the variant if it is an [Option<Span>] and otherwise calls
    [tracking_ref] on the first field (derive/src/lib.rs:64-80); of a struct it
    returns the field [location] (52-63).  The generated [untrack] calls [untrack]
    on every field (140-195). *)
From Coq Require Import String Ascii List NArith Bool.
From Verif Require Import Base Word Token Punc Ast.
Import ListNotations.

(** easter/src/patt.rs:40-56 *)
Definition patt_of_loc {T C} (ft : T -> loc) (fc : C -> loc) (p : patt_of T C) : loc :=
  match p with Simple t => ft t | Compound c => fc c end.
Definition patt_of_set_loc {T C} (ft : T -> loc -> T) (fc : C -> loc -> C) (p : patt_of T C) (l : loc)
  : patt_of T C :=
  match p with Simple t => Simple (ft t l) | Compound c => Compound (fc c l) end.

(** easter/src/patt.rs:13 derived *)
Definition cpatt_loc {T} (c : cpatt T) : loc :=
  match c with C_Arr l _ _ => l | C_Obj l _ => l end.
Definition cpatt_set_loc {T} (c : cpatt T) (l : loc) : cpatt T :=
  match c with C_Arr _ es r => C_Arr l es r | C_Obj _ ps => C_Obj l ps end.

(** easter/src/id.rs:8 derived *)
Definition id_set_loc (i : id) (l : loc) : id := Id l (id_name i).

Definition patt_id_loc (p : patt id) : loc := patt_of_loc id_loc cpatt_loc p.
Definition patt_id_set_loc (p : patt id) (l : loc) : patt id := patt_of_set_loc id_set_loc cpatt_set_loc p l.

(** easter/src/patt.rs:58 derived *)
Definition target_loc (t : target) : loc :=
  match t with AT_Id i => id_loc i | AT_Dot l _ _ => l | AT_Brack l _ _ => l end.
Definition target_set_loc (t : target) (l : loc) : target :=
  match t with
  | AT_Id i => AT_Id (id_set_loc i l)
  | AT_Dot _ e k => AT_Dot l e k
  | AT_Brack _ e k => AT_Brack l e k
  end.

Definition patt_target_loc (p : patt target) : loc := patt_of_loc target_loc cpatt_loc p.
Definition patt_target_set_loc (p : patt target) (l : loc) : patt target :=
  patt_of_set_loc target_set_loc cpatt_set_loc p l.

(** easter/src/obj.rs:10 derived *)
Definition dot_key_set_loc (k : dot_key) (l : loc) : dot_key := DotKey l (dk_value k).

(** easter/src/obj.rs:27 derived *)
Definition prop_key_loc (k : prop_key) : loc :=
  match k with PK_Id l _ => l | PK_String l _ => l | PK_Number l _ => l end.
Definition prop_key_set_loc (k : prop_key) (l : loc) : prop_key :=
  match k with
  | PK_Id _ s => PK_Id l s | PK_String _ s => PK_String l s | PK_Number _ n => PK_Number l n
  end.

(** easter/src/patt.rs:7,19 derived *)
Definition rest_set_loc {P} (r : rest_of P) (l : loc) : rest_of P := RestPatt l (rp_patt r).
Definition prop_patt_loc {P} (p : prop_patt_of P) : loc :=
  match p with PP_Regular l _ _ => l | PP_Shorthand i => id_loc i end.
Definition prop_patt_set_loc {P} (p : prop_patt_of P) (l : loc) : prop_patt_of P :=
  match p with
  | PP_Regular _ k p => PP_Regular l k p
  | PP_Shorthand i => PP_Shorthand (id_set_loc i l)
  end.

(** easter/src/fun.rs:7,14 and stmt.rs:33 derived *)
Definition params_set_loc (p : params) (l : loc) : params := Params l (pa_list p) (pa_rest p).
Definition func_set_loc {I B} (f : func I B) (l : loc) : func I B :=
  Fun l (fn_id f) (fn_params f) (fn_body f) (fn_generator f).
Definition body_set_loc {I} (b : body I) (l : loc) : body I := Body l (bo_dirs b) (bo_items b).

(** easter/src/expr.rs:18 derived *)
Definition expr_loc (e : expr) : loc :=
  match e with
  | E_This l => l
  | E_Id i => id_loc i
  | E_Arr l _ => l
  | E_Obj l _ => l
  | E_Fun f => fn_loc f
  | E_Seq l _ => l
  | E_Unop l _ _ => l
  | E_Binop l _ _ _ => l
  | E_Logop l _ _ _ => l
  | E_PreInc l _ => l
  | E_PostInc l _ => l
  | E_PreDec l _ => l
  | E_PostDec l _ => l
  | E_Assign l _ _ => l
  | E_BinAssign l _ _ _ => l
  | E_Cond l _ _ _ => l
  | E_Call l _ _ => l
  | E_New l _ _ => l
  | E_Dot l _ _ => l
  | E_Brack l _ _ => l
  | E_NewTarget l => l
  | E_True l => l
  | E_False l => l
  | E_Null l => l
  | E_Number l _ => l
  | E_RegExp l _ => l
  | E_String l _ => l
  end.
Definition expr_set_loc (e : expr) (l : loc) : expr :=
  match e with
  | E_This _ => E_This l
  | E_Id i => E_Id (id_set_loc i l)
  | E_Arr _ a => E_Arr l a
  | E_Obj _ a => E_Obj l a
  | E_Fun f => E_Fun (func_set_loc f l)
  | E_Seq _ a => E_Seq l a
  | E_Unop _ a b => E_Unop l a b
  | E_Binop _ a b c => E_Binop l a b c
  | E_Logop _ a b c => E_Logop l a b c
  | E_PreInc _ a => E_PreInc l a
  | E_PostInc _ a => E_PostInc l a
  | E_PreDec _ a => E_PreDec l a
  | E_PostDec _ a => E_PostDec l a
  | E_Assign _ a b => E_Assign l a b
  | E_BinAssign _ a b c => E_BinAssign l a b c
  | E_Cond _ a b c => E_Cond l a b c
  | E_Call _ a b => E_Call l a b
  | E_New _ a b => E_New l a b
  | E_Dot _ a b => E_Dot l a b
  | E_Brack _ a b => E_Brack l a b
  | E_NewTarget _ => E_NewTarget l
  | E_True _ => E_True l
  | E_False _ => E_False l
  | E_Null _ => E_Null l
  | E_Number _ a => E_Number l a
  | E_RegExp _ a => E_RegExp l a
  | E_String _ a => E_String l a
  end.

(** easter/src/expr.rs:12 derived *)
Definition eli_loc (e : eli) : loc :=
  match e with L_Expr e => expr_loc e | L_Spread l _ => l end.
Definition eli_set_loc (e : eli) (l : loc) : eli :=
  match e with L_Expr e => L_Expr (expr_set_loc e l) | L_Spread _ e => L_Spread l e end.

(** easter/src/obj.rs:20,40 derived *)
Definition prop_loc (p : prop) : loc :=
  match p with Pr_Regular l _ _ => l | Pr_Method f => fn_loc f | Pr_Shorthand i => id_loc i end.
Definition prop_set_loc (p : prop) (l : loc) : prop :=
  match p with
  | Pr_Regular _ k v => Pr_Regular l k v
  | Pr_Method f => Pr_Method (func_set_loc f l)
  | Pr_Shorthand i => Pr_Shorthand (id_set_loc i l)
  end.
Definition prop_val_loc (v : prop_val) : loc :=
  match v with PV_Init e => expr_loc e | PV_Get l _ => l | PV_Set l _ _ => l end.
Definition prop_val_set_loc (v : prop_val) (l : loc) : prop_val :=
  match v with
  | PV_Init e => PV_Init (expr_set_loc e l)
  | PV_Get _ b => PV_Get l b
  | PV_Set _ p b => PV_Set l p b
  end.

(** easter/src/stmt.rs:40,83,91,100,108,115,122 derived *)
Definition block_loc (b : block) : loc := match b with Block l _ => l end.
Definition block_set_loc (b : block) (l : loc) : block := match b with Block _ is => Block l is end.
Definition for_head_loc (h : for_head) : loc :=
  match h with FH_Var l _ => l | FH_Let l _ => l | FH_Const l _ => l | FH_Expr l _ => l end.
Definition for_head_set_loc (h : for_head) (l : loc) : for_head :=
  match h with
  | FH_Var _ d => FH_Var l d | FH_Let _ d => FH_Let l d | FH_Const _ d => FH_Const l d
  | FH_Expr _ e => FH_Expr l e
  end.
Definition for_in_head_loc (h : for_in_head) : loc :=
  match h with
  | FI_VarInit l _ _ => l | FI_Var l _ => l | FI_Let l _ => l | FI_Const l _ => l
  | FI_Patt p => patt_target_loc p
  end.
Definition for_in_head_set_loc (h : for_in_head) (l : loc) : for_in_head :=
  match h with
  | FI_VarInit _ i e => FI_VarInit l i e
  | FI_Var _ p => FI_Var l p | FI_Let _ p => FI_Let l p | FI_Const _ p => FI_Const l p
  | FI_Patt p => FI_Patt (patt_target_set_loc p l)
  end.
Definition for_of_head_loc (h : for_of_head) : loc :=
  match h with
  | FO_Var l _ => l | FO_Let l _ => l | FO_Const l _ => l
  | FO_Patt p => patt_target_loc p
  end.
Definition for_of_head_set_loc (h : for_of_head) (l : loc) : for_of_head :=
  match h with
  | FO_Var _ p => FO_Var l p | FO_Let _ p => FO_Let l p | FO_Const _ p => FO_Const l p
  | FO_Patt p => FO_Patt (patt_target_set_loc p l)
  end.
Definition catch_loc (c : catch) : loc := match c with Catch l _ _ => l end.
Definition catch_set_loc (c : catch) (l : loc) : catch := match c with Catch _ p b => Catch l p b end.
Definition case_loc (c : case) : loc := match c with Case l _ _ => l end.
Definition case_set_loc (c : case) (l : loc) : case := match c with Case _ t b => Case l t b end.
Definition dir_set_loc (d : dir) (l : loc) : dir := Dir l (dir_string d) (dir_semi d).

(** easter/src/decl.rs:23,30,36 derived *)
Definition decl_loc (d : decl) : loc :=
  match d with D_Fun f => fn_loc f | D_Let l _ _ => l | D_Const l _ _ => l end.
Definition decl_set_loc (d : decl) (l : loc) : decl :=
  match d with
  | D_Fun f => D_Fun (func_set_loc f l) | D_Let _ a b => D_Let l a b | D_Const _ a b => D_Const l a b
  end.
Definition dtor_loc (d : dtor) : loc :=
  match d with Dt_Simple l _ _ => l | Dt_Compound l _ _ => l end.
Definition dtor_set_loc (d : dtor) (l : loc) : dtor :=
  match d with Dt_Simple _ a b => Dt_Simple l a b | Dt_Compound _ a b => Dt_Compound l a b end.
Definition const_dtor_loc (d : const_dtor) : loc := match d with CDt l _ _ => l end.
Definition const_dtor_set_loc (d : const_dtor) (l : loc) : const_dtor :=
  match d with CDt _ a b => CDt l a b end.

(** easter/src/stmt.rs:10 derived *)
Definition stmt_loc (s : stmt) : loc :=
  match s with
  | S_Empty l => l
  | S_Block b => block_loc b
  | S_Var l _ _ => l
  | S_Expr l _ _ => l
  | S_If l _ _ _ => l
  | S_Label l _ _ => l
  | S_Break l _ _ => l
  | S_Cont l _ _ => l
  | S_With l _ _ => l
  | S_Switch l _ _ => l
  | S_Return l _ _ => l
  | S_Throw l _ _ => l
  | S_Try l _ _ _ => l
  | S_While l _ _ => l
  | S_DoWhile l _ _ _ => l
  | S_For l _ _ _ _ => l
  | S_ForIn l _ _ _ => l
  | S_ForOf l _ _ _ => l
  | S_Debugger l _ => l
  end.
Definition stmt_set_loc (s : stmt) (l : loc) : stmt :=
  match s with
  | S_Empty _ => S_Empty l
  | S_Block b => S_Block (block_set_loc b l)
  | S_Var _ a b => S_Var l a b
  | S_Expr _ a b => S_Expr l a b
  | S_If _ a b c => S_If l a b c
  | S_Label _ a b => S_Label l a b
  | S_Break _ a b => S_Break l a b
  | S_Cont _ a b => S_Cont l a b
  | S_With _ a b => S_With l a b
  | S_Switch _ a b => S_Switch l a b
  | S_Return _ a b => S_Return l a b
  | S_Throw _ a b => S_Throw l a b
  | S_Try _ a b c => S_Try l a b c
  | S_While _ a b => S_While l a b
  | S_DoWhile _ a b c => S_DoWhile l a b c
  | S_For _ a b c d => S_For l a b c d
  | S_ForIn _ a b c => S_ForIn l a b c
  | S_ForOf _ a b c => S_ForOf l a b c
  | S_Debugger _ a => S_Debugger l a
  end.

(** easter/src/stmt.rs:146,139; decl.rs:10,16 derived *)
Definition item_loc (i : item) : loc := match i with I_Decl d => decl_loc d | I_Stmt s => stmt_loc s end.
Definition item_set_loc (i : item) (l : loc) : item :=
  match i with I_Decl d => I_Decl (decl_set_loc d l) | I_Stmt s => I_Stmt (stmt_set_loc s l) end.
Definition import_loc (i : import) : loc := match i with Im_ForEffect l _ => l end.
Definition import_set_loc (i : import) (l : loc) : import := match i with Im_ForEffect _ s => Im_ForEffect l s end.
Definition export_loc (e : export) : loc := match e with Ex_Var l _ _ => l | Ex_Decl d => decl_loc d end.
Definition export_set_loc (e : export) (l : loc) : export :=
  match e with Ex_Var _ a b => Ex_Var l a b | Ex_Decl d => Ex_Decl (decl_set_loc d l) end.
Definition mod_item_loc (m : mod_item) : loc :=
  match m with MI_Import i => import_loc i | MI_Export e => export_loc e | MI_Item i => item_loc i end.
Definition mod_item_set_loc (m : mod_item) (l : loc) : mod_item :=
  match m with
  | MI_Import i => MI_Import (import_set_loc i l)
  | MI_Export e => MI_Export (export_set_loc e l)
  | MI_Item i => MI_Item (item_set_loc i l)
  end.

(** * [untrack] *)

(** joker/src/track.rs:81-85 *)
Definition loc_untrack (l : loc) : loc := None.

(** easter/src/punc.rs:14-18 *)
Definition semi_untrack (s : semi) : semi := Explicit None.

(** easter/src/punc.rs:81-85 *)
Definition op_untrack {T} (o : op T) : op T := Op None (op_tag o).

(** easter/src/id.rs:14-16; obj.rs:16-18; obj.rs:34-38 *)
Definition id_untrack (i : id) : id := Id None (id_name i).
Definition dot_key_untrack (k : dot_key) : dot_key := DotKey None (dk_value k).
Definition prop_key_untrack (k : prop_key) : prop_key := prop_key_set_loc k None.

(** joker/src/token.rs:103-105,141-143,165-167: literals do nothing;
    joker/src/track.rs:97-99: nor does [bool]. *)

(** easter/src/patt.rs:25,7,19 derived *)
Definition patt_of_untrack {T C} (ft : T -> T) (fc : C -> C) (p : patt_of T C) : patt_of T C :=
  match p with Simple t => Simple (ft t) | Compound c => Compound (fc c) end.
Definition rest_untrack {P} (f : P -> P) (r : rest_of P) : rest_of P :=
  RestPatt (loc_untrack (rp_loc r)) (f (rp_patt r)).
Definition prop_patt_untrack {P} (f : P -> P) (p : prop_patt_of P) : prop_patt_of P :=
  match p with
  | PP_Regular l k p => PP_Regular (loc_untrack l) (prop_key_untrack k) (f p)
  | PP_Shorthand i => PP_Shorthand (id_untrack i)
  end.

(** easter/src/patt.rs:13 derived *)
Definition cpatt_untrack {T} (ft : T -> T) : cpatt T -> cpatt T :=
  fix go (c : cpatt T) : cpatt T :=
    match c with
    | C_Arr l es r =>
        C_Arr (loc_untrack l) (map (option_map (patt_of_untrack ft go)) es)
              (option_map (rest_untrack (patt_of_untrack ft go)) r)
    | C_Obj l ps => C_Obj (loc_untrack l) (map (prop_patt_untrack (patt_of_untrack ft go)) ps)
    end.
Definition patt_untrack {T} (ft : T -> T) (p : patt T) : patt T := patt_of_untrack ft (cpatt_untrack ft) p.

(** easter/src/fun.rs:7,14; stmt.rs:33,122 derived *)
Definition params_untrack (p : params) : params :=
  Params (loc_untrack (pa_loc p)) (map (patt_untrack id_untrack) (pa_list p))
         (option_map (rest_untrack (patt_untrack id_untrack)) (pa_rest p)).
Definition dir_untrack (d : dir) : dir :=
  Dir (loc_untrack (dir_loc d)) (dir_string d) (semi_untrack (dir_semi d)).
Definition body_untrack {I} (f : I -> I) (b : body I) : body I :=
  Body (loc_untrack (bo_loc b)) (map dir_untrack (bo_dirs b)) (map f (bo_items b)).
Definition func_untrack {I B} (fi : I -> I) (fb : B -> B) (f : func I B) : func I B :=
  Fun (loc_untrack (fn_loc f)) (fi (fn_id f)) (params_untrack (fn_params f)) (fb (fn_body f)) (fn_generator f).

(** easter/src/expr.rs:12,18; obj.rs:20,40; patt.rs:58; stmt.rs:10,40,83,91,100,108,115,146;
    decl.rs:23,30,36 derived *)
Fixpoint expr_untrack (e : expr) : expr :=
  match e with
  | E_This l => E_This (loc_untrack l)
  | E_Id i => E_Id (id_untrack i)
  | E_Arr l es => E_Arr (loc_untrack l) (map (option_map eli_untrack) es)
  | E_Obj l ps => E_Obj (loc_untrack l) (map prop_untrack ps)
  | E_Fun f => E_Fun (func_untrack (option_map id_untrack) (body_untrack item_untrack) f)
  | E_Seq l es => E_Seq (loc_untrack l) (map expr_untrack es)
  | E_Unop l o a => E_Unop (loc_untrack l) (op_untrack o) (expr_untrack a)
  | E_Binop l o a b => E_Binop (loc_untrack l) (op_untrack o) (expr_untrack a) (expr_untrack b)
  | E_Logop l o a b => E_Logop (loc_untrack l) (op_untrack o) (expr_untrack a) (expr_untrack b)
  | E_PreInc l a => E_PreInc (loc_untrack l) (target_untrack a)
  | E_PostInc l a => E_PostInc (loc_untrack l) (target_untrack a)
  | E_PreDec l a => E_PreDec (loc_untrack l) (target_untrack a)
  | E_PostDec l a => E_PostDec (loc_untrack l) (target_untrack a)
  | E_Assign l p a =>
      E_Assign (loc_untrack l)
        (patt_of_untrack target_untrack (cpatt_untrack target_untrack) p) (expr_untrack a)
  | E_BinAssign l o t a => E_BinAssign (loc_untrack l) (op_untrack o) (target_untrack t) (expr_untrack a)
  | E_Cond l a b c => E_Cond (loc_untrack l) (expr_untrack a) (expr_untrack b) (expr_untrack c)
  | E_Call l a args => E_Call (loc_untrack l) (expr_untrack a) (map eli_untrack args)
  | E_New l a args => E_New (loc_untrack l) (expr_untrack a) (option_map (map eli_untrack) args)
  | E_Dot l a k => E_Dot (loc_untrack l) (expr_untrack a) (dot_key_untrack k)
  | E_Brack l a b => E_Brack (loc_untrack l) (expr_untrack a) (expr_untrack b)
  | E_NewTarget l => E_NewTarget (loc_untrack l)
  | E_True l => E_True (loc_untrack l)
  | E_False l => E_False (loc_untrack l)
  | E_Null l => E_Null (loc_untrack l)
  | E_Number l n => E_Number (loc_untrack l) n
  | E_RegExp l r => E_RegExp (loc_untrack l) r
  | E_String l s => E_String (loc_untrack l) s
  end
with eli_untrack (e : eli) : eli :=
  match e with
  | L_Expr e => L_Expr (expr_untrack e)
  | L_Spread l e => L_Spread (loc_untrack l) (expr_untrack e)
  end
with prop_untrack (p : prop) : prop :=
  match p with
  | Pr_Regular l k v => Pr_Regular (loc_untrack l) (prop_key_untrack k) (prop_val_untrack v)
  | Pr_Method f => Pr_Method (func_untrack prop_key_untrack (body_untrack item_untrack) f)
  | Pr_Shorthand i => Pr_Shorthand (id_untrack i)
  end
with prop_val_untrack (v : prop_val) : prop_val :=
  match v with
  | PV_Init e => PV_Init (expr_untrack e)
  | PV_Get l b => PV_Get (loc_untrack l) (body_untrack item_untrack b)
  | PV_Set l p b => PV_Set (loc_untrack l) (patt_untrack id_untrack p) (body_untrack item_untrack b)
  end
with target_untrack (t : target) : target :=
  match t with
  | AT_Id i => AT_Id (id_untrack i)
  | AT_Dot l e k => AT_Dot (loc_untrack l) (expr_untrack e) (dot_key_untrack k)
  | AT_Brack l e k => AT_Brack (loc_untrack l) (expr_untrack e) (expr_untrack k)
  end
with stmt_untrack (s : stmt) : stmt :=
  match s with
  | S_Empty l => S_Empty (loc_untrack l)
  | S_Block b => S_Block (block_untrack b)
  | S_Var l ds sm => S_Var (loc_untrack l) (map dtor_untrack ds) (semi_untrack sm)
  | S_Expr l e sm => S_Expr (loc_untrack l) (expr_untrack e) (semi_untrack sm)
  | S_If l e a b => S_If (loc_untrack l) (expr_untrack e) (stmt_untrack a) (option_map stmt_untrack b)
  | S_Label l i b => S_Label (loc_untrack l) (id_untrack i) (stmt_untrack b)
  | S_Break l i sm => S_Break (loc_untrack l) (option_map id_untrack i) (semi_untrack sm)
  | S_Cont l i sm => S_Cont (loc_untrack l) (option_map id_untrack i) (semi_untrack sm)
  | S_With l e b => S_With (loc_untrack l) (expr_untrack e) (stmt_untrack b)
  | S_Switch l e cs => S_Switch (loc_untrack l) (expr_untrack e) (map case_untrack cs)
  | S_Return l e sm => S_Return (loc_untrack l) (option_map expr_untrack e) (semi_untrack sm)
  | S_Throw l e sm => S_Throw (loc_untrack l) (expr_untrack e) (semi_untrack sm)
  | S_Try l b c f =>
      S_Try (loc_untrack l) (block_untrack b) (option_map catch_untrack c) (option_map block_untrack f)
  | S_While l e b => S_While (loc_untrack l) (expr_untrack e) (stmt_untrack b)
  | S_DoWhile l b e sm => S_DoWhile (loc_untrack l) (stmt_untrack b) (expr_untrack e) (semi_untrack sm)
  | S_For l h t u b =>
      S_For (loc_untrack l) (option_map for_head_untrack h) (option_map expr_untrack t)
            (option_map expr_untrack u) (stmt_untrack b)
  | S_ForIn l h e b => S_ForIn (loc_untrack l) (for_in_head_untrack h) (expr_untrack e) (stmt_untrack b)
  | S_ForOf l h e b => S_ForOf (loc_untrack l) (for_of_head_untrack h) (expr_untrack e) (stmt_untrack b)
  | S_Debugger l sm => S_Debugger (loc_untrack l) (semi_untrack sm)
  end
with block_untrack (b : block) : block :=
  match b with Block l is => Block (loc_untrack l) (map item_untrack is) end
with for_head_untrack (h : for_head) : for_head :=
  match h with
  | FH_Var l ds => FH_Var (loc_untrack l) (map dtor_untrack ds)
  | FH_Let l ds => FH_Let (loc_untrack l) (map dtor_untrack ds)
  | FH_Const l ds => FH_Const (loc_untrack l) (map const_dtor_untrack ds)
  | FH_Expr l e => FH_Expr (loc_untrack l) (expr_untrack e)
  end
with for_in_head_untrack (h : for_in_head) : for_in_head :=
  match h with
  | FI_VarInit l i e => FI_VarInit (loc_untrack l) (id_untrack i) (expr_untrack e)
  | FI_Var l p => FI_Var (loc_untrack l) (patt_untrack id_untrack p)
  | FI_Let l p => FI_Let (loc_untrack l) (patt_untrack id_untrack p)
  | FI_Const l p => FI_Const (loc_untrack l) (patt_untrack id_untrack p)
  | FI_Patt p => FI_Patt (patt_of_untrack target_untrack (cpatt_untrack target_untrack) p)
  end
with for_of_head_untrack (h : for_of_head) : for_of_head :=
  match h with
  | FO_Var l p => FO_Var (loc_untrack l) (patt_untrack id_untrack p)
  | FO_Let l p => FO_Let (loc_untrack l) (patt_untrack id_untrack p)
  | FO_Const l p => FO_Const (loc_untrack l) (patt_untrack id_untrack p)
  | FO_Patt p => FO_Patt (patt_of_untrack target_untrack (cpatt_untrack target_untrack) p)
  end
with catch_untrack (c : catch) : catch :=
  match c with Catch l p b => Catch (loc_untrack l) (patt_untrack id_untrack p) (block_untrack b) end
with case_untrack (c : case) : case :=
  match c with Case l t b => Case (loc_untrack l) (option_map expr_untrack t) (map item_untrack b) end
with item_untrack (i : item) : item :=
  match i with I_Decl d => I_Decl (decl_untrack d) | I_Stmt s => I_Stmt (stmt_untrack s) end
with decl_untrack (d : decl) : decl :=
  match d with
  | D_Fun f => D_Fun (func_untrack id_untrack (body_untrack item_untrack) f)
  | D_Let l ds sm => D_Let (loc_untrack l) (map dtor_untrack ds) (semi_untrack sm)
  | D_Const l ds sm => D_Const (loc_untrack l) (map const_dtor_untrack ds) (semi_untrack sm)
  end
with dtor_untrack (d : dtor) : dtor :=
  match d with
  | Dt_Simple l i e => Dt_Simple (loc_untrack l) (id_untrack i) (option_map expr_untrack e)
  | Dt_Compound l p e => Dt_Compound (loc_untrack l) (cpatt_untrack id_untrack p) (expr_untrack e)
  end
with const_dtor_untrack (d : const_dtor) : const_dtor :=
  match d with
  | CDt l p e => CDt (loc_untrack l) (patt_untrack id_untrack p) (expr_untrack e)
  end.

Definition script_untrack (b : script) : script := body_untrack item_untrack b.

(** easter/src/decl.rs:10,16; stmt.rs:139 derived *)
Definition import_untrack (i : import) : import :=
  match i with Im_ForEffect l s => Im_ForEffect (loc_untrack l) s end.
Definition export_untrack (e : export) : export :=
  match e with
  | Ex_Var l ds sm => Ex_Var (loc_untrack l) (map dtor_untrack ds) (semi_untrack sm)
  | Ex_Decl d => Ex_Decl (decl_untrack d)
  end.
Definition mod_item_untrack (m : mod_item) : mod_item :=
  match m with
  | MI_Import i => MI_Import (import_untrack i)
  | MI_Export e => MI_Export (export_untrack e)
  | MI_Item i => MI_Item (item_untrack i)
  end.
Definition module_untrack (b : module) : module := body_untrack mod_item_untrack b.
