(** Equality of trees.  Models the [PartialEq] instances of easter: the one written
    by hand for [Expr] (expr.rs:49-97), and the derived ones, which compare the same
    variant's fields in order.  The literals' instances are in [Token]. *)
From Coq Require Import String Ascii List NArith Bool.
From Verif Require Import Base F64 Word Token Punc Ast Track Node.
Import ListNotations.

(** joker/src/track.rs:26 derived, on [Option<Span>] *)
Definition loc_eqb (a b : loc) : bool := opt_eqb span_eqb a b.

(** easter/src/punc.rs:8 derived *)
Definition semi_eqb (a b : semi) : bool :=
  match a, b with
  | Inserted, Inserted => true
  | Explicit p, Explicit q => opt_eqb posn_eqb p q
  | _, _ => false
  end.

(** easter/src/id.rs:8; obj.rs:10, 27 derived *)
Definition id_eqb (a b : id) : bool := loc_eqb (id_loc a) (id_loc b) && name_eqb (id_name a) (id_name b).
Definition dot_key_eqb (a b : dot_key) : bool :=
  loc_eqb (dk_loc a) (dk_loc b) && str_eqb (dk_value a) (dk_value b).
Definition prop_key_eqb (a b : prop_key) : bool :=
  match a, b with
  | PK_Id l s, PK_Id m t => loc_eqb l m && str_eqb s t
  | PK_String l s, PK_String m t => loc_eqb l m && string_literal_eqb s t
  | PK_Number l s, PK_Number m t => loc_eqb l m && number_literal_eqb s t
  | _, _ => false
  end.

(** easter/src/patt.rs:25, 7, 19 derived *)
Definition patt_of_eqb {T C} (ft : T -> T -> bool) (fc : C -> C -> bool) (p q : patt_of T C) : bool :=
  match p, q with
  | Simple t, Simple u => ft t u
  | Compound c, Compound d => fc c d
  | _, _ => false
  end.
Definition rest_eqb {P} (f : P -> P -> bool) (a b : rest_of P) : bool :=
  loc_eqb (rp_loc a) (rp_loc b) && f (rp_patt a) (rp_patt b).
Definition prop_patt_eqb {P} (f : P -> P -> bool) (a b : prop_patt_of P) : bool :=
  match a, b with
  | PP_Regular l k p, PP_Regular m j q => loc_eqb l m && prop_key_eqb k j && f p q
  | PP_Shorthand i, PP_Shorthand j => id_eqb i j
  | _, _ => false
  end.

(** easter/src/patt.rs:13 derived *)
Definition cpatt_eqb {T} (ft : T -> T -> bool) : cpatt T -> cpatt T -> bool :=
  fix go c d :=
    match c, d with
    | C_Arr l es r, C_Arr m fs s =>
        loc_eqb l m && list_eqb (opt_eqb (patt_of_eqb ft go)) es fs
        && opt_eqb (rest_eqb (patt_of_eqb ft go)) r s
    | C_Obj l ps, C_Obj m qs => loc_eqb l m && list_eqb (prop_patt_eqb (patt_of_eqb ft go)) ps qs
    | _, _ => false
    end.
Definition patt_eqb {T} (ft : T -> T -> bool) (p q : patt T) : bool := patt_of_eqb ft (cpatt_eqb ft) p q.

(** easter/src/fun.rs:7, 14; stmt.rs:33, 122 derived *)
Definition params_eqb (a b : params) : bool :=
  loc_eqb (pa_loc a) (pa_loc b) && list_eqb (patt_eqb id_eqb) (pa_list a) (pa_list b)
  && opt_eqb (rest_eqb (patt_eqb id_eqb)) (pa_rest a) (pa_rest b).
Definition dir_eqb (a b : dir) : bool :=
  loc_eqb (dir_loc a) (dir_loc b) && string_literal_eqb (dir_string a) (dir_string b)
  && semi_eqb (dir_semi a) (dir_semi b).
Definition body_eqb {I} (f : I -> I -> bool) (a b : body I) : bool :=
  loc_eqb (bo_loc a) (bo_loc b) && list_eqb dir_eqb (bo_dirs a) (bo_dirs b)
  && list_eqb f (bo_items a) (bo_items b).
Definition func_eqb {I B} (fi : I -> I -> bool) (fb : B -> B -> bool) (f g : func I B) : bool :=
  loc_eqb (fn_loc f) (fn_loc g) && fi (fn_id f) (fn_id g) && params_eqb (fn_params f) (fn_params g)
  && fb (fn_body f) (fn_body g) && Bool.eqb (fn_generator f) (fn_generator g).

(** easter/src/expr.rs:49-97 [Expr] by hand; the others derived: expr.rs:12; obj.rs:20, 40;
    patt.rs:58; stmt.rs:10, 40, 83, 91, 100, 108, 115, 146; decl.rs:23, 30, 36 *)
Fixpoint expr_eqb (a b : expr) {struct a} : bool :=
  if negb (loc_eqb (expr_loc a) (expr_loc b)) then false else
  match a, b with
  | E_This _, E_This _ => true
  | E_Id i, E_Id j => id_eqb i j
  | E_Arr _ es, E_Arr _ fs => list_eqb (opt_eqb eli_eqb) es fs
  | E_Obj _ ps, E_Obj _ qs => list_eqb prop_eqb ps qs
  | E_Fun f, E_Fun g => func_eqb (opt_eqb id_eqb) (body_eqb item_eqb) f g
  | E_Seq _ es, E_Seq _ fs => list_eqb expr_eqb es fs
  | E_Unop _ o x, E_Unop _ p y => op_eqb unop_tag_eqb o p && expr_eqb x y
  | E_Binop _ o x y, E_Binop _ p z w => op_eqb binop_tag_eqb o p && expr_eqb x z && expr_eqb y w
  | E_Logop _ o x y, E_Logop _ p z w => op_eqb logop_tag_eqb o p && expr_eqb x z && expr_eqb y w
  | E_PreInc _ t, E_PreInc _ u => target_eqb t u
  | E_PostInc _ t, E_PostInc _ u => target_eqb t u
  | E_PreDec _ t, E_PreDec _ u => target_eqb t u
  | E_PostDec _ t, E_PostDec _ u => target_eqb t u
  | E_Assign _ p x, E_Assign _ q y => patt_eqb target_eqb p q && expr_eqb x y
  | E_BinAssign _ o t x, E_BinAssign _ p u y =>
      op_eqb assop_tag_eqb o p && target_eqb t u && expr_eqb x y
  | E_Cond _ x y z, E_Cond _ x' y' z' => expr_eqb x x' && expr_eqb y y' && expr_eqb z z'
  | E_Call _ x es, E_Call _ y fs => expr_eqb x y && list_eqb eli_eqb es fs
  | E_New _ x None, E_New _ y None => expr_eqb x y
  | E_New _ x None, E_New _ y (Some es) => expr_eqb x y && match es with [] => true | _ => false end
  | E_New _ x (Some es), E_New _ y None => expr_eqb x y && match es with [] => true | _ => false end
  | E_New _ x (Some es), E_New _ y (Some fs) => expr_eqb x y && list_eqb eli_eqb es fs
  | E_Dot _ x k, E_Dot _ y j => expr_eqb x y && dot_key_eqb k j
  | E_Brack _ x k, E_Brack _ y j => expr_eqb x y && expr_eqb k j
  | E_NewTarget _, E_NewTarget _ => true
  | E_True _, E_True _ => true
  | E_False _, E_False _ => true
  | E_Null _, E_Null _ => true
  | E_Number _ x, E_Number _ y => number_literal_eqb x y
  | E_RegExp _ x, E_RegExp _ y => regexp_literal_eqb x y
  | E_String _ x, E_String _ y => string_literal_eqb x y
  | _, _ => false
  end
with eli_eqb (a b : eli) {struct a} : bool :=
  match a, b with
  | L_Expr x, L_Expr y => expr_eqb x y
  | L_Spread l x, L_Spread m y => loc_eqb l m && expr_eqb x y
  | _, _ => false
  end
with prop_eqb (a b : prop) {struct a} : bool :=
  match a, b with
  | Pr_Regular l k v, Pr_Regular m j w => loc_eqb l m && prop_key_eqb k j && prop_val_eqb v w
  | Pr_Method f, Pr_Method g => func_eqb prop_key_eqb (body_eqb item_eqb) f g
  | Pr_Shorthand i, Pr_Shorthand j => id_eqb i j
  | _, _ => false
  end
with prop_val_eqb (a b : prop_val) {struct a} : bool :=
  match a, b with
  | PV_Init x, PV_Init y => expr_eqb x y
  | PV_Get l x, PV_Get m y => loc_eqb l m && body_eqb item_eqb x y
  | PV_Set l p x, PV_Set m q y => loc_eqb l m && patt_eqb id_eqb p q && body_eqb item_eqb x y
  | _, _ => false
  end
with target_eqb (a b : target) {struct a} : bool :=
  match a, b with
  | AT_Id i, AT_Id j => id_eqb i j
  | AT_Dot l x k, AT_Dot m y j => loc_eqb l m && expr_eqb x y && dot_key_eqb k j
  | AT_Brack l x k, AT_Brack m y j => loc_eqb l m && expr_eqb x y && expr_eqb k j
  | _, _ => false
  end
with stmt_eqb (a b : stmt) {struct a} : bool :=
  match a, b with
  | S_Empty l, S_Empty m => loc_eqb l m
  | S_Block x, S_Block y => block_eqb x y
  | S_Var l ds s, S_Var m es t => loc_eqb l m && list_eqb dtor_eqb ds es && semi_eqb s t
  | S_Expr l x s, S_Expr m y t => loc_eqb l m && expr_eqb x y && semi_eqb s t
  | S_If l x c d, S_If m y e f => loc_eqb l m && expr_eqb x y && stmt_eqb c e && opt_eqb stmt_eqb d f
  | S_Label l i c, S_Label m j d => loc_eqb l m && id_eqb i j && stmt_eqb c d
  | S_Break l i s, S_Break m j t => loc_eqb l m && opt_eqb id_eqb i j && semi_eqb s t
  | S_Cont l i s, S_Cont m j t => loc_eqb l m && opt_eqb id_eqb i j && semi_eqb s t
  | S_With l x c, S_With m y d => loc_eqb l m && expr_eqb x y && stmt_eqb c d
  | S_Switch l x cs, S_Switch m y ds => loc_eqb l m && expr_eqb x y && list_eqb case_eqb cs ds
  | S_Return l x s, S_Return m y t => loc_eqb l m && opt_eqb expr_eqb x y && semi_eqb s t
  | S_Throw l x s, S_Throw m y t => loc_eqb l m && expr_eqb x y && semi_eqb s t
  | S_Try l x c f, S_Try m y d g =>
      loc_eqb l m && block_eqb x y && opt_eqb catch_eqb c d && opt_eqb block_eqb f g
  | S_While l x c, S_While m y d => loc_eqb l m && expr_eqb x y && stmt_eqb c d
  | S_DoWhile l c x s, S_DoWhile m d y t => loc_eqb l m && stmt_eqb c d && expr_eqb x y && semi_eqb s t
  | S_For l h x y c, S_For m k z w d =>
      loc_eqb l m && opt_eqb for_head_eqb h k && opt_eqb expr_eqb x z && opt_eqb expr_eqb y w && stmt_eqb c d
  | S_ForIn l h x c, S_ForIn m k y d => loc_eqb l m && for_in_head_eqb h k && expr_eqb x y && stmt_eqb c d
  | S_ForOf l h x c, S_ForOf m k y d => loc_eqb l m && for_of_head_eqb h k && expr_eqb x y && stmt_eqb c d
  | S_Debugger l s, S_Debugger m t => loc_eqb l m && semi_eqb s t
  | _, _ => false
  end
with block_eqb (a b : block) {struct a} : bool :=
  match a, b with Block l is, Block m js => loc_eqb l m && list_eqb item_eqb is js end
with for_head_eqb (a b : for_head) {struct a} : bool :=
  match a, b with
  | FH_Var l ds, FH_Var m es => loc_eqb l m && list_eqb dtor_eqb ds es
  | FH_Let l ds, FH_Let m es => loc_eqb l m && list_eqb dtor_eqb ds es
  | FH_Const l ds, FH_Const m es => loc_eqb l m && list_eqb const_dtor_eqb ds es
  | FH_Expr l x, FH_Expr m y => loc_eqb l m && expr_eqb x y
  | _, _ => false
  end
with for_in_head_eqb (a b : for_in_head) {struct a} : bool :=
  match a, b with
  | FI_VarInit l i x, FI_VarInit m j y => loc_eqb l m && id_eqb i j && expr_eqb x y
  | FI_Var l p, FI_Var m q => loc_eqb l m && patt_eqb id_eqb p q
  | FI_Let l p, FI_Let m q => loc_eqb l m && patt_eqb id_eqb p q
  | FI_Const l p, FI_Const m q => loc_eqb l m && patt_eqb id_eqb p q
  | FI_Patt p, FI_Patt q => patt_eqb target_eqb p q
  | _, _ => false
  end
with for_of_head_eqb (a b : for_of_head) {struct a} : bool :=
  match a, b with
  | FO_Var l p, FO_Var m q => loc_eqb l m && patt_eqb id_eqb p q
  | FO_Let l p, FO_Let m q => loc_eqb l m && patt_eqb id_eqb p q
  | FO_Const l p, FO_Const m q => loc_eqb l m && patt_eqb id_eqb p q
  | FO_Patt p, FO_Patt q => patt_eqb target_eqb p q
  | _, _ => false
  end
with catch_eqb (a b : catch) {struct a} : bool :=
  match a, b with Catch l p x, Catch m q y => loc_eqb l m && patt_eqb id_eqb p q && block_eqb x y end
with case_eqb (a b : case) {struct a} : bool :=
  match a, b with
  | Case l x is, Case m y js => loc_eqb l m && opt_eqb expr_eqb x y && list_eqb item_eqb is js
  end
with item_eqb (a b : item) {struct a} : bool :=
  match a, b with
  | I_Decl x, I_Decl y => decl_eqb x y
  | I_Stmt x, I_Stmt y => stmt_eqb x y
  | _, _ => false
  end
with decl_eqb (a b : decl) {struct a} : bool :=
  match a, b with
  | D_Fun f, D_Fun g => func_eqb id_eqb (body_eqb item_eqb) f g
  | D_Let l ds s, D_Let m es t => loc_eqb l m && list_eqb dtor_eqb ds es && semi_eqb s t
  | D_Const l ds s, D_Const m es t => loc_eqb l m && list_eqb const_dtor_eqb ds es && semi_eqb s t
  | _, _ => false
  end
with dtor_eqb (a b : dtor) {struct a} : bool :=
  match a, b with
  | Dt_Simple l i x, Dt_Simple m j y => loc_eqb l m && id_eqb i j && opt_eqb expr_eqb x y
  | Dt_Compound l p x, Dt_Compound m q y => loc_eqb l m && cpatt_eqb id_eqb p q && expr_eqb x y
  | _, _ => false
  end
with const_dtor_eqb (a b : const_dtor) {struct a} : bool :=
  match a, b with CDt l p x, CDt m q y => loc_eqb l m && patt_eqb id_eqb p q && expr_eqb x y end.

(** easter/src/stmt.rs:46 [Script], the derived instance of [Body] *)
Definition script_eqb (a b : script) : bool := body_eqb item_eqb a b.

(** easter/src/decl.rs:10, 16; stmt.rs:139 derived; stmt.rs:48 [Module] *)
Definition import_eqb (a b : import) : bool :=
  match a, b with Im_ForEffect l s, Im_ForEffect m t => loc_eqb l m && string_literal_eqb s t end.
Definition export_eqb (a b : export) : bool :=
  match a, b with
  | Ex_Var l ds s, Ex_Var m es t => loc_eqb l m && list_eqb dtor_eqb ds es && semi_eqb s t
  | Ex_Decl x, Ex_Decl y => decl_eqb x y
  | _, _ => false
  end.
Definition mod_item_eqb (a b : mod_item) : bool :=
  match a, b with
  | MI_Import x, MI_Import y => import_eqb x y
  | MI_Export x, MI_Export y => export_eqb x y
  | MI_Item x, MI_Item y => item_eqb x y
  | _, _ => false
  end.
Definition module_eqb (a b : module) : bool := body_eqb mod_item_eqb a b.

(** The comparison of two nodes: [eq] of the type they have (nodes of different types
    cannot be compared in the code; they count as different here). *)
Definition node_eqb (n m : node) : bool :=
  match n, m with
  | N_expr a, N_expr b => expr_eqb a b
  | N_eli a, N_eli b => eli_eqb a b
  | N_prop a, N_prop b => prop_eqb a b
  | N_pval a, N_pval b => prop_val_eqb a b
  | N_target a, N_target b => target_eqb a b
  | N_stmt a, N_stmt b => stmt_eqb a b
  | N_block a, N_block b => block_eqb a b
  | N_fh a, N_fh b => for_head_eqb a b
  | N_fi a, N_fi b => for_in_head_eqb a b
  | N_fo a, N_fo b => for_of_head_eqb a b
  | N_catch a, N_catch b => catch_eqb a b
  | N_case a, N_case b => case_eqb a b
  | N_item a, N_item b => item_eqb a b
  | N_decl a, N_decl b => decl_eqb a b
  | N_dtor a, N_dtor b => dtor_eqb a b
  | N_cdtor a, N_cdtor b => const_dtor_eqb a b
  | N_fexpr a, N_fexpr b => func_eqb (opt_eqb id_eqb) (body_eqb item_eqb) a b
  | N_fmeth a, N_fmeth b => func_eqb prop_key_eqb (body_eqb item_eqb) a b
  | N_fdecl a, N_fdecl b => func_eqb id_eqb (body_eqb item_eqb) a b
  | N_body a, N_body b => body_eqb item_eqb a b
  | N_tpatt a, N_tpatt b => patt_eqb target_eqb a b
  | N_trest a, N_trest b => rest_eqb (patt_eqb target_eqb) a b
  | N_tpp a, N_tpp b => prop_patt_eqb (patt_eqb target_eqb) a b
  | N_ipatt a, N_ipatt b => patt_eqb id_eqb a b
  | N_irest a, N_irest b => rest_eqb (patt_eqb id_eqb) a b
  | N_ipp a, N_ipp b => prop_patt_eqb (patt_eqb id_eqb) a b
  | N_params a, N_params b => params_eqb a b
  | N_dir a, N_dir b => dir_eqb a b
  | N_id a, N_id b => id_eqb a b
  | N_dk a, N_dk b => dot_key_eqb a b
  | N_pk a, N_pk b => prop_key_eqb a b
  | N_unop a, N_unop b => op_eqb unop_tag_eqb a b
  | N_binop a, N_binop b => op_eqb binop_tag_eqb a b
  | N_logop a, N_logop b => op_eqb logop_tag_eqb a b
  | N_assop a, N_assop b => op_eqb assop_tag_eqb a b
  | N_mod a, N_mod b => module_eqb a b
  | N_mitem a, N_mitem b => mod_item_eqb a b
  | N_import a, N_import b => import_eqb a b
  | N_export a, N_export b => export_eqb a b
  | _, _ => false
  end.
