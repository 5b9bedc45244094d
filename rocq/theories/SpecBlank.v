(** Trees, tokens and errors with their positions erased: every position is replaced
    by the same one, [origin].  Nothing else is changed, and what has no location
    keeps none; semicolons remain explicit or inserted. *)
From Coq Require Import String Ascii List NArith Bool.
From Verif Require Import Base Chars Word Token Punc Ast Track Cover Stack PState Parser SpecLexer SpecLayout.
Import ListNotations.

Definition posn_blank (p : posn) : posn := origin.
Definition span_blank (s : span) : span := Span origin origin.
Definition loc_blank (l : loc) : loc := option_map span_blank l.
Definition token_blank (t : token) : token := Token (span_blank (tk_loc t)) (tk_newline t) (tk_value t).

Definition semi_blank (s : semi) : semi :=
  match s with Inserted => Inserted | Explicit p => Explicit (option_map posn_blank p) end.

Definition op_blank {T} (o : op T) : op T := Op (loc_blank (op_loc o)) (op_tag o).

Definition id_blank (i : id) : id := Id (loc_blank (id_loc i)) (id_name i).
Definition dot_key_blank (k : dot_key) : dot_key := DotKey (loc_blank (dk_loc k)) (dk_value k).
Definition prop_key_blank (k : prop_key) : prop_key := prop_key_set_loc k (loc_blank (prop_key_loc k)).

Definition patt_of_blank {T C} (ft : T -> T) (fc : C -> C) (p : patt_of T C) : patt_of T C :=
  match p with Simple t => Simple (ft t) | Compound c => Compound (fc c) end.
Definition rest_blank {P} (f : P -> P) (r : rest_of P) : rest_of P :=
  RestPatt (loc_blank (rp_loc r)) (f (rp_patt r)).
Definition prop_patt_blank {P} (f : P -> P) (p : prop_patt_of P) : prop_patt_of P :=
  match p with
  | PP_Regular l k p => PP_Regular (loc_blank l) (prop_key_blank k) (f p)
  | PP_Shorthand i => PP_Shorthand (id_blank i)
  end.

Definition cpatt_blank {T} (ft : T -> T) : cpatt T -> cpatt T :=
  fix go (c : cpatt T) : cpatt T :=
    match c with
    | C_Arr l es r =>
        C_Arr (loc_blank l) (map (option_map (patt_of_blank ft go)) es)
              (option_map (rest_blank (patt_of_blank ft go)) r)
    | C_Obj l ps => C_Obj (loc_blank l) (map (prop_patt_blank (patt_of_blank ft go)) ps)
    end.
Definition patt_blank {T} (ft : T -> T) : patt T -> patt T := patt_of_blank ft (cpatt_blank ft).

Definition params_blank (p : params) : params :=
  Params (loc_blank (pa_loc p)) (map (patt_blank id_blank) (pa_list p))
         (option_map (rest_blank (patt_blank id_blank)) (pa_rest p)).
Definition dir_blank (d : dir) : dir :=
  Dir (loc_blank (dir_loc d)) (dir_string d) (semi_blank (dir_semi d)).
Definition body_blank {I} (f : I -> I) (b : body I) : body I :=
  Body (loc_blank (bo_loc b)) (map dir_blank (bo_dirs b)) (map f (bo_items b)).
Definition func_blank {I B} (fi : I -> I) (fb : B -> B) (f : func I B) : func I B :=
  Fun (loc_blank (fn_loc f)) (fi (fn_id f)) (params_blank (fn_params f)) (fb (fn_body f)) (fn_generator f).

Fixpoint expr_blank (e : expr) : expr :=
  match e with
  | E_This l => E_This (loc_blank l)
  | E_Id i => E_Id (id_blank i)
  | E_Arr l es => E_Arr (loc_blank l) (map (option_map eli_blank) es)
  | E_Obj l ps => E_Obj (loc_blank l) (map prop_blank ps)
  | E_Fun f => E_Fun (func_blank (option_map id_blank) (body_blank item_blank) f)
  | E_Seq l es => E_Seq (loc_blank l) (map expr_blank es)
  | E_Unop l o a => E_Unop (loc_blank l) (op_blank o) (expr_blank a)
  | E_Binop l o a b => E_Binop (loc_blank l) (op_blank o) (expr_blank a) (expr_blank b)
  | E_Logop l o a b => E_Logop (loc_blank l) (op_blank o) (expr_blank a) (expr_blank b)
  | E_PreInc l a => E_PreInc (loc_blank l) (target_blank a)
  | E_PostInc l a => E_PostInc (loc_blank l) (target_blank a)
  | E_PreDec l a => E_PreDec (loc_blank l) (target_blank a)
  | E_PostDec l a => E_PostDec (loc_blank l) (target_blank a)
  | E_Assign l p a =>
      E_Assign (loc_blank l)
        (patt_of_blank target_blank (cpatt_blank target_blank) p) (expr_blank a)
  | E_BinAssign l o t a => E_BinAssign (loc_blank l) (op_blank o) (target_blank t) (expr_blank a)
  | E_Cond l a b c => E_Cond (loc_blank l) (expr_blank a) (expr_blank b) (expr_blank c)
  | E_Call l a args => E_Call (loc_blank l) (expr_blank a) (map eli_blank args)
  | E_New l a args => E_New (loc_blank l) (expr_blank a) (option_map (map eli_blank) args)
  | E_Dot l a k => E_Dot (loc_blank l) (expr_blank a) (dot_key_blank k)
  | E_Brack l a b => E_Brack (loc_blank l) (expr_blank a) (expr_blank b)
  | E_NewTarget l => E_NewTarget (loc_blank l)
  | E_True l => E_True (loc_blank l)
  | E_False l => E_False (loc_blank l)
  | E_Null l => E_Null (loc_blank l)
  | E_Number l n => E_Number (loc_blank l) n
  | E_RegExp l r => E_RegExp (loc_blank l) r
  | E_String l s => E_String (loc_blank l) s
  end
with eli_blank (e : eli) : eli :=
  match e with
  | L_Expr e => L_Expr (expr_blank e)
  | L_Spread l e => L_Spread (loc_blank l) (expr_blank e)
  end
with prop_blank (p : prop) : prop :=
  match p with
  | Pr_Regular l k v => Pr_Regular (loc_blank l) (prop_key_blank k) (prop_val_blank v)
  | Pr_Method f => Pr_Method (func_blank prop_key_blank (body_blank item_blank) f)
  | Pr_Shorthand i => Pr_Shorthand (id_blank i)
  end
with prop_val_blank (v : prop_val) : prop_val :=
  match v with
  | PV_Init e => PV_Init (expr_blank e)
  | PV_Get l b => PV_Get (loc_blank l) (body_blank item_blank b)
  | PV_Set l p b => PV_Set (loc_blank l) (patt_blank id_blank p) (body_blank item_blank b)
  end
with target_blank (t : target) : target :=
  match t with
  | AT_Id i => AT_Id (id_blank i)
  | AT_Dot l e k => AT_Dot (loc_blank l) (expr_blank e) (dot_key_blank k)
  | AT_Brack l e k => AT_Brack (loc_blank l) (expr_blank e) (expr_blank k)
  end
with stmt_blank (s : stmt) : stmt :=
  match s with
  | S_Empty l => S_Empty (loc_blank l)
  | S_Block b => S_Block (block_blank b)
  | S_Var l ds sm => S_Var (loc_blank l) (map dtor_blank ds) (semi_blank sm)
  | S_Expr l e sm => S_Expr (loc_blank l) (expr_blank e) (semi_blank sm)
  | S_If l e a b => S_If (loc_blank l) (expr_blank e) (stmt_blank a) (option_map stmt_blank b)
  | S_Label l i b => S_Label (loc_blank l) (id_blank i) (stmt_blank b)
  | S_Break l i sm => S_Break (loc_blank l) (option_map id_blank i) (semi_blank sm)
  | S_Cont l i sm => S_Cont (loc_blank l) (option_map id_blank i) (semi_blank sm)
  | S_With l e b => S_With (loc_blank l) (expr_blank e) (stmt_blank b)
  | S_Switch l e cs => S_Switch (loc_blank l) (expr_blank e) (map case_blank cs)
  | S_Return l e sm => S_Return (loc_blank l) (option_map expr_blank e) (semi_blank sm)
  | S_Throw l e sm => S_Throw (loc_blank l) (expr_blank e) (semi_blank sm)
  | S_Try l b c f =>
      S_Try (loc_blank l) (block_blank b) (option_map catch_blank c) (option_map block_blank f)
  | S_While l e b => S_While (loc_blank l) (expr_blank e) (stmt_blank b)
  | S_DoWhile l b e sm => S_DoWhile (loc_blank l) (stmt_blank b) (expr_blank e) (semi_blank sm)
  | S_For l h t u b =>
      S_For (loc_blank l) (option_map for_head_blank h) (option_map expr_blank t)
            (option_map expr_blank u) (stmt_blank b)
  | S_ForIn l h e b => S_ForIn (loc_blank l) (for_in_head_blank h) (expr_blank e) (stmt_blank b)
  | S_ForOf l h e b => S_ForOf (loc_blank l) (for_of_head_blank h) (expr_blank e) (stmt_blank b)
  | S_Debugger l sm => S_Debugger (loc_blank l) (semi_blank sm)
  end
with block_blank (b : block) : block :=
  match b with Block l is => Block (loc_blank l) (map item_blank is) end
with for_head_blank (h : for_head) : for_head :=
  match h with
  | FH_Var l ds => FH_Var (loc_blank l) (map dtor_blank ds)
  | FH_Let l ds => FH_Let (loc_blank l) (map dtor_blank ds)
  | FH_Const l ds => FH_Const (loc_blank l) (map const_dtor_blank ds)
  | FH_Expr l e => FH_Expr (loc_blank l) (expr_blank e)
  end
with for_in_head_blank (h : for_in_head) : for_in_head :=
  match h with
  | FI_VarInit l i e => FI_VarInit (loc_blank l) (id_blank i) (expr_blank e)
  | FI_Var l p => FI_Var (loc_blank l) (patt_blank id_blank p)
  | FI_Let l p => FI_Let (loc_blank l) (patt_blank id_blank p)
  | FI_Const l p => FI_Const (loc_blank l) (patt_blank id_blank p)
  | FI_Patt p => FI_Patt (patt_of_blank target_blank (cpatt_blank target_blank) p)
  end
with for_of_head_blank (h : for_of_head) : for_of_head :=
  match h with
  | FO_Var l p => FO_Var (loc_blank l) (patt_blank id_blank p)
  | FO_Let l p => FO_Let (loc_blank l) (patt_blank id_blank p)
  | FO_Const l p => FO_Const (loc_blank l) (patt_blank id_blank p)
  | FO_Patt p => FO_Patt (patt_of_blank target_blank (cpatt_blank target_blank) p)
  end
with catch_blank (c : catch) : catch :=
  match c with Catch l p b => Catch (loc_blank l) (patt_blank id_blank p) (block_blank b) end
with case_blank (c : case) : case :=
  match c with Case l t b => Case (loc_blank l) (option_map expr_blank t) (map item_blank b) end
with item_blank (i : item) : item :=
  match i with I_Decl d => I_Decl (decl_blank d) | I_Stmt s => I_Stmt (stmt_blank s) end
with decl_blank (d : decl) : decl :=
  match d with
  | D_Fun f => D_Fun (func_blank id_blank (body_blank item_blank) f)
  | D_Let l ds sm => D_Let (loc_blank l) (map dtor_blank ds) (semi_blank sm)
  | D_Const l ds sm => D_Const (loc_blank l) (map const_dtor_blank ds) (semi_blank sm)
  end
with dtor_blank (d : dtor) : dtor :=
  match d with
  | Dt_Simple l i e => Dt_Simple (loc_blank l) (id_blank i) (option_map expr_blank e)
  | Dt_Compound l p e => Dt_Compound (loc_blank l) (cpatt_blank id_blank p) (expr_blank e)
  end
with const_dtor_blank (d : const_dtor) : const_dtor :=
  match d with
  | CDt l p e => CDt (loc_blank l) (patt_blank id_blank p) (expr_blank e)
  end.

Definition script_blank : script -> script := body_blank item_blank.

Definition import_blank (i : import) : import :=
  match i with Im_ForEffect l s => Im_ForEffect (loc_blank l) s end.
Definition export_blank (e : export) : export :=
  match e with
  | Ex_Var l ds sm => Ex_Var (loc_blank l) (map dtor_blank ds) (semi_blank sm)
  | Ex_Decl d => Ex_Decl (decl_blank d)
  end.
Definition mod_item_blank (m : mod_item) : mod_item :=
  match m with
  | MI_Import i => MI_Import (import_blank i)
  | MI_Export e => MI_Export (export_blank e)
  | MI_Item i => MI_Item (item_blank i)
  end.
Definition module_blank : module -> module := body_blank mod_item_blank.

Definition cover_error_blank (e : cover_error) : cover_error :=
  match e with
  | InvalidAssignTarget l => InvalidAssignTarget (loc_blank l)
  | InvalidPropPatt l => InvalidPropPatt (loc_blank l)
  end.
Definition error_blank (e : perror) : perror :=
  match e with
  | UnexpectedToken t => UnexpectedToken (token_blank t)
  | FailedASI t => FailedASI (token_blank t)
  | LexError e => LexError e
  | TopLevelReturn s => TopLevelReturn (span_blank s)
  | IllegalBreak t => IllegalBreak (token_blank t)
  | IllegalContinue t => IllegalContinue (token_blank t)
  | InvalidLabel i => InvalidLabel (id_blank i)
  | InvalidLabelType i => InvalidLabelType (id_blank i)
  | ContextualKeyword s a => ContextualKeyword (span_blank s) a
  | IllegalStrictBinding s a => IllegalStrictBinding (span_blank s) a
  | UnexpectedDirective l s => UnexpectedDirective (loc_blank l) s
  | UnexpectedModule l => UnexpectedModule (loc_blank l)
  | ImportInScript i => ImportInScript (import_blank i)
  | ExportInScript e => ExportInScript (export_blank e)
  | ForOfLetExpr s => ForOfLetExpr (span_blank s)
  | DuplicateDefault t => DuplicateDefault (token_blank t)
  | StrictWith t => StrictWith (token_blank t)
  | ThrowArgument t => ThrowArgument (token_blank t)
  | OrphanTry t => OrphanTry (token_blank t)
  | InvalidLHS l e => InvalidLHS (loc_blank l) (cover_error_blank e)
  | UnsupportedFeature s => UnsupportedFeature s
  | CompoundParamWithUseStrict p => CompoundParamWithUseStrict (cpatt_blank id_blank p)
  end.
Definition check_blank (c : check) : check :=
  match c with Ck_Strict e => Ck_Strict (error_blank e) | Ck_Module e => Ck_Module (error_blank e) end.
Definition program_blank (p : program) : program :=
  match p with
  | Pg_Ambiguous cs s => Pg_Ambiguous (map check_blank cs) (script_blank s)
  | Pg_Module m => Pg_Module (module_blank m)
  end.

(** What an entry point returns, with the positions erased. *)
Definition result_blank {A} (f : A -> A) (r : res perror A) : res perror A :=
  match r with
  | Ok a => Ok (f a)
  | Err e => Err (error_blank e)
  | Panic k => Panic k
  | NoFuel => NoFuel
  end.

(** ** Texts with the same tokens *)

(** Whatever tokens are read from the first text, whichever way its slashes are taken,
    the same tokens, up to their locations, are read from the second. *)
Definition same_tokens (V : env) (s1 s2 : str) : Prop :=
  forall ops ts1 k1, tiles V s1 ops true 0 ts1 k1 ->
    exists ts2 k2, tiles V s2 ops true 0 ts2 k2 /\ map unplaced ts2 = map unplaced ts1.

(** The lexer rejected the text, or panicked. *)
Definition lexical {A} (r : res perror A) : Prop :=
  match r with
  | Err (LexError _) => True
  | Panic k => k <> P_unimplemented
  | _ => False
  end.

(** Equal up to positions, or both rejected by the lexer. *)
Definition alike {A} (f : A -> A) (r1 r2 : res perror A) : Prop :=
  result_blank f r1 = result_blank f r2 \/ (lexical r1 /\ lexical r2).

(** The result on a text that the lexer does not reject is decided by finitely many of
    its first tokens: every text that has these has the same result. *)
Definition decided (V : env) {A} (f : A -> A) (entry : str -> res perror A) : Prop :=
  forall s1, ~ lexical (entry s1) ->
    exists ops ts1 k1, tiles V s1 ops true 0 ts1 k1
      /\ forall s2 ts2 k2, tiles V s2 ops true 0 ts2 k2 -> map unplaced ts2 = map unplaced ts1 ->
           result_blank f (entry s2) = result_blank f (entry s1).

(** A token whose text does not begin with a slash. *)
Definition slashless (d : token_data) : Prop :=
  match d with
  | TPunc T_Slash => False
  | TPunc T_SlashAssign => False
  | TRegExp _ => False
  | _ => True
  end.
