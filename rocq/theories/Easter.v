(** The types of easter as declared, with the traits derived for them, and the trees of the
    model as values of these types.  Models easter/src. *)
From Coq Require Import String Ascii List NArith Bool.
From Verif Require Import Base Word Token Punc Ast Node Derive.
Import ListNotations.
Local Open Scope string_scope.
Local Open Scope list_scope.

(** Types, for short. *)
Definition Ty (t : ident) : rty := RTy t [].
Definition App (t : ident) (a : rty) : rty := RTy t [a].
Definition Opt (a : rty) : rty := RTy "Option" [a].
Definition Vec (a : rty) : rty := RTy "Vec" [a].
Definition Bx (a : rty) : rty := RTy "Box" [a].
Definition Loc : rty := Opt (Ty "Span").

(** easter/src/id.rs:8-12 *)
Definition decl_Id : type_decl :=
  TypeDecl (MacroInput "Id" []
    (B_Struct (Vd_Struct [("location", Loc); ("name", (Ty "Name"))])))
    ["TrackingRef"; "TrackingMut"].
(** easter/src/patt.rs:7-11 *)
Definition decl_RestPatt : type_decl :=
  TypeDecl (MacroInput "RestPatt" [("T", [])]
    (B_Struct (Vd_Struct [("location", Loc); ("patt", (App "Patt" (Ty "T")))])))
    ["TrackingRef"; "TrackingMut"; "Untrack"].
(** easter/src/patt.rs:13-17 *)
Definition decl_CompoundPatt : type_decl :=
  TypeDecl (MacroInput "CompoundPatt" [("T", [])]
    (B_Enum [
       ("Arr", Vd_Tuple [Loc; (Vec (Opt (App "Patt" (Ty "T")))); (Opt (Bx (App "RestPatt" (Ty "T"))))]);
       ("Obj", Vd_Tuple [Loc; (Vec (App "PropPatt" (Ty "T")))])]))
    ["TrackingRef"; "TrackingMut"; "Untrack"].
(** easter/src/patt.rs:19-23 *)
Definition decl_PropPatt : type_decl :=
  TypeDecl (MacroInput "PropPatt" [("T", [])]
    (B_Enum [
       ("Regular", Vd_Tuple [Loc; (Ty "PropKey"); (App "Patt" (Ty "T"))]);
       ("Shorthand", Vd_Tuple [(Ty "Id")])]))
    ["TrackingRef"; "TrackingMut"; "Untrack"].
(** easter/src/patt.rs:25-29 *)
Definition decl_Patt : type_decl :=
  TypeDecl (MacroInput "Patt" [("T", [])]
    (B_Enum [
       ("Simple", Vd_Tuple [(Ty "T")]);
       ("Compound", Vd_Tuple [(App "CompoundPatt" (Ty "T"))])]))
    ["Untrack"].
(** easter/src/patt.rs:58-63 *)
Definition decl_AssignTarget : type_decl :=
  TypeDecl (MacroInput "AssignTarget" []
    (B_Enum [
       ("Id", Vd_Tuple [(Ty "Id")]);
       ("Dot", Vd_Tuple [Loc; (Bx (Ty "Expr")); (Ty "DotKey")]);
       ("Brack", Vd_Tuple [Loc; (Bx (Ty "Expr")); (Bx (Ty "Expr"))])]))
    ["TrackingRef"; "TrackingMut"; "Untrack"].
(** easter/src/obj.rs:10-14 *)
Definition decl_DotKey : type_decl :=
  TypeDecl (MacroInput "DotKey" []
    (B_Struct (Vd_Struct [("location", Loc); ("value", (Ty "String"))])))
    ["TrackingRef"; "TrackingMut"].
(** easter/src/obj.rs:20-25 *)
Definition decl_Prop : type_decl :=
  TypeDecl (MacroInput "Prop" []
    (B_Enum [
       ("Regular", Vd_Tuple [Loc; (Ty "PropKey"); (Ty "PropVal")]);
       ("Method", Vd_Tuple [(App "Fun" (Ty "PropKey"))]);
       ("Shorthand", Vd_Tuple [(Ty "Id")])]))
    ["TrackingRef"; "TrackingMut"; "Untrack"].
(** easter/src/obj.rs:27-32 *)
Definition decl_PropKey : type_decl :=
  TypeDecl (MacroInput "PropKey" []
    (B_Enum [
       ("Id", Vd_Tuple [Loc; (Ty "String")]);
       ("String", Vd_Tuple [Loc; (Ty "StringLiteral")]);
       ("Number", Vd_Tuple [Loc; (Ty "NumberLiteral")])]))
    ["TrackingRef"; "TrackingMut"].
(** easter/src/obj.rs:40-45 *)
Definition decl_PropVal : type_decl :=
  TypeDecl (MacroInput "PropVal" []
    (B_Enum [
       ("Init", Vd_Tuple [(Ty "Expr")]);
       ("Get", Vd_Tuple [Loc; (Ty "Script")]);
       ("Set", Vd_Tuple [Loc; (App "Patt" (Ty "Id")); (Ty "Script")])]))
    ["TrackingRef"; "TrackingMut"; "Untrack"].
(** easter/src/fun.rs:7-12 *)
Definition decl_Params : type_decl :=
  TypeDecl (MacroInput "Params" []
    (B_Struct (Vd_Struct [("location", Loc); ("list", (Vec (App "Patt" (Ty "Id")))); ("rest", (Opt (App "RestPatt" (Ty "Id"))))])))
    ["TrackingRef"; "TrackingMut"; "Untrack"].
(** easter/src/fun.rs:14-21 *)
Definition decl_Fun : type_decl :=
  TypeDecl (MacroInput "Fun" [("Id", [])]
    (B_Struct (Vd_Struct [("location", Loc); ("id", (Ty "Id")); ("params", (Ty "Params")); ("body", (Ty "Script")); ("generator", (Ty "bool"))])))
    ["TrackingRef"; "TrackingMut"; "Untrack"].
(** easter/src/expr.rs:12-16 *)
Definition decl_ExprListItem : type_decl :=
  TypeDecl (MacroInput "ExprListItem" []
    (B_Enum [
       ("Expr", Vd_Tuple [(Ty "Expr")]);
       ("Spread", Vd_Tuple [Loc; (Ty "Expr")])]))
    ["TrackingRef"; "TrackingMut"; "Untrack"].
(** easter/src/expr.rs:18-47 *)
Definition decl_Expr : type_decl :=
  TypeDecl (MacroInput "Expr" []
    (B_Enum [
       ("This", Vd_Tuple [Loc]);
       ("Id", Vd_Tuple [(Ty "Id")]);
       ("Arr", Vd_Tuple [Loc; (Vec (Opt (Ty "ExprListItem")))]);
       ("Obj", Vd_Tuple [Loc; (Vec (Ty "Prop"))]);
       ("Fun", Vd_Tuple [(App "Fun" (Opt (Ty "Id")))]);
       ("Seq", Vd_Tuple [Loc; (Vec (Ty "Expr"))]);
       ("Unop", Vd_Tuple [Loc; (Ty "Unop"); (Bx (Ty "Expr"))]);
       ("Binop", Vd_Tuple [Loc; (Ty "Binop"); (Bx (Ty "Expr")); (Bx (Ty "Expr"))]);
       ("Logop", Vd_Tuple [Loc; (Ty "Logop"); (Bx (Ty "Expr")); (Bx (Ty "Expr"))]);
       ("PreInc", Vd_Tuple [Loc; (Bx (Ty "AssignTarget"))]);
       ("PostInc", Vd_Tuple [Loc; (Bx (Ty "AssignTarget"))]);
       ("PreDec", Vd_Tuple [Loc; (Bx (Ty "AssignTarget"))]);
       ("PostDec", Vd_Tuple [Loc; (Bx (Ty "AssignTarget"))]);
       ("Assign", Vd_Tuple [Loc; (App "Patt" (Ty "AssignTarget")); (Bx (Ty "Expr"))]);
       ("BinAssign", Vd_Tuple [Loc; (Ty "Assop"); (Ty "AssignTarget"); (Bx (Ty "Expr"))]);
       ("Cond", Vd_Tuple [Loc; (Bx (Ty "Expr")); (Bx (Ty "Expr")); (Bx (Ty "Expr"))]);
       ("Call", Vd_Tuple [Loc; (Bx (Ty "Expr")); (Vec (Ty "ExprListItem"))]);
       ("New", Vd_Tuple [Loc; (Bx (Ty "Expr")); (Opt (Vec (Ty "ExprListItem")))]);
       ("Dot", Vd_Tuple [Loc; (Bx (Ty "Expr")); (Ty "DotKey")]);
       ("Brack", Vd_Tuple [Loc; (Bx (Ty "Expr")); (Bx (Ty "Expr"))]);
       ("NewTarget", Vd_Tuple [Loc]);
       ("True", Vd_Tuple [Loc]);
       ("False", Vd_Tuple [Loc]);
       ("Null", Vd_Tuple [Loc]);
       ("Number", Vd_Tuple [Loc; (Ty "NumberLiteral")]);
       ("RegExp", Vd_Tuple [Loc; (Ty "RegExpLiteral")]);
       ("String", Vd_Tuple [Loc; (Ty "StringLiteral")])]))
    ["TrackingRef"; "TrackingMut"; "Untrack"].
(** easter/src/decl.rs:10-14 *)
Definition decl_Import : type_decl :=
  TypeDecl (MacroInput "Import" []
    (B_Enum [
       ("ForEffect", Vd_Tuple [Loc; (Ty "StringLiteral")])]))
    ["TrackingRef"; "TrackingMut"; "Untrack"].
(** easter/src/decl.rs:16-21 *)
Definition decl_Export : type_decl :=
  TypeDecl (MacroInput "Export" []
    (B_Enum [
       ("Var", Vd_Tuple [Loc; (Vec (Ty "Dtor")); (Ty "Semi")]);
       ("Decl", Vd_Tuple [(Ty "Decl")])]))
    ["TrackingRef"; "TrackingMut"; "Untrack"].
(** easter/src/decl.rs:23-28 *)
Definition decl_Decl : type_decl :=
  TypeDecl (MacroInput "Decl" []
    (B_Enum [
       ("Fun", Vd_Tuple [(App "Fun" (Ty "Id"))]);
       ("Let", Vd_Tuple [Loc; (Vec (Ty "Dtor")); (Ty "Semi")]);
       ("Const", Vd_Tuple [Loc; (Vec (Ty "ConstDtor")); (Ty "Semi")])]))
    ["TrackingRef"; "TrackingMut"; "Untrack"].
(** easter/src/decl.rs:30-34 *)
Definition decl_Dtor : type_decl :=
  TypeDecl (MacroInput "Dtor" []
    (B_Enum [
       ("Simple", Vd_Tuple [Loc; (Ty "Id"); (Opt (Ty "Expr"))]);
       ("Compound", Vd_Tuple [Loc; (App "CompoundPatt" (Ty "Id")); (Ty "Expr")])]))
    ["TrackingRef"; "TrackingMut"; "Untrack"].
(** easter/src/decl.rs:36-41 *)
Definition decl_ConstDtor : type_decl :=
  TypeDecl (MacroInput "ConstDtor" []
    (B_Struct (Vd_Struct [("location", Loc); ("patt", (App "Patt" (Ty "Id"))); ("value", (Ty "Expr"))])))
    ["TrackingRef"; "TrackingMut"; "Untrack"].
(** easter/src/stmt.rs:10-31 *)
Definition decl_Stmt : type_decl :=
  TypeDecl (MacroInput "Stmt" []
    (B_Enum [
       ("Empty", Vd_Tuple [Loc]);
       ("Block", Vd_Tuple [(Ty "Block")]);
       ("Var", Vd_Tuple [Loc; (Vec (Ty "Dtor")); (Ty "Semi")]);
       ("Expr", Vd_Tuple [Loc; (Ty "Expr"); (Ty "Semi")]);
       ("If", Vd_Tuple [Loc; (Ty "Expr"); (Bx (Ty "Stmt")); (Opt (Bx (Ty "Stmt")))]);
       ("Label", Vd_Tuple [Loc; (Ty "Id"); (Bx (Ty "Stmt"))]);
       ("Break", Vd_Tuple [Loc; (Opt (Ty "Id")); (Ty "Semi")]);
       ("Cont", Vd_Tuple [Loc; (Opt (Ty "Id")); (Ty "Semi")]);
       ("With", Vd_Tuple [Loc; (Ty "Expr"); (Bx (Ty "Stmt"))]);
       ("Switch", Vd_Tuple [Loc; (Ty "Expr"); (Vec (Ty "Case"))]);
       ("Return", Vd_Tuple [Loc; (Opt (Ty "Expr")); (Ty "Semi")]);
       ("Throw", Vd_Tuple [Loc; (Ty "Expr"); (Ty "Semi")]);
       ("Try", Vd_Tuple [Loc; (Ty "Block"); (Opt (Bx (Ty "Catch"))); (Opt (Ty "Block"))]);
       ("While", Vd_Tuple [Loc; (Ty "Expr"); (Bx (Ty "Stmt"))]);
       ("DoWhile", Vd_Tuple [Loc; (Bx (Ty "Stmt")); (Ty "Expr"); (Ty "Semi")]);
       ("For", Vd_Tuple [Loc; (Opt (Bx (Ty "ForHead"))); (Opt (Ty "Expr")); (Opt (Ty "Expr")); (Bx (Ty "Stmt"))]);
       ("ForIn", Vd_Tuple [Loc; (Bx (Ty "ForInHead")); (Ty "Expr"); (Bx (Ty "Stmt"))]);
       ("ForOf", Vd_Tuple [Loc; (Bx (Ty "ForOfHead")); (Ty "Expr"); (Bx (Ty "Stmt"))]);
       ("Debugger", Vd_Tuple [Loc; (Ty "Semi")])]))
    ["TrackingRef"; "TrackingMut"; "Untrack"].
(** easter/src/stmt.rs:33-38 *)
Definition decl_Body : type_decl :=
  TypeDecl (MacroInput "Body" [("Item", [])]
    (B_Struct (Vd_Struct [("location", Loc); ("dirs", (Vec (Ty "Dir"))); ("items", (Vec (Ty "Item")))])))
    ["TrackingRef"; "TrackingMut"; "Untrack"].
(** easter/src/stmt.rs:40-44 *)
Definition decl_Block : type_decl :=
  TypeDecl (MacroInput "Block" []
    (B_Struct (Vd_Struct [("location", Loc); ("items", (Vec (Ty "StmtListItem")))])))
    ["TrackingRef"; "TrackingMut"; "Untrack"].
(** easter/src/stmt.rs:83-89 *)
Definition decl_ForHead : type_decl :=
  TypeDecl (MacroInput "ForHead" []
    (B_Enum [
       ("Var", Vd_Tuple [Loc; (Vec (Ty "Dtor"))]);
       ("Let", Vd_Tuple [Loc; (Vec (Ty "Dtor"))]);
       ("Const", Vd_Tuple [Loc; (Vec (Ty "ConstDtor"))]);
       ("Expr", Vd_Tuple [Loc; (Ty "Expr")])]))
    ["TrackingRef"; "TrackingMut"; "Untrack"].
(** easter/src/stmt.rs:91-98 *)
Definition decl_ForInHead : type_decl :=
  TypeDecl (MacroInput "ForInHead" []
    (B_Enum [
       ("VarInit", Vd_Tuple [Loc; (Ty "Id"); (Ty "Expr")]);
       ("Var", Vd_Tuple [Loc; (App "Patt" (Ty "Id"))]);
       ("Let", Vd_Tuple [Loc; (App "Patt" (Ty "Id"))]);
       ("Const", Vd_Tuple [Loc; (App "Patt" (Ty "Id"))]);
       ("Patt", Vd_Tuple [(App "Patt" (Ty "AssignTarget"))])]))
    ["TrackingRef"; "TrackingMut"; "Untrack"].
(** easter/src/stmt.rs:100-106 *)
Definition decl_ForOfHead : type_decl :=
  TypeDecl (MacroInput "ForOfHead" []
    (B_Enum [
       ("Var", Vd_Tuple [Loc; (App "Patt" (Ty "Id"))]);
       ("Let", Vd_Tuple [Loc; (App "Patt" (Ty "Id"))]);
       ("Const", Vd_Tuple [Loc; (App "Patt" (Ty "Id"))]);
       ("Patt", Vd_Tuple [(App "Patt" (Ty "AssignTarget"))])]))
    ["TrackingRef"; "TrackingMut"; "Untrack"].
(** easter/src/stmt.rs:108-113 *)
Definition decl_Catch : type_decl :=
  TypeDecl (MacroInput "Catch" []
    (B_Struct (Vd_Struct [("location", Loc); ("param", (App "Patt" (Ty "Id"))); ("body", (Ty "Block"))])))
    ["TrackingRef"; "TrackingMut"; "Untrack"].
(** easter/src/stmt.rs:115-120 *)
Definition decl_Case : type_decl :=
  TypeDecl (MacroInput "Case" []
    (B_Struct (Vd_Struct [("location", Loc); ("test", (Opt (Ty "Expr"))); ("body", (Vec (Ty "StmtListItem")))])))
    ["TrackingRef"; "TrackingMut"; "Untrack"].
(** easter/src/stmt.rs:122-127 *)
Definition decl_Dir : type_decl :=
  TypeDecl (MacroInput "Dir" []
    (B_Struct (Vd_Struct [("location", Loc); ("string", (Ty "StringLiteral")); ("semi", (Ty "Semi"))])))
    ["TrackingRef"; "TrackingMut"; "Untrack"].
(** easter/src/stmt.rs:139-144 *)
Definition decl_ModItem : type_decl :=
  TypeDecl (MacroInput "ModItem" []
    (B_Enum [
       ("Import", Vd_Tuple [(Ty "Import")]);
       ("Export", Vd_Tuple [(Ty "Export")]);
       ("StmtListItem", Vd_Tuple [(Ty "StmtListItem")])]))
    ["TrackingRef"; "TrackingMut"; "Untrack"].
(** easter/src/stmt.rs:146-150 *)
Definition decl_StmtListItem : type_decl :=
  TypeDecl (MacroInput "StmtListItem" []
    (B_Enum [
       ("Decl", Vd_Tuple [(Ty "Decl")]);
       ("Stmt", Vd_Tuple [(Ty "Stmt")])]))
    ["TrackingRef"; "TrackingMut"; "Untrack"].
(** easter/src/punc.rs:48-52 *)
Definition decl_Op : type_decl :=
  TypeDecl (MacroInput "Op" [("T", [])]
    (B_Struct (Vd_Struct [("location", Loc); ("tag", (Ty "T"))])))
    ["TrackingRef"; "TrackingMut"].

(** All of them. *)
Definition easter : list type_decl :=
  [decl_Id; decl_RestPatt; decl_CompoundPatt; decl_PropPatt; decl_Patt; decl_AssignTarget; decl_DotKey; decl_Prop; decl_PropKey; decl_PropVal; decl_Params; decl_Fun; decl_ExprListItem; decl_Expr; decl_Import; decl_Export; decl_Decl; decl_Dtor; decl_ConstDtor; decl_Stmt; decl_Body; decl_Block; decl_ForHead; decl_ForInHead; decl_ForOfHead; decl_Catch; decl_Case; decl_Dir; decl_ModItem; decl_StmtListItem; decl_Op].


(** Other names for types: easter/src/stmt.rs:46,48; punc.rs:79,181,238,289. *)
Definition aliases : list (ident * rty) :=
  [("Script", App "Body" (Ty "StmtListItem")); ("Module", App "Body" (Ty "ModItem"));
   ("Unop", App "Op" (Ty "UnopTag")); ("Binop", App "Op" (Ty "BinopTag"));
   ("Logop", App "Op" (Ty "LogopTag")); ("Assop", App "Op" (Ty "AssopTag"))].

(** ** Trees as values *)

(** A variant with its fields; a struct with its fields. *)
Definition Var (t v : ident) (fs : list val) : val := V_Tuple [t; v] fs.
Definition Str (t : ident) (fs : list (ident * val)) : val := V_Struct [t] fs.
Definition v_opt {A} (f : A -> val) (o : option A) : val :=
  match o with Some a => V_Some (f a) | None => V_None end.
Definition v_list {A} (f : A -> val) (l : list A) : val := V_Vec (map f l).
Definition v_semi (s : semi) : val := V_Data (Da_Semi s).
Definition v_string (s : string_literal) : val := V_Data (Da_StringLit s).
Definition v_number (n : number_literal) : val := V_Data (Da_NumberLit n).

Definition v_op {T} (f : T -> data) (o : op T) : val :=
  Str "Op" [("location", V_Loc (op_loc o)); ("tag", V_Data (f (op_tag o)))].
Definition v_id (i : id) : val :=
  Str "Id" [("location", V_Loc (id_loc i)); ("name", V_Data (Da_Name (id_name i)))].
Definition v_dk (k : dot_key) : val :=
  Str "DotKey" [("location", V_Loc (dk_loc k)); ("value", V_Data (Da_String (dk_value k)))].
Definition v_pk (k : prop_key) : val :=
  match k with
  | PK_Id l s => Var "PropKey" "Id" [V_Loc l; V_Data (Da_String s)]
  | PK_String l s => Var "PropKey" "String" [V_Loc l; v_string s]
  | PK_Number l n => Var "PropKey" "Number" [V_Loc l; v_number n]
  end.

Definition v_patt_of {T C} (ft : T -> val) (fc : C -> val) (p : patt_of T C) : val :=
  match p with
  | Simple t => Var "Patt" "Simple" [ft t]
  | Compound c => Var "Patt" "Compound" [fc c]
  end.
Definition v_rest {P} (f : P -> val) (r : rest_of P) : val :=
  Str "RestPatt" [("location", V_Loc (rp_loc r)); ("patt", f (rp_patt r))].
Definition v_pp {P} (f : P -> val) (p : prop_patt_of P) : val :=
  match p with
  | PP_Regular l k q => Var "PropPatt" "Regular" [V_Loc l; v_pk k; f q]
  | PP_Shorthand i => Var "PropPatt" "Shorthand" [v_id i]
  end.
Definition v_cpatt {T} (ft : T -> val) : cpatt T -> val :=
  fix go (c : cpatt T) : val :=
    match c with
    | C_Arr l es r =>
        Var "CompoundPatt" "Arr"
          [V_Loc l; v_list (v_opt (v_patt_of ft go)) es; v_opt (v_rest (v_patt_of ft go)) r]
    | C_Obj l ps => Var "CompoundPatt" "Obj" [V_Loc l; v_list (v_pp (v_patt_of ft go)) ps]
    end.
Definition v_patt {T} (ft : T -> val) (p : patt T) : val := v_patt_of ft (v_cpatt ft) p.

Definition v_params (p : params) : val :=
  Str "Params" [("location", V_Loc (pa_loc p)); ("list", v_list (v_patt v_id) (pa_list p));
                ("rest", v_opt (v_rest (v_patt v_id)) (pa_rest p))].
Definition v_dir (d : dir) : val :=
  Str "Dir" [("location", V_Loc (dir_loc d)); ("string", v_string (dir_string d));
             ("semi", v_semi (dir_semi d))].
Definition v_body {I} (f : I -> val) (b : body I) : val :=
  Str "Body" [("location", V_Loc (bo_loc b)); ("dirs", v_list v_dir (bo_dirs b));
              ("items", v_list f (bo_items b))].
Definition v_func {I B} (fi : I -> val) (fb : B -> val) (f : func I B) : val :=
  Str "Fun" [("location", V_Loc (fn_loc f)); ("id", fi (fn_id f)); ("params", v_params (fn_params f));
             ("body", fb (fn_body f)); ("generator", V_Data (Da_Bool (fn_generator f)))].

Fixpoint v_expr (e : expr) : val :=
  match e with
  | E_This l => Var "Expr" "This" [V_Loc l]
  | E_Id i => Var "Expr" "Id" [v_id i]
  | E_Arr l es => Var "Expr" "Arr" [V_Loc l; v_list (v_opt v_eli) es]
  | E_Obj l ps => Var "Expr" "Obj" [V_Loc l; v_list v_prop ps]
  | E_Fun f => Var "Expr" "Fun" [v_func (v_opt v_id) (v_body v_item) f]
  | E_Seq l es => Var "Expr" "Seq" [V_Loc l; v_list v_expr es]
  | E_Unop l o a => Var "Expr" "Unop" [V_Loc l; v_op Da_Unop o; v_expr a]
  | E_Binop l o a b => Var "Expr" "Binop" [V_Loc l; v_op Da_Binop o; v_expr a; v_expr b]
  | E_Logop l o a b => Var "Expr" "Logop" [V_Loc l; v_op Da_Logop o; v_expr a; v_expr b]
  | E_PreInc l a => Var "Expr" "PreInc" [V_Loc l; v_target a]
  | E_PostInc l a => Var "Expr" "PostInc" [V_Loc l; v_target a]
  | E_PreDec l a => Var "Expr" "PreDec" [V_Loc l; v_target a]
  | E_PostDec l a => Var "Expr" "PostDec" [V_Loc l; v_target a]
  | E_Assign l p a => Var "Expr" "Assign" [V_Loc l; v_patt_of v_target (v_cpatt v_target) p; v_expr a]
  | E_BinAssign l o t a => Var "Expr" "BinAssign" [V_Loc l; v_op Da_Assop o; v_target t; v_expr a]
  | E_Cond l a b c => Var "Expr" "Cond" [V_Loc l; v_expr a; v_expr b; v_expr c]
  | E_Call l a args => Var "Expr" "Call" [V_Loc l; v_expr a; v_list v_eli args]
  | E_New l a args => Var "Expr" "New" [V_Loc l; v_expr a; v_opt (v_list v_eli) args]
  | E_Dot l a k => Var "Expr" "Dot" [V_Loc l; v_expr a; v_dk k]
  | E_Brack l a b => Var "Expr" "Brack" [V_Loc l; v_expr a; v_expr b]
  | E_NewTarget l => Var "Expr" "NewTarget" [V_Loc l]
  | E_True l => Var "Expr" "True" [V_Loc l]
  | E_False l => Var "Expr" "False" [V_Loc l]
  | E_Null l => Var "Expr" "Null" [V_Loc l]
  | E_Number l n => Var "Expr" "Number" [V_Loc l; v_number n]
  | E_RegExp l r => Var "Expr" "RegExp" [V_Loc l; V_Data (Da_RegExpLit r)]
  | E_String l s => Var "Expr" "String" [V_Loc l; v_string s]
  end
with v_eli (e : eli) : val :=
  match e with
  | L_Expr e => Var "ExprListItem" "Expr" [v_expr e]
  | L_Spread l e => Var "ExprListItem" "Spread" [V_Loc l; v_expr e]
  end
with v_prop (p : prop) : val :=
  match p with
  | Pr_Regular l k v => Var "Prop" "Regular" [V_Loc l; v_pk k; v_pval v]
  | Pr_Method f => Var "Prop" "Method" [v_func v_pk (v_body v_item) f]
  | Pr_Shorthand i => Var "Prop" "Shorthand" [v_id i]
  end
with v_pval (v : prop_val) : val :=
  match v with
  | PV_Init e => Var "PropVal" "Init" [v_expr e]
  | PV_Get l b => Var "PropVal" "Get" [V_Loc l; v_body v_item b]
  | PV_Set l p b => Var "PropVal" "Set" [V_Loc l; v_patt v_id p; v_body v_item b]
  end
with v_target (t : target) : val :=
  match t with
  | AT_Id i => Var "AssignTarget" "Id" [v_id i]
  | AT_Dot l e k => Var "AssignTarget" "Dot" [V_Loc l; v_expr e; v_dk k]
  | AT_Brack l e k => Var "AssignTarget" "Brack" [V_Loc l; v_expr e; v_expr k]
  end
with v_stmt (s : stmt) : val :=
  match s with
  | S_Empty l => Var "Stmt" "Empty" [V_Loc l]
  | S_Block b => Var "Stmt" "Block" [v_block b]
  | S_Var l ds sm => Var "Stmt" "Var" [V_Loc l; v_list v_dtor ds; v_semi sm]
  | S_Expr l e sm => Var "Stmt" "Expr" [V_Loc l; v_expr e; v_semi sm]
  | S_If l e a b => Var "Stmt" "If" [V_Loc l; v_expr e; v_stmt a; v_opt v_stmt b]
  | S_Label l i b => Var "Stmt" "Label" [V_Loc l; v_id i; v_stmt b]
  | S_Break l i sm => Var "Stmt" "Break" [V_Loc l; v_opt v_id i; v_semi sm]
  | S_Cont l i sm => Var "Stmt" "Cont" [V_Loc l; v_opt v_id i; v_semi sm]
  | S_With l e b => Var "Stmt" "With" [V_Loc l; v_expr e; v_stmt b]
  | S_Switch l e cs => Var "Stmt" "Switch" [V_Loc l; v_expr e; v_list v_case cs]
  | S_Return l e sm => Var "Stmt" "Return" [V_Loc l; v_opt v_expr e; v_semi sm]
  | S_Throw l e sm => Var "Stmt" "Throw" [V_Loc l; v_expr e; v_semi sm]
  | S_Try l b c f => Var "Stmt" "Try" [V_Loc l; v_block b; v_opt v_catch c; v_opt v_block f]
  | S_While l e b => Var "Stmt" "While" [V_Loc l; v_expr e; v_stmt b]
  | S_DoWhile l b e sm => Var "Stmt" "DoWhile" [V_Loc l; v_stmt b; v_expr e; v_semi sm]
  | S_For l h t u b =>
      Var "Stmt" "For" [V_Loc l; v_opt v_fh h; v_opt v_expr t; v_opt v_expr u; v_stmt b]
  | S_ForIn l h e b => Var "Stmt" "ForIn" [V_Loc l; v_fi h; v_expr e; v_stmt b]
  | S_ForOf l h e b => Var "Stmt" "ForOf" [V_Loc l; v_fo h; v_expr e; v_stmt b]
  | S_Debugger l sm => Var "Stmt" "Debugger" [V_Loc l; v_semi sm]
  end
with v_block (b : block) : val :=
  match b with Block l is => Str "Block" [("location", V_Loc l); ("items", v_list v_item is)] end
with v_fh (h : for_head) : val :=
  match h with
  | FH_Var l ds => Var "ForHead" "Var" [V_Loc l; v_list v_dtor ds]
  | FH_Let l ds => Var "ForHead" "Let" [V_Loc l; v_list v_dtor ds]
  | FH_Const l ds => Var "ForHead" "Const" [V_Loc l; v_list v_cdtor ds]
  | FH_Expr l e => Var "ForHead" "Expr" [V_Loc l; v_expr e]
  end
with v_fi (h : for_in_head) : val :=
  match h with
  | FI_VarInit l i e => Var "ForInHead" "VarInit" [V_Loc l; v_id i; v_expr e]
  | FI_Var l p => Var "ForInHead" "Var" [V_Loc l; v_patt v_id p]
  | FI_Let l p => Var "ForInHead" "Let" [V_Loc l; v_patt v_id p]
  | FI_Const l p => Var "ForInHead" "Const" [V_Loc l; v_patt v_id p]
  | FI_Patt p => Var "ForInHead" "Patt" [v_patt_of v_target (v_cpatt v_target) p]
  end
with v_fo (h : for_of_head) : val :=
  match h with
  | FO_Var l p => Var "ForOfHead" "Var" [V_Loc l; v_patt v_id p]
  | FO_Let l p => Var "ForOfHead" "Let" [V_Loc l; v_patt v_id p]
  | FO_Const l p => Var "ForOfHead" "Const" [V_Loc l; v_patt v_id p]
  | FO_Patt p => Var "ForOfHead" "Patt" [v_patt_of v_target (v_cpatt v_target) p]
  end
with v_catch (c : catch) : val :=
  match c with
  | Catch l p b => Str "Catch" [("location", V_Loc l); ("param", v_patt v_id p); ("body", v_block b)]
  end
with v_case (c : case) : val :=
  match c with
  | Case l t b => Str "Case" [("location", V_Loc l); ("test", v_opt v_expr t); ("body", v_list v_item b)]
  end
with v_item (i : item) : val :=
  match i with
  | I_Decl d => Var "StmtListItem" "Decl" [v_decl d]
  | I_Stmt s => Var "StmtListItem" "Stmt" [v_stmt s]
  end
with v_decl (d : decl) : val :=
  match d with
  | D_Fun f => Var "Decl" "Fun" [v_func v_id (v_body v_item) f]
  | D_Let l ds sm => Var "Decl" "Let" [V_Loc l; v_list v_dtor ds; v_semi sm]
  | D_Const l ds sm => Var "Decl" "Const" [V_Loc l; v_list v_cdtor ds; v_semi sm]
  end
with v_dtor (d : dtor) : val :=
  match d with
  | Dt_Simple l i e => Var "Dtor" "Simple" [V_Loc l; v_id i; v_opt v_expr e]
  | Dt_Compound l p e => Var "Dtor" "Compound" [V_Loc l; v_cpatt v_id p; v_expr e]
  end
with v_cdtor (d : const_dtor) : val :=
  match d with
  | CDt l p e => Str "ConstDtor" [("location", V_Loc l); ("patt", v_patt v_id p); ("value", v_expr e)]
  end.

Definition v_import (i : import) : val :=
  match i with Im_ForEffect l s => Var "Import" "ForEffect" [V_Loc l; v_string s] end.
Definition v_export (e : export) : val :=
  match e with
  | Ex_Var l ds sm => Var "Export" "Var" [V_Loc l; v_list v_dtor ds; v_semi sm]
  | Ex_Decl d => Var "Export" "Decl" [v_decl d]
  end.
Definition v_mitem (m : mod_item) : val :=
  match m with
  | MI_Import i => Var "ModItem" "Import" [v_import i]
  | MI_Export e => Var "ModItem" "Export" [v_export e]
  | MI_Item i => Var "ModItem" "StmtListItem" [v_item i]
  end.

(** A node as a value, and its type. *)
Definition node_val (n : node) : val :=
  match n with
  | N_expr e => v_expr e
  | N_eli e => v_eli e
  | N_prop p => v_prop p
  | N_pval v => v_pval v
  | N_target t => v_target t
  | N_stmt s => v_stmt s
  | N_block b => v_block b
  | N_fh h => v_fh h
  | N_fi h => v_fi h
  | N_fo h => v_fo h
  | N_catch c => v_catch c
  | N_case c => v_case c
  | N_item i => v_item i
  | N_decl d => v_decl d
  | N_dtor d => v_dtor d
  | N_cdtor d => v_cdtor d
  | N_fexpr f => v_func (v_opt v_id) (v_body v_item) f
  | N_fmeth f => v_func v_pk (v_body v_item) f
  | N_fdecl f => v_func v_id (v_body v_item) f
  | N_body b => v_body v_item b
  | N_tpatt p => v_patt v_target p
  | N_trest r => v_rest (v_patt v_target) r
  | N_tpp p => v_pp (v_patt v_target) p
  | N_ipatt p => v_patt v_id p
  | N_irest r => v_rest (v_patt v_id) r
  | N_ipp p => v_pp (v_patt v_id) p
  | N_params p => v_params p
  | N_dir d => v_dir d
  | N_id i => v_id i
  | N_dk k => v_dk k
  | N_pk k => v_pk k
  | N_unop o => v_op Da_Unop o
  | N_binop o => v_op Da_Binop o
  | N_logop o => v_op Da_Logop o
  | N_assop o => v_op Da_Assop o
  | N_mod m => v_body v_mitem m
  | N_mitem i => v_mitem i
  | N_import i => v_import i
  | N_export e => v_export e
  end.
Definition node_type (n : node) : rty :=
  match n with
  | N_expr _ => Ty "Expr"
  | N_eli _ => Ty "ExprListItem"
  | N_prop _ => Ty "Prop"
  | N_pval _ => Ty "PropVal"
  | N_target _ => Ty "AssignTarget"
  | N_stmt _ => Ty "Stmt"
  | N_block _ => Ty "Block"
  | N_fh _ => Ty "ForHead"
  | N_fi _ => Ty "ForInHead"
  | N_fo _ => Ty "ForOfHead"
  | N_catch _ => Ty "Catch"
  | N_case _ => Ty "Case"
  | N_item _ => Ty "StmtListItem"
  | N_decl _ => Ty "Decl"
  | N_dtor _ => Ty "Dtor"
  | N_cdtor _ => Ty "ConstDtor"
  | N_fexpr _ => App "Fun" (Opt (Ty "Id"))
  | N_fmeth _ => App "Fun" (Ty "PropKey")
  | N_fdecl _ => App "Fun" (Ty "Id")
  | N_body _ => Ty "Script"
  | N_tpatt _ => App "Patt" (Ty "AssignTarget")
  | N_trest _ => App "RestPatt" (Ty "AssignTarget")
  | N_tpp _ => App "PropPatt" (Ty "AssignTarget")
  | N_ipatt _ => App "Patt" (Ty "Id")
  | N_irest _ => App "RestPatt" (Ty "Id")
  | N_ipp _ => App "PropPatt" (Ty "Id")
  | N_params _ => Ty "Params"
  | N_dir _ => Ty "Dir"
  | N_id _ => Ty "Id"
  | N_dk _ => Ty "DotKey"
  | N_pk _ => Ty "PropKey"
  | N_unop _ => Ty "Unop"
  | N_binop _ => Ty "Binop"
  | N_logop _ => Ty "Logop"
  | N_assop _ => Ty "Assop"
  | N_mod _ => Ty "Module"
  | N_mitem _ => Ty "ModItem"
  | N_import _ => Ty "Import"
  | N_export _ => Ty "Export"
  end.
