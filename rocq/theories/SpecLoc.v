(** When is the location a node carries a proper one? *)
From Coq Require Import List NArith Bool.
From Verif Require Import Base Chars Word Token Punc Ast Track Node LexClient SpecReader SpecStack SpecGrammar.
Import ListNotations.
Local Open Scope nat_scope.

(** A location from index [i] to index [j] of the text. *)
Definition spans (src : str) (i j : nat) (l : loc) : Prop :=
  l = Some (Span (posn_at src i) (posn_at src j)) /\ i <= j <= length src.

(** A node is located in a text when it carries a location that begins and ends in
    the text, in that order, with the lines and columns of those places. *)
Definition located (src : str) (n : node) : Prop := exists i j, spans src i j (node_loc n).

(** All nodes of a tree are. *)
Definition all_located (src : str) (n : node) : Prop := forall m, within n m -> located src m.

(** C43: which nodes start no later, and which end no earlier, than the nodes directly
    below them.  The location of a conditional expression starts at its second operand,
    that of an expression statement, or of the first variable declared by [let], behind the token
    that was looked at before it, and that of an increment or a decrement is its operator. *)
Definition starts_first (n : node) : bool :=
  match n with
  | N_stmt (S_Expr _ _ _) | N_dtor (Dt_Simple _ _ _)
  | N_expr (E_Cond _ _ _ _) | N_expr (E_PostInc _ _) | N_expr (E_PostDec _ _) => false
  | _ => true
  end.
Definition ends_last (n : node) : bool :=
  match n with N_expr (E_PreInc _ _) | N_expr (E_PreDec _ _) => false | _ => true end.
Definition starts_by (l k : span) : Prop := (offset (sp_start l) <= offset (sp_start k))%N.
Definition ends_by (l k : span) : Prop := (offset (sp_end k) <= offset (sp_end l))%N.
Definition nested (n : node) : Prop := forall m c l k, within n m -> In c (children m) ->
  node_loc m = Some l -> node_loc c = Some k ->
  (starts_first m = true -> starts_by l k) /\ (ends_last m = true -> ends_by l k).

(** C77: which nodes start exactly where the first node below them starts, and which end
    exactly where the last node below them ends: those with no token of their own before
    or behind it, except the kinds named for C43 and those measured by the place of the
    lexer (statements, declarations, blocks, lists of parameters). *)
Definition starts_with_first (n : node) : bool :=
  match n with
  | N_expr (E_Id _) | N_expr (E_Fun _) | N_expr (E_Seq _ _) | N_expr (E_Unop _ _ _) | N_expr (E_Binop _ _ _ _)
  | N_expr (E_Logop _ _ _ _) | N_expr (E_Assign _ _ _) | N_expr (E_BinAssign _ _ _ _)
  | N_expr (E_Call _ _ _) | N_expr (E_Dot _ _ _) | N_expr (E_Brack _ _ _) => true
  | N_eli (L_Expr _) | N_prop _ | N_pval (PV_Init _) | N_target _ | N_fmeth _ => true
  | N_stmt (S_Block _) | N_stmt (S_Label _ _ _) | N_fh (FH_Expr _ _) => true
  | N_fi (FI_Patt _) | N_fo (FO_Patt _) | N_item _ | N_decl (D_Fun _) => true
  | N_dtor (Dt_Compound _ _ _) | N_cdtor _ => true
  | N_tpatt (Simple _) | N_tpp _ | N_ipatt (Simple _) | N_ipp _ => true
  | N_mitem _ | N_export (Ex_Decl _) => true
  | _ => false
  end.
Definition ends_with_last (n : node) : bool :=
  match n with
  | N_expr (E_Id _) | N_expr (E_Fun _) | N_expr (E_Seq _ _) | N_expr (E_Unop _ _ _) | N_expr (E_Binop _ _ _ _)
  | N_expr (E_Logop _ _ _ _) | N_expr (E_Assign _ _ _) | N_expr (E_BinAssign _ _ _ _)
  | N_expr (E_Cond _ _ _ _) | N_expr (E_Dot _ _ _) | N_expr (E_New _ _ None) => true
  | N_eli (L_Expr _) | N_prop _ | N_pval _ | N_fmeth _ => true
  | N_target (AT_Id _) | N_target (AT_Dot _ _ _) => true
  | N_stmt (S_Block _) | N_stmt (S_Label _ _ _) => true
  | N_fi _ | N_fo _ | N_item _ | N_decl (D_Fun _) => true
  | N_dtor (Dt_Compound _ _ _) | N_cdtor _ => true
  | N_tpatt (Simple _) | N_tpp _ | N_ipatt (Simple _) | N_ipp _ => true
  | N_mitem _ | N_export (Ex_Decl _) => true
  | _ => false
  end.
Definition tight (n : node) : Prop := forall m l, within n m -> node_loc m = Some l ->
  (starts_with_first m = true -> forall c r k, children m = c :: r -> node_loc c = Some k -> sp_start l = sp_start k)
  /\ (ends_with_last m = true -> forall r c k, children m = r ++ [c] -> node_loc c = Some k -> sp_end l = sp_end k).

(** C78: the tokens that some kinds of nodes begin and end with. *)
Definition opening (n : node) : option token_data :=
  match n with
  | N_expr (E_Arr _ _) | N_tpatt (Compound (C_Arr _ _ _)) => Some (TPunc T_LBrack)
  | N_expr (E_Obj _ _) | N_tpatt (Compound (C_Obj _ _)) => Some (TPunc T_LBrace)
  | N_expr (E_New _ _ _) | N_expr (E_NewTarget _) => Some (TReserved R_New)
  | N_fh (FH_Var _ _) | N_fi (FI_VarInit _ _ _) | N_fi (FI_Var _ _) | N_fo (FO_Var _ _) => Some (TReserved R_Var)
  | N_fh (FH_Let _ _) | N_fi (FI_Let _ _) | N_fo (FO_Let _ _) => Some (TIdent (NAtom A_Let))
  | N_fh (FH_Const _ _) | N_fi (FI_Const _ _) | N_fo (FO_Const _ _) => Some (TReserved R_Const)
  | _ => None
  end.
Definition closing (n : node) : option token_data :=
  match n with
  | N_expr (E_Arr _ _) | N_tpatt (Compound (C_Arr _ _ _)) => Some (TPunc T_RBrack)
  | N_expr (E_Obj _ _) | N_tpatt (Compound (C_Obj _ _)) => Some (TPunc T_RBrace)
  | N_expr (E_New _ _ (Some _)) | N_expr (E_Call _ _ _) => Some (TPunc T_RParen)
  | N_expr (E_Brack _ _ _) | N_target (AT_Brack _ _ _) => Some (TPunc T_RBrack)
  | N_expr (E_NewTarget _) => Some (TIdent (NAtom A_Target))
  | N_fh _ => Some (TPunc T_Semi)
  | _ => None
  end.
(** The location begins (ends) where a token of the text with the value [d] does. *)
Definition begins_at (V : env) (src : str) (d : token_data) (l : loc) : Prop :=
  exists t s, delivers V src t /\ tk_value t = d /\ l = Some s /\ sp_start s = sp_start (tk_loc t).
Definition ends_at (V : env) (src : str) (d : token_data) (l : loc) : Prop :=
  exists t s, delivers V src t /\ tk_value t = d /\ l = Some s /\ sp_end s = sp_end (tk_loc t).
Definition delimited (V : env) (src : str) (n : node) : Prop :=
  (forall d, opening n = Some d -> begins_at V src d (node_loc n)) /\ (forall d, closing n = Some d -> ends_at V src d (node_loc n)).

(** C59: the nodes made of one token.  [all] are the tokens of the input. *)
Definition made_of (all : tokens) (l : loc) (is : token -> Prop) : Prop :=
  exists t, In t all /\ l = Some (tk_loc t) /\ is t.
Definition reads_as (w : str) (t : token) : Prop :=
  (exists n, tk_value t = TIdent n /\ name_string n = w) \/ exists r, tk_value t = TReserved r /\ reserved_name r = w.
Definition token_ok (all : tokens) (n : node) : Prop :=
  match n with
  | N_id i => made_of all (id_loc i)
      (fun t => exists m, tk_value t = TIdent m /\ name_string m = name_string (id_name i))
  | N_expr (E_Null l) => made_of all l (fun t => tk_value t = TReserved R_Null)
  | N_expr (E_This l) => made_of all l (fun t => tk_value t = TReserved R_This)
  | N_expr (E_True l) => made_of all l (fun t => tk_value t = TReserved R_True)
  | N_expr (E_False l) => made_of all l (fun t => tk_value t = TReserved R_False)
  | N_expr (E_Number l x) => made_of all l (fun t => tk_value t = TNumber x)
  | N_expr (E_String l x) => made_of all l (fun t => tk_value t = TString x)
  | N_expr (E_RegExp l x) => made_of all l (fun t => tk_value t = TRegExp x)
  | N_expr (E_PreInc l _) | N_expr (E_PostInc l _) => made_of all l (fun t => tk_value t = TPunc T_Inc)
  | N_expr (E_PreDec l _) | N_expr (E_PostDec l _) => made_of all l (fun t => tk_value t = TPunc T_Dec)
  | N_pk (PK_Id l w) => made_of all l (reads_as w)
  | N_pk (PK_String l x) => made_of all l (fun t => tk_value t = TString x)
  | N_pk (PK_Number l x) => made_of all l (fun t => tk_value t = TNumber x)
  | N_dk k => made_of all (dk_loc k) (reads_as (dk_value k))
  | N_dir d => exists t, In t all /\ tk_value t = TString (dir_string d)
  | N_unop o => made_of all (op_loc o) (fun t => spelled t (unop_text (op_tag o)))
  | N_binop o => made_of all (op_loc o) (fun t => spelled t (binop_tag_text (op_tag o)))
  | N_logop o => made_of all (op_loc o) (fun t => spelled t (logop_tag_text (op_tag o)))
  | N_assop o => made_of all (op_loc o) (fun t => spelled t (assop_tag_text (op_tag o)))
  | _ => True
  end.
