(** The syntactic grammar accepted by the parser, as one relation between token
    sequences and trees.  It follows /repo/grammar.md and the ECMAScript grammar; it
    uses none of the parser's functions.

    [G g n i o a] (which is [GX false g n i o a]): at a place [g] of the program, the nonterminal [n] derives the
    tokens by which [i] is longer than [o], and the tree of this derivation is [a].
    Locations of composite trees are left open here (they are the subject of C41 and
    C42); premises about the first tokens of [o] say what must follow. *)
From Coq Require Import String Ascii List NArith Bool.
From Verif Require Import Base Word Token Punc Ast Stack SpecLexer SpecStack SpecTree.
Import ListNotations.
Local Open Scope nat_scope.

(** ** Places *)

(** The language mode; it decides which identifiers are allowed. *)
Inductive mode : Type := Sloppy | Strict | Module_.

(** Where in the program a construct stands: the mode, whether it is inside a
    function, a loop, a switch (of the same function), whether [in] may be an infix
    operator, and the labels around it (innermost first), each with whether it
    labels a loop. *)
Record place : Type := Place {
  pl_mode : mode; pl_fun : bool; pl_loop : bool; pl_switch : bool; pl_in : bool;
  pl_labels : list (name * bool) }.

Definition with_in (b : bool) (g : place) : place :=
  Place (pl_mode g) (pl_fun g) (pl_loop g) (pl_switch g) b (pl_labels g).
Definition in_loop (g : place) : place :=
  Place (pl_mode g) (pl_fun g) true (pl_switch g) (pl_in g) (pl_labels g).
Definition in_switch (g : place) : place :=
  Place (pl_mode g) (pl_fun g) (pl_loop g) true (pl_in g) (pl_labels g).
Definition in_label (n : name) (k : bool) (g : place) : place :=
  Place (pl_mode g) (pl_fun g) (pl_loop g) (pl_switch g) (pl_in g) ((n, k) :: pl_labels g).
(** A function body: nothing but the mode carries over. *)
Definition in_function (g : place) : place := Place (pl_mode g) true false false true [].

(** The nearest label called [n] around the place labels a loop iff [k]. *)
Definition label_in (ls : list (name * bool)) (n : name) (k : bool) : Prop :=
  exists inner outer, ls = inner ++ (n, k) :: outer /\ ~ In n (map fst inner).

(** ** Identifiers *)

(** Names that cannot be used in strict code, names that cannot be bound in it.  A
    word written with an escape is a [NString] and escapes both (see C35). *)
Definition strict_names : list name :=
  map NAtom [A_Implements; A_Interface; A_Let; A_Package; A_Private; A_Protected; A_Public;
             A_Static; A_Yield].
Definition unbindable : list name := map NAtom [A_Arguments; A_Eval].
Definition name_ok (m : mode) (binding : bool) (n : name) : Prop :=
  m = Sloppy
  \/ (~ In n strict_names /\ (binding = true -> ~ In n unbindable)
      /\ (m = Module_ -> n <> NAtom A_Await)).

(** ** Tokens *)

Definition tokens : Type := list token.
(** One token with the given contents. *)
Definition eat (d : token_data) (i o : tokens) : Prop := exists t, i = t :: o /\ tk_value t = d.
Definition op_ (p : punc) : tokens -> tokens -> Prop := eat (TPunc p).
Definition kw (r : reserved) : tokens -> tokens -> Prop := eat (TReserved r).
(** The next token exists and satisfies [P]. *)
Definition next (P : token -> Prop) (o : tokens) : Prop := exists t o', o = t :: o' /\ P t.
Definition not_next (d : token_data) : tokens -> Prop := next (fun t => tk_value t <> d).

(** The token is the operator or keyword spelled [w]. *)
Definition spelled (t : token) (w : str) : Prop :=
  (exists p, tk_value t = TPunc p /\ punc_text p = w /\ w <> [])
  \/ (exists r, tk_value t = TReserved r /\ reserved_name r = w).
Definition unop_text (u : unop_tag) : str :=
  lit match u with
      | Un_Minus => "-" | Un_Plus => "+" | Un_Not => "!" | Un_BitNot => "~"
      | Un_Typeof => "typeof" | Un_Void => "void" | Un_Delete => "delete"
      end.
(** The token is the infix operator [o]. *)
Definition infix_tok (allow_in : bool) (t : token) (o : infix) : Prop :=
  spelled t (infix_text o)
  /\ (infix_text o = lit "in" -> allow_in = true)
  /\ match o with
     | In_Binop b => op_loc b = Some (tk_loc t)
     | In_Logop l => op_loc l = Some (tk_loc t)
     end.

(** Tokens that begin a binding; that end a statement list; that continue an
    expression. *)
Definition begins_binding (t : token) : Prop :=
  tk_value t = TPunc T_LBrace \/ tk_value t = TPunc T_LBrack \/ exists n, tk_value t = TIdent n.
Definition ends_list (t : token) : Prop :=
  In (tk_value t) [TPunc T_RBrace; TPunc T_EOF; TReserved R_Case; TReserved R_Default].
Definition continues (t : token) : Prop :=
  In (tk_value t) [TReserved R_In; TReserved R_Instanceof]
  \/ (tk_newline t = false /\ In (tk_value t) [TPunc T_Inc; TPunc T_Dec])
  \/ (exists p, tk_value t = TPunc p
      /\ ~ In p [T_Semi; T_RBrace; T_EOF; T_LBrace; T_RBrack; T_RParen; T_Bang; T_Tilde; T_Colon;
                 T_Arrow; T_Inc; T_Dec]).
Definition postfix_op (t : token) : Prop :=
  tk_newline t = false /\ In (tk_value t) [TPunc T_Inc; TPunc T_Dec].
Definition assign_op (t : token) : Prop :=
  tk_value t = TPunc T_Assign \/ exists a, spelled t (assop_tag_text a).

(** The end of a statement: a semicolon, or (automatic semicolon insertion) a closing
    brace, the end of input or a line break before the next token, where [lax] asks
    for none of these (after [do ... while (...)]). *)
Inductive ends (lax : bool) : tokens -> tokens -> semi -> Prop :=
| en_explicit : forall t o, tk_value t = TPunc T_Semi ->
    ends lax (t :: o) o (Explicit (Some (sp_start (tk_loc t))))
| en_inserted : forall t o, tk_value t <> TPunc T_Semi ->
    tk_value t = TPunc T_RBrace \/ tk_value t = TPunc T_EOF \/ tk_newline t = true \/ lax = true ->
    ends lax (t :: o) (t :: o) Inserted.
(** After [break], [continue] and [return]: whether an argument follows. *)
Definition no_arg (t : token) : Prop :=
  tk_newline t = true \/ tk_value t = TPunc T_Semi \/ tk_value t = TPunc T_RBrace.

(** Tokens that start with a slash. *)
Definition slash (t : token) : Prop := In (tk_value t) [TPunc T_Slash; TPunc T_SlashAssign].
Definition regexp (t : token) : Prop := exists r, tk_value t = TRegExp r.

(** ** Trees *)

(** A loop, possibly with labels. *)
Fixpoint is_loop (s : stmt) : bool :=
  match s with
  | S_While _ _ _ | S_DoWhile _ _ _ _ | S_For _ _ _ _ _ | S_ForIn _ _ _ _ | S_ForOf _ _ _ _ => true
  | S_Label _ _ b => is_loop b
  | _ => false
  end.
Definition is_default (c : case) : bool := match c with Case _ None _ => true | _ => false end.
Definition infix_expr (l : loc) (o : infix) (a b : expr) : expr :=
  match o with In_Binop o => E_Binop l o a b | In_Logop o => E_Logop l o a b end.

(** ** Nonterminals, each with the type of its trees *)
Inductive nt : Type -> Type :=
(** one or more, separated by commas *)
| Commas {A} (n : nt A) : nt (list A)
(** any number, separated by commas, possibly with a trailing comma *)
| CommaList {A} (n : nt A) : nt (list A)
| Name_ (binding : bool) : nt id
| Pattern : nt (patt id)
| ParamList : nt (list (patt id) * option (rest_patt id))
| Parameters : nt params
| Directive : nt dir
| Directives : nt (list dir)
| Items : nt (list item)
| Script : nt script
| FunctionBody : nt script
| FunctionRest : nt (params * script)
| FunctionExpr : nt (func (option id) (body item))
| FunctionDecl : nt (func id (body item))
| ListItem : nt eli
| Elements : nt (list (option eli))
| Arguments : nt (list eli)
| Key : nt prop_key
| DotName : nt dot_key
| Property : nt prop
| Primary : nt expr
| Base_ : nt expr
| Member : nt expr
| NewArgs : nt expr
| NewBare : nt expr
| Lhs : nt expr
| Postfix : nt expr
| Unary : nt expr
| Infix (level : nat) : nt expr
| Conditional : nt expr
| Assignment : nt expr
| Expression : nt expr
| Declarator : nt dtor
| ConstDeclarator : nt const_dtor
| BlockOf : nt block
| ForRest : nt (option expr * option expr * stmt)
| Catch_ : nt catch
| Case_ : nt case
| Cases : nt (list case)
| Statement : nt stmt
| Declaration : nt decl
| Item (decl : bool) : nt item.

(** With [sure = true] the relation is narrower, by side conditions under which the
    parser is certain to find the derivation (C67).  They exclude a label inside a
    statement with the same label (C62), and the places where a token that starts
    with a slash is read in the wrong way (C56, C68) or would follow an operand as a
    regular expression. *)
Inductive GX (sure : bool) : forall {A : Type}, place -> nt A -> tokens -> tokens -> A -> Prop :=
(** *** Lists *)
| g_one : forall A g (n : nt A) i o a, GX sure g n i o a -> GX sure g (Commas n) i o [a]
| g_more : forall A g (n : nt A) i i1 i2 o a l, GX sure g n i i1 a -> op_ T_Comma i1 i2 ->
    GX sure g (Commas n) i2 o l -> GX sure g (Commas n) i o (a :: l)
| g_cl_nil : forall A g (n : nt A) i, GX sure g (CommaList n) i i []
| g_cl_last : forall A g (n : nt A) i o a, GX sure g n i o a -> GX sure g (CommaList n) i o [a]
| g_cl_cons : forall A g (n : nt A) i i1 i2 o a l, GX sure g n i i1 a -> op_ T_Comma i1 i2 ->
    GX sure g (CommaList n) i2 o l -> GX sure g (CommaList n) i o (a :: l)

(** *** Names and patterns (destructuring is not supported) *)
| g_name : forall g b t o n, tk_value t = TIdent n -> name_ok (pl_mode g) b n ->
    GX sure g (Name_ b) (t :: o) o (Id (Some (tk_loc t)) n)
| g_pattern : forall g i o x, GX sure g (Name_ true) i o x -> GX sure g Pattern i o (Simple x)

(** *** Functions *)
| g_pl_nil : forall g i, GX sure g ParamList i i ([], None)
| g_pl_rest : forall g i i1 o l p, op_ T_Ellipsis i i1 -> GX sure g Pattern i1 o p ->
    GX sure g ParamList i o ([], Some (RestPatt l p))
| g_pl_last : forall g i o p, GX sure g Pattern i o p -> GX sure g ParamList i o ([p], None)
| g_pl_cons : forall g i i1 i2 o p ps r, GX sure g Pattern i i1 p -> op_ T_Comma i1 i2 ->
    GX sure g ParamList i2 o (ps, r) -> GX sure g ParamList i o (p :: ps, r)
| g_params : forall g i i1 i2 o l ps r, op_ T_LParen i i1 -> GX sure g ParamList i1 i2 (ps, r) ->
    op_ T_RParen i2 o -> GX sure g Parameters i o (Params l ps r)
| g_directive : forall g i i1 o l s sm, eat (TString s) i i1 -> next (fun t => ~ continues t) i1 ->
    ends false i1 o sm -> GX sure g Directive i o (Dir l s sm)
| g_dirs_nil : forall g i, GX sure g Directives i i []
| g_dirs_cons : forall g i i1 o d ds, GX sure g Directive i i1 d -> GX sure g Directives i1 o ds ->
    GX sure g Directives i o (d :: ds)
| g_items_nil : forall g i, next ends_list i -> GX sure g Items i i []
| g_items_cons : forall g i i1 o a l, GX sure g (Item true) i i1 a -> GX sure g Items i1 o l ->
    GX sure g Items i o (a :: l)
| g_script : forall g i i1 o l ds is, GX sure g Directives i i1 ds ->
    (* the directives are all the string statements at the start *)
    (forall t t' r s, i1 = t :: t' :: r -> tk_value t = TString s -> continues t') ->
    (sure = true -> forall t t' r s, i1 = t :: t' :: r -> tk_value t = TString s -> ~ slash t') ->
    GX sure g Items i1 o is -> GX sure g Script i o (Body l ds is)
| g_function_body : forall g i i1 i2 o b, op_ T_LBrace i i1 -> GX sure (in_function g) Script i1 i2 b ->
    op_ T_RBrace i2 o -> GX sure g FunctionBody i o b
| g_function_rest : forall g i i1 o ps b, GX sure g Parameters i i1 ps -> GX sure g FunctionBody i1 o b ->
    GX sure g FunctionRest i o (ps, b)
| g_function_anon : forall g i i1 o l ps b, kw R_Function i i1 ->
    GX sure g FunctionRest i1 o (ps, b) -> GX sure g FunctionExpr i o (Fun l None ps b false)
| g_function_named : forall g i i1 i2 o l x ps b, kw R_Function i i1 -> GX sure g (Name_ true) i1 i2 x ->
    GX sure g FunctionRest i2 o (ps, b) -> GX sure g FunctionExpr i o (Fun l (Some x) ps b false)
| g_generator_anon : forall g i i1 i2 o l ps b, kw R_Function i i1 -> op_ T_Star i1 i2 ->
    GX sure g FunctionRest i2 o (ps, b) -> GX sure g FunctionExpr i o (Fun l None ps b true)
| g_generator_named : forall g i i1 i2 i3 o l x ps b, kw R_Function i i1 -> op_ T_Star i1 i2 ->
    GX sure g (Name_ true) i2 i3 x -> GX sure g FunctionRest i3 o (ps, b) ->
    GX sure g FunctionExpr i o (Fun l (Some x) ps b true)
| g_function_decl : forall g i i1 i2 o l x ps b, kw R_Function i i1 -> GX sure g (Name_ true) i1 i2 x ->
    GX sure g FunctionRest i2 o (ps, b) -> GX sure g FunctionDecl i o (Fun l x ps b false)
| g_generator_decl : forall g i i1 i2 i3 o l x ps b, kw R_Function i i1 -> op_ T_Star i1 i2 ->
    GX sure g (Name_ true) i2 i3 x -> GX sure g FunctionRest i3 o (ps, b) ->
    GX sure g FunctionDecl i o (Fun l x ps b true)

(** *** Primary expressions *)
| g_item_expr : forall g i o e, GX sure g Assignment i o e -> GX sure g ListItem i o (L_Expr e)
| g_item_spread : forall g i i1 o l e, op_ T_Ellipsis i i1 -> GX sure g Assignment i1 o e ->
    GX sure g ListItem i o (L_Spread (Some l) e)
| g_elts_nil : forall g i, GX sure g Elements i i []
| g_elts_hole : forall g i i1 o es, op_ T_Comma i i1 -> GX sure g Elements i1 o es ->
    GX sure g Elements i o (None :: es)
| g_elts_last : forall g i o e, GX sure g ListItem i o e -> GX sure g Elements i o [Some e]
| g_elts_cons : forall g i i1 i2 o e es, GX sure g ListItem i i1 e -> op_ T_Comma i1 i2 ->
    GX sure g Elements i2 o es -> GX sure g Elements i o (Some e :: es)
| g_args_nil : forall g i i1 o, op_ T_LParen i i1 -> op_ T_RParen i1 o -> GX sure g Arguments i o []
| g_args : forall g i i1 i2 o es, op_ T_LParen i i1 -> GX sure (with_in true g) (Commas ListItem) i1 i2 es ->
    op_ T_RParen i2 o -> GX sure g Arguments i o es
| g_key_ident : forall g t o n, tk_value t = TIdent n ->
    GX sure g Key (t :: o) o (PK_Id (Some (tk_loc t)) (name_string n))
| g_key_reserved : forall g t o r, tk_value t = TReserved r ->
    GX sure g Key (t :: o) o (PK_Id (Some (tk_loc t)) (reserved_name r))
| g_key_string : forall g t o s, tk_value t = TString s ->
    GX sure g Key (t :: o) o (PK_String (Some (tk_loc t)) s)
| g_key_number : forall g t o n, tk_value t = TNumber n ->
    GX sure g Key (t :: o) o (PK_Number (Some (tk_loc t)) n)
| g_dot_ident : forall g t o n, tk_value t = TIdent n ->
    GX sure g DotName (t :: o) o (DotKey (Some (tk_loc t)) (name_string n))
| g_dot_reserved : forall g t o r, tk_value t = TReserved r ->
    GX sure g DotName (t :: o) o (DotKey (Some (tk_loc t)) (reserved_name r))
| g_prop_init : forall g i i1 i2 o l k e, GX sure g Key i i1 k -> op_ T_Colon i1 i2 ->
    GX sure (with_in true g) Assignment i2 o e -> GX sure g Property i o (Pr_Regular l k (PV_Init e))
| g_prop_method : forall g i i1 o l k ps b, GX sure g Key i i1 k -> GX sure g FunctionRest i1 o (ps, b) ->
    GX sure g Property i o (Pr_Method (Fun l k ps b false))
| g_prop_generator : forall g i i1 i2 o l k ps b, op_ T_Star i i1 -> GX sure g Key i1 i2 k ->
    GX sure g FunctionRest i2 o (ps, b) -> GX sure g Property i o (Pr_Method (Fun l k ps b true))
| g_prop_get : forall g i i1 i2 i3 i4 o l l' k b, eat (TIdent (NAtom A_Get)) i i1 -> GX sure g Key i1 i2 k ->
    op_ T_LParen i2 i3 -> op_ T_RParen i3 i4 -> GX sure g FunctionBody i4 o b ->
    GX sure g Property i o (Pr_Regular l k (PV_Get l' b))
| g_prop_set : forall g i i1 i2 i3 i4 i5 o l l' k p b, eat (TIdent (NAtom A_Set)) i i1 ->
    GX sure g Key i1 i2 k -> op_ T_LParen i2 i3 -> GX sure g Pattern i3 i4 p -> op_ T_RParen i4 i5 ->
    GX sure g FunctionBody i5 o b -> GX sure g Property i o (Pr_Regular l k (PV_Set l' p b))
| g_prop_shorthand : forall g t o n n', tk_value t = TIdent n ->
    (* the word is looked up again by its text: an escape makes no difference here *)
    names n' (name_string n) false -> name_ok (pl_mode g) false n' ->
    next (fun t' => tk_value t' = TPunc T_Comma \/ tk_value t' = TPunc T_RBrace) o ->
    GX sure g Property (t :: o) o (Pr_Shorthand (Id (Some (tk_loc t)) n'))
| g_id : forall g i o x, GX sure g (Name_ false) i o x -> GX sure g Primary i o (E_Id x)
| g_null : forall g t o, tk_value t = TReserved R_Null -> GX sure g Primary (t :: o) o (E_Null (Some (tk_loc t)))
| g_this : forall g t o, tk_value t = TReserved R_This -> GX sure g Primary (t :: o) o (E_This (Some (tk_loc t)))
| g_true : forall g t o, tk_value t = TReserved R_True -> GX sure g Primary (t :: o) o (E_True (Some (tk_loc t)))
| g_false : forall g t o, tk_value t = TReserved R_False -> GX sure g Primary (t :: o) o (E_False (Some (tk_loc t)))
| g_number : forall g t o n, tk_value t = TNumber n -> GX sure g Primary (t :: o) o (E_Number (Some (tk_loc t)) n)
| g_string : forall g t o s, tk_value t = TString s -> GX sure g Primary (t :: o) o (E_String (Some (tk_loc t)) s)
| g_regexp : forall g t o r, tk_value t = TRegExp r -> GX sure g Primary (t :: o) o (E_RegExp (Some (tk_loc t)) r)
| g_array : forall g i i1 i2 o l es, op_ T_LBrack i i1 -> GX sure (with_in true g) Elements i1 i2 es ->
    op_ T_RBrack i2 o -> GX sure g Primary i o (E_Arr l es)
| g_object : forall g i i1 i2 o l ps, op_ T_LBrace i i1 -> GX sure g (CommaList Property) i1 i2 ps ->
    op_ T_RBrace i2 o -> GX sure g Primary i o (E_Obj l ps)
| g_function : forall g i o f, GX sure g FunctionExpr i o f -> GX sure g Primary i o (E_Fun f)
| g_paren : forall g i i1 i2 o e, op_ T_LParen i i1 -> GX sure (with_in true g) Expression i1 i2 e ->
    op_ T_RParen i2 o -> GX sure g Primary i o e

(** *** Left-hand sides: grammar.md,
    [NewExpression ::= "new"+n MemberBaseExpression Deref* Arguments<n Suffix*] *)
| g_base : forall g i o e, GX sure g Primary i o e -> GX sure g Base_ i o e
| g_new_target : forall g i i1 i2 o l, kw R_New i i1 -> op_ T_Dot i1 i2 ->
    eat (TIdent (NAtom A_Target)) i2 o -> GX sure g Base_ i o (E_NewTarget l)
| g_member : forall g i o e, GX sure g Base_ i o e -> GX sure g Member i o e
| g_member_dot : forall g i i1 i2 o l e k, GX sure g Member i i1 e -> op_ T_Dot i1 i2 -> GX sure g DotName i2 o k ->
    GX sure g Member i o (E_Dot l e k)
| g_member_brack : forall g i i1 i2 i3 o l e k, GX sure g Member i i1 e -> op_ T_LBrack i1 i2 ->
    GX sure (with_in true g) Expression i2 i3 k -> op_ T_RBrack i3 o -> GX sure g Member i o (E_Brack l e k)
(** [new] with arguments; the base takes all the accesses it can *)
| g_new_base : forall g i o e, GX sure g Member i o e ->
    next (fun t => tk_value t <> TPunc T_Dot /\ tk_value t <> TPunc T_LBrack) o -> GX sure g NewArgs i o e
| g_new_args : forall g i i1 i2 o l e es, kw R_New i i1 ->
    GX sure g NewArgs i1 i2 e -> GX sure g Arguments i2 o es ->
    GX sure g NewArgs i o (E_New l e (Some es))
(** [new] without arguments *)
| g_new_some : forall g i o e, GX sure g NewArgs i o e -> GX sure g NewBare i o e
| g_new_bare : forall g i i1 o l e, kw R_New i i1 ->
    GX sure g NewBare i1 o e -> not_next (TPunc T_LParen) o ->
    GX sure g NewBare i o (E_New l e None)
| g_lhs_new : forall g i i1 o e, kw R_New i i1 -> GX sure g NewBare i o e -> GX sure g Lhs i o e
| g_lhs_base : forall g i o e, GX sure g Base_ i o e -> GX sure g Lhs i o e
| g_lhs_dot : forall g i i1 i2 o l e k, GX sure g Lhs i i1 e -> op_ T_Dot i1 i2 -> GX sure g DotName i2 o k ->
    GX sure g Lhs i o (E_Dot l e k)
| g_lhs_brack : forall g i i1 i2 i3 o l e k, GX sure g Lhs i i1 e -> op_ T_LBrack i1 i2 ->
    GX sure (with_in true g) Expression i2 i3 k -> op_ T_RBrack i3 o -> GX sure g Lhs i o (E_Brack l e k)
| g_lhs_call : forall g i i1 o l e es, GX sure g Lhs i i1 e -> GX sure g Arguments i1 o es ->
    GX sure g Lhs i o (E_Call l e es)

(** *** Operators *)
| g_postfix_none : forall g i o e, GX sure g Lhs i o e ->
    next (fun t => ~ postfix_op t /\ tk_value t <> TPunc T_Dot /\ tk_value t <> TPunc T_LBrack
                   /\ tk_value t <> TPunc T_LParen) o ->
    (sure = true -> next (fun t => ~ regexp t) o) -> GX sure g Postfix i o e
| g_postfix_inc : forall g i t o x, GX sure g Lhs i (t :: o) (target_expr x) ->
    tk_value t = TPunc T_Inc -> tk_newline t = false -> GX sure g Postfix i o (E_PostInc (Some (tk_loc t)) x)
| g_postfix_dec : forall g i t o x, GX sure g Lhs i (t :: o) (target_expr x) ->
    tk_value t = TPunc T_Dec -> tk_newline t = false -> GX sure g Postfix i o (E_PostDec (Some (tk_loc t)) x)
| g_unary_none : forall g i o e, GX sure g Postfix i o e -> GX sure g Unary i o e
| g_unary_op : forall g t i o l u e, spelled t (unop_text u) -> GX sure g Unary i o e ->
    GX sure g Unary (t :: i) o (E_Unop l (Op (Some (tk_loc t)) u) e)
| g_unary_inc : forall g t i o x, tk_value t = TPunc T_Inc -> GX sure g Unary i o (target_expr x) ->
    GX sure g Unary (t :: i) o (E_PreInc (Some (tk_loc t)) x)
| g_unary_dec : forall g t i o x, tk_value t = TPunc T_Dec -> GX sure g Unary i o (target_expr x) ->
    GX sure g Unary (t :: i) o (E_PreDec (Some (tk_loc t)) x)
(** one level per row of grammar.md's table of precedences, loosest first; operators
    of one level group to the left *)
| g_infix_unary : forall g i o e, GX sure g Unary i o e -> GX sure g (Infix (length levels)) i o e
| g_infix_up : forall g n i o e, n < length levels -> GX sure g (Infix (S n)) i o e -> GX sure g (Infix n) i o e
| g_infix_op : forall g n i t i1 o op l e1 e2, GX sure g (Infix n) i (t :: i1) e1 ->
    infix_tok (pl_in g) t op -> at_level op n -> GX sure g (Infix (S n)) i1 o e2 ->
    GX sure g (Infix n) i o (infix_expr l op e1 e2)
| g_cond_none : forall g i o e, GX sure g (Infix 0) i o e ->
    next (fun t => (forall op, ~ infix_tok (pl_in g) t op) /\ tk_value t <> TPunc T_Question) o ->
    (sure = true -> next (fun t => ~ regexp t) o) -> GX sure g Conditional i o e
| g_cond : forall g i i1 i2 i3 i4 o l e1 e2 e3, GX sure g (Infix 0) i i1 e1 -> op_ T_Question i1 i2 ->
    GX sure (with_in true g) Assignment i2 i3 e2 -> op_ T_Colon i3 i4 -> GX sure g Assignment i4 o e3 ->
    GX sure g Conditional i o (E_Cond l e1 e2 e3)
| g_assign_none : forall g i o e, GX sure g Conditional i o e -> next (fun t => ~ assign_op t) o ->
    GX sure g Assignment i o e
(** the left side, read as an expression, is the pattern [p] *)
| g_assign : forall g i i1 i2 o l p e, GX sure g Conditional i i1 (patt_expr p) -> rests_unlocated p ->
    op_ T_Assign i1 i2 -> GX sure g Assignment i2 o e -> GX sure g Assignment i o (E_Assign l p e)
| g_assign_op : forall g i t i1 o l a x e, GX sure g Conditional i (t :: i1) (target_expr x) ->
    spelled t (assop_tag_text a) -> GX sure g Assignment i1 o e ->
    GX sure g Assignment i o (E_BinAssign l (Op (Some (tk_loc t)) a) x e)
| g_expr : forall g i o e, GX sure g Assignment i o e -> not_next (TPunc T_Comma) o -> GX sure g Expression i o e
| g_seq : forall g i i1 i2 o l e es, GX sure g Assignment i i1 e -> op_ T_Comma i1 i2 ->
    GX sure g (Commas Assignment) i2 o es -> not_next (TPunc T_Comma) o ->
    GX sure g Expression i o (E_Seq l (e :: es))

(** *** Declarations *)
| g_dtor_bare : forall g i o l x, GX sure g (Name_ true) i o x -> not_next (TPunc T_Assign) o ->
    GX sure g Declarator i o (Dt_Simple l x None)
| g_dtor_init : forall g i i1 i2 o l x e, GX sure g (Name_ true) i i1 x -> op_ T_Assign i1 i2 ->
    GX sure g Assignment i2 o e -> GX sure g Declarator i o (Dt_Simple l x (Some e))
| g_cdtor : forall g i i1 i2 o l p e, GX sure g Pattern i i1 p -> op_ T_Assign i1 i2 ->
    GX sure g Assignment i2 o e -> GX sure g ConstDeclarator i o (CDt l p e)
| g_let : forall g i i1 i2 o l ds sm, eat (TIdent (NAtom A_Let)) i i1 -> next begins_binding i1 ->
    GX sure g (Commas Declarator) i1 i2 ds -> ends false i2 o sm -> GX sure g Declaration i o (D_Let l ds sm)
| g_const : forall g i i1 i2 o l ds sm, kw R_Const i i1 -> GX sure g (Commas ConstDeclarator) i1 i2 ds ->
    ends false i2 o sm -> GX sure g Declaration i o (D_Const l ds sm)
| g_fun_decl : forall g i o f, GX sure g FunctionDecl i o f -> GX sure g Declaration i o (D_Fun f)

(** *** Statements *)
| g_block_of : forall g i i1 i2 o l is, op_ T_LBrace i i1 -> GX sure g Items i1 i2 is -> op_ T_RBrace i2 o ->
    GX sure g BlockOf i o (Block l is)
| g_block : forall g i o b, GX sure g BlockOf i o b -> GX sure g Statement i o (S_Block b)
| g_empty : forall g i o l, op_ T_Semi i o -> GX sure g Statement i o (S_Empty l)
| g_var : forall g i i1 i2 o l ds sm, kw R_Var i i1 -> GX sure g (Commas Declarator) i1 i2 ds ->
    ends false i2 o sm -> GX sure g Statement i o (S_Var l ds sm)
| g_expr_stmt : forall g i i1 o l e sm,
    next (fun t => tk_value t <> TPunc T_LBrace /\ tk_value t <> TReserved R_Function) i ->
    (forall i', eat (TIdent (NAtom A_Let)) i i' -> next (fun t => ~ begins_binding t) i') ->
    GX sure (with_in true g) Expression i i1 e -> ends false i1 o sm -> GX sure g Statement i o (S_Expr l e sm)
| g_if : forall g i i1 i2 i3 i4 o l e s, kw R_If i i1 -> op_ T_LParen i1 i2 ->
    GX sure (with_in true g) Expression i2 i3 e -> op_ T_RParen i3 i4 -> GX sure g Statement i4 o s ->
    not_next (TReserved R_Else) o -> GX sure g Statement i o (S_If l e s None)
| g_if_else : forall g i i1 i2 i3 i4 i5 i6 o l e s s', kw R_If i i1 -> op_ T_LParen i1 i2 ->
    GX sure (with_in true g) Expression i2 i3 e -> op_ T_RParen i3 i4 -> GX sure g Statement i4 i5 s ->
    kw R_Else i5 i6 -> GX sure g Statement i6 o s' -> GX sure g Statement i o (S_If l e s (Some s'))
| g_label : forall g i i1 i2 o l x b, GX sure g (Name_ false) i i1 x -> op_ T_Colon i1 i2 ->
    (sure = true -> ~ In (id_name x) (map fst (pl_labels g))) ->
    GX sure (in_label (id_name x) (is_loop b) g) Statement i2 o b -> GX sure g Statement i o (S_Label l x b)
| g_break : forall g i i1 o l sm, kw R_Break i i1 -> next no_arg i1 ->
    pl_loop g = true \/ pl_switch g = true -> ends false i1 o sm -> GX sure g Statement i o (S_Break l None sm)
| g_break_to : forall g i i1 i2 o l x k sm, kw R_Break i i1 -> next (fun t => ~ no_arg t) i1 ->
    GX sure g (Name_ false) i1 i2 x -> label_in (pl_labels g) (id_name x) k -> ends false i2 o sm ->
    GX sure g Statement i o (S_Break l (Some x) sm)
| g_continue : forall g i i1 o l sm, kw R_Continue i i1 -> next no_arg i1 -> pl_loop g = true ->
    ends false i1 o sm -> GX sure g Statement i o (S_Cont l None sm)
| g_continue_to : forall g i i1 i2 o l x sm, kw R_Continue i i1 -> next (fun t => ~ no_arg t) i1 ->
    GX sure g (Name_ false) i1 i2 x -> label_in (pl_labels g) (id_name x) true -> ends false i2 o sm ->
    GX sure g Statement i o (S_Cont l (Some x) sm)
| g_return : forall g i i1 o l sm, kw R_Return i i1 -> next no_arg i1 -> pl_fun g = true ->
    ends false i1 o sm -> GX sure g Statement i o (S_Return l None sm)
| g_return_value : forall g i i1 i2 o l e sm, kw R_Return i i1 -> next (fun t => ~ no_arg t) i1 ->
    pl_fun g = true -> GX sure (with_in true g) Expression i1 i2 e -> ends false i2 o sm ->
    GX sure g Statement i o (S_Return l (Some e) sm)
| g_throw : forall g i i1 i2 o l e sm, kw R_Throw i i1 -> next (fun t => ~ no_arg t) i1 ->
    GX sure (with_in true g) Expression i1 i2 e -> ends false i2 o sm -> GX sure g Statement i o (S_Throw l e sm)
| g_debugger : forall g i i1 o l sm, kw R_Debugger i i1 -> ends false i1 o sm ->
    GX sure g Statement i o (S_Debugger l sm)
| g_with : forall g i i1 i2 i3 i4 o l e s, pl_mode g = Sloppy -> kw R_With i i1 -> op_ T_LParen i1 i2 ->
    GX sure (with_in true g) Expression i2 i3 e -> op_ T_RParen i3 i4 -> GX sure g Statement i4 o s ->
    GX sure g Statement i o (S_With l e s)
| g_case : forall g i i1 i2 i3 o l e is, kw R_Case i i1 -> GX sure (with_in true g) Expression i1 i2 e ->
    op_ T_Colon i2 i3 -> GX sure g Items i3 o is -> GX sure g Case_ i o (Case l (Some e) is)
| g_default : forall g i i1 i2 o l is, kw R_Default i i1 -> op_ T_Colon i1 i2 -> GX sure g Items i2 o is ->
    GX sure g Case_ i o (Case l None is)
| g_cases_nil : forall g i, GX sure g Cases i i []
| g_cases_cons : forall g i i1 o c cs, GX sure g Case_ i i1 c -> GX sure g Cases i1 o cs -> GX sure g Cases i o (c :: cs)
| g_switch : forall g i i1 i2 i3 i4 i5 i6 o l e cs, kw R_Switch i i1 -> op_ T_LParen i1 i2 ->
    GX sure (with_in true g) Expression i2 i3 e -> op_ T_RParen i3 i4 -> op_ T_LBrace i4 i5 ->
    GX sure (in_switch g) Cases i5 i6 cs -> op_ T_RBrace i6 o ->
    length (filter is_default cs) <= 1 -> GX sure g Statement i o (S_Switch l e cs)
| g_catch : forall g i i1 i2 i3 i4 o l p b, kw R_Catch i i1 -> op_ T_LParen i1 i2 ->
    GX sure g Pattern i2 i3 p -> op_ T_RParen i3 i4 -> GX sure g BlockOf i4 o b -> GX sure g Catch_ i o (Catch l p b)
| g_try_catch : forall g i i1 i2 o l b c, kw R_Try i i1 -> GX sure g BlockOf i1 i2 b -> GX sure g Catch_ i2 o c ->
    not_next (TReserved R_Finally) o -> GX sure g Statement i o (S_Try l b (Some c) None)
| g_try_finally : forall g i i1 i2 i3 o l b f, kw R_Try i i1 -> GX sure g BlockOf i1 i2 b ->
    kw R_Finally i2 i3 -> GX sure g BlockOf i3 o f -> GX sure g Statement i o (S_Try l b None (Some f))
| g_try_both : forall g i i1 i2 i3 i4 o l b c f, kw R_Try i i1 -> GX sure g BlockOf i1 i2 b ->
    GX sure g Catch_ i2 i3 c -> kw R_Finally i3 i4 -> GX sure g BlockOf i4 o f ->
    GX sure g Statement i o (S_Try l b (Some c) (Some f))
| g_while : forall g i i1 i2 i3 i4 o l e b, kw R_While i i1 -> op_ T_LParen i1 i2 ->
    GX sure (with_in true g) Expression i2 i3 e -> op_ T_RParen i3 i4 -> GX sure (in_loop g) Statement i4 o b ->
    GX sure g Statement i o (S_While l e b)
| g_do : forall g i i1 i2 i3 i4 i5 i6 o l b e sm, kw R_Do i i1 -> GX sure (in_loop g) Statement i1 i2 b ->
    kw R_While i2 i3 -> op_ T_LParen i3 i4 -> GX sure (with_in true g) Expression i4 i5 e ->
    op_ T_RParen i5 i6 -> ends true i6 o sm -> GX sure g Statement i o (S_DoWhile l b e sm)
(** [test? ; update? ) body] *)
| g_for_rest_00 : forall g i i1 i2 o b, op_ T_Semi i i1 -> op_ T_RParen i1 i2 ->
    GX sure (in_loop g) Statement i2 o b -> GX sure g ForRest i o (None, None, b)
| g_for_rest_10 : forall g i i1 i2 i3 o t b, GX sure (with_in true g) Expression i i1 t -> op_ T_Semi i1 i2 ->
    op_ T_RParen i2 i3 -> GX sure (in_loop g) Statement i3 o b -> GX sure g ForRest i o (Some t, None, b)
| g_for_rest_01 : forall g i i1 i2 i3 o u b, op_ T_Semi i i1 -> GX sure (with_in true g) Expression i1 i2 u ->
    op_ T_RParen i2 i3 -> GX sure (in_loop g) Statement i3 o b -> GX sure g ForRest i o (None, Some u, b)
| g_for_rest_11 : forall g i i1 i2 i3 i4 o t u b, GX sure (with_in true g) Expression i i1 t ->
    op_ T_Semi i1 i2 -> GX sure (with_in true g) Expression i2 i3 u -> op_ T_RParen i3 i4 ->
    GX sure (in_loop g) Statement i4 o b -> GX sure g ForRest i o (Some t, Some u, b)
| g_for : forall g i i1 i2 i3 o l t u b, kw R_For i i1 -> op_ T_LParen i1 i2 -> op_ T_Semi i2 i3 ->
    GX sure g ForRest i3 o (t, u, b) -> GX sure g Statement i o (S_For l None t u b)
| g_for_expr : forall g i i1 i2 i3 i4 o l l' e t u b, kw R_For i i1 -> op_ T_LParen i1 i2 ->
    (forall i', eat (TIdent (NAtom A_Let)) i2 i' ->
       next (fun t => ~ begins_binding t /\ (sure = true -> ~ slash t)) i') ->
    GX sure (with_in false g) Expression i2 i3 e -> op_ T_Semi i3 i4 -> GX sure g ForRest i4 o (t, u, b) ->
    GX sure g Statement i o (S_For l (Some (FH_Expr l' e)) t u b)
| g_for_var : forall g i i1 i2 i3 i4 i5 o l l' ds t u b, kw R_For i i1 -> op_ T_LParen i1 i2 ->
    kw R_Var i2 i3 -> GX sure (with_in false g) (Commas Declarator) i3 i4 ds -> op_ T_Semi i4 i5 ->
    GX sure g ForRest i5 o (t, u, b) -> GX sure g Statement i o (S_For l (Some (FH_Var l' ds)) t u b)
| g_for_let : forall g i i1 i2 i3 i4 i5 o l l' ds t u b, kw R_For i i1 -> op_ T_LParen i1 i2 ->
    eat (TIdent (NAtom A_Let)) i2 i3 -> next begins_binding i3 ->
    GX sure (with_in false g) (Commas Declarator) i3 i4 ds -> op_ T_Semi i4 i5 ->
    GX sure g ForRest i5 o (t, u, b) -> GX sure g Statement i o (S_For l (Some (FH_Let l' ds)) t u b)
| g_for_const : forall g i i1 i2 i3 i4 i5 o l l' ds t u b, kw R_For i i1 -> op_ T_LParen i1 i2 ->
    kw R_Const i2 i3 -> GX sure (with_in false g) (Commas ConstDeclarator) i3 i4 ds -> op_ T_Semi i4 i5 ->
    GX sure g ForRest i5 o (t, u, b) -> GX sure g Statement i o (S_For l (Some (FH_Const l' ds)) t u b)
(** [for (... in e) body], [for (... of e) body] *)
| g_for_in : forall g i i1 i2 i3 i4 i5 i6 o l p e b, kw R_For i i1 -> op_ T_LParen i1 i2 ->
    (forall i', eat (TIdent (NAtom A_Let)) i2 i' ->
       next (fun t => ~ begins_binding t /\ (sure = true -> ~ slash t)) i') ->
    GX sure (with_in false g) Expression i2 i3 (patt_expr p) -> rests_unlocated p -> kw R_In i3 i4 ->
    GX sure (with_in true g) Assignment i4 i5 e -> op_ T_RParen i5 i6 -> GX sure (in_loop g) Statement i6 o b ->
    GX sure g Statement i o (S_ForIn l (FI_Patt p) e b)
| g_for_of : forall g i i1 i2 i3 i4 i5 i6 o l p e b, kw R_For i i1 -> op_ T_LParen i1 i2 ->
    (forall i', eat (TIdent (NAtom A_Let)) i2 i' ->
       next (fun t => ~ begins_binding t /\ (sure = true -> ~ slash t)) i') ->
    GX sure (with_in false g) Expression i2 i3 (patt_expr p) -> rests_unlocated p ->
    eat (TIdent (NAtom A_Of)) i3 i4 ->
    GX sure (with_in true g) Assignment i4 i5 e -> op_ T_RParen i5 i6 -> GX sure (in_loop g) Statement i6 o b ->
    GX sure g Statement i o (S_ForOf l (FO_Patt p) e b)
| g_for_in_init : forall g i i1 i2 i3 i4 i5 i6 i7 i8 i9 o l l' x e0 e b, kw R_For i i1 ->
    op_ T_LParen i1 i2 -> kw R_Var i2 i3 -> GX sure g (Name_ true) i3 i4 x -> op_ T_Assign i4 i5 ->
    GX sure (with_in false g) Assignment i5 i6 e0 -> kw R_In i6 i7 ->
    GX sure (with_in true g) Assignment i7 i8 e -> op_ T_RParen i8 i9 -> GX sure (in_loop g) Statement i9 o b ->
    GX sure g Statement i o (S_ForIn l (FI_VarInit l' x e0) e b)
| g_for_in_var : forall g i i1 i2 i3 i4 i5 i6 i7 o l h d e b p, kw R_For i i1 -> op_ T_LParen i1 i2 ->
    eat d i2 i3 -> GX sure g Pattern i3 i4 p -> kw R_In i4 i5 ->
    GX sure (with_in true g) Assignment i5 i6 e -> op_ T_RParen i6 i7 -> GX sure (in_loop g) Statement i7 o b ->
    (exists l', (d = TReserved R_Var /\ h = FI_Var l' p)
                \/ (d = TIdent (NAtom A_Let) /\ h = FI_Let l' p)
                \/ (d = TReserved R_Const /\ h = FI_Const l' p)) ->
    GX sure g Statement i o (S_ForIn l h e b)
| g_for_of_var : forall g i i1 i2 i3 i4 i5 i6 i7 o l h d e b p, kw R_For i i1 -> op_ T_LParen i1 i2 ->
    eat d i2 i3 -> GX sure g Pattern i3 i4 p -> eat (TIdent (NAtom A_Of)) i4 i5 ->
    GX sure (with_in true g) Assignment i5 i6 e -> op_ T_RParen i6 i7 -> GX sure (in_loop g) Statement i7 o b ->
    (exists l', (d = TReserved R_Var /\ h = FO_Var l' p)
                \/ (d = TIdent (NAtom A_Let) /\ h = FO_Let l' p)
                \/ (d = TReserved R_Const /\ h = FO_Const l' p)) ->
    GX sure g Statement i o (S_ForOf l h e b)
| g_item_stmt : forall g d i o s, GX sure g Statement i o s -> GX sure g (Item d) i o (I_Stmt s)
| g_item_decl : forall g i o d, GX sure g Declaration i o d -> GX sure g (Item true) i o (I_Decl d).

(** The grammar of the language accepted. *)
Notation G := (GX false).

(** The place of a whole script. *)
Definition top (m : mode) : place := Place m false false false true [].
(** Both kinds of programs are directives followed by items; the items of a module
    are the same (imports and exports are not supported). *)
