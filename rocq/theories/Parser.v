(** The parser.  Models src/parser.rs, method by method.

    Recursion: every method is an ordinary definition over a record [R] that
    supplies the two methods through which all recursion of the parser passes
    ([assignment_expression] and [stmt_list_item]) and the number of iterations
    granted to each loop; [parse_rec] at the end ties the knot on fuel. *)
From Coq Require Import String Ascii List NArith Bool.
From Verif Require Import Base Chars Word Token Reader Lexer Punc Ast Track Cover Stack PState.
Import ListNotations.
Open Scope N_scope.

(** src/parser.rs:39-42 *)
Inductive program_items : Type :=
| PI_Script (items : list item)
| PI_Module (items : list mod_item).

(** src/parser.rs:44-48 *)
Inductive program : Type :=
| Pg_Ambiguous (checks : list check) (s : script)
| Pg_Module (m : module).

(** src/parser.rs:50-75 *)
Definition program_loc (p : program) : loc :=
  match p with Pg_Ambiguous _ s => bo_loc s | Pg_Module m => bo_loc m end.
Definition program_set_loc (p : program) (l : loc) : program :=
  match p with
  | Pg_Ambiguous c s => Pg_Ambiguous c (body_set_loc s l)
  | Pg_Module m => Pg_Module (body_set_loc m l)
  end.
Definition program_untrack (p : program) : program :=
  match p with
  | Pg_Ambiguous c s => Pg_Ambiguous c (script_untrack s)
  | Pg_Module m => Pg_Module (module_untrack m)
  end.

(** easter/src/decl.rs:51-76 [Dtor::from_compound_init], [from_simple_init],
    [from_init], [from_init_opt] *)
Definition dtor_from_compound_init (lhs : cpatt id) (rhs : expr) : dtor :=
  Dt_Compound (span_of (cpatt_loc lhs) (expr_loc rhs)) lhs rhs.
Definition dtor_from_simple_init (lhs : id) (rhs : expr) : dtor :=
  Dt_Simple (span_of (id_loc lhs) (expr_loc rhs)) lhs (Some rhs).
Definition dtor_from_init (lhs : patt id) (rhs : expr) : dtor :=
  match lhs with
  | Simple i => dtor_from_simple_init i rhs
  | Compound p => dtor_from_compound_init p rhs
  end.
Definition dtor_from_init_opt (lhs : patt id) (rhs : option expr) : dtor + patt id :=
  match lhs, rhs with
  | Simple i, rhs => inl (Dt_Simple (id_loc i) i rhs)
  | Compound p, None => inr lhs
  | Compound p, Some rhs => inl (dtor_from_compound_init p rhs)
  end.
(** easter/src/decl.rs:88-94 [ConstDtor::from_init] *)
Definition const_dtor_from_init (lhs : patt id) (rhs : expr) : const_dtor :=
  CDt (span_of (patt_id_loc lhs) (expr_loc rhs)) lhs rhs.

(** The methods through which the parser's recursion passes. *)
Record recs : Type := Recs { r_assign : P expr; r_item : bool -> P item; r_fuel : nat }.

(** src/parser.rs:158-160 [take_deferred] *)
Definition take_deferred : P (list check) :=
  d <- gets p_deferred ;; modify (set_deferred []) ;;; ret d.

(** src/parser.rs:162-164 [unexpected] *)
Definition unexpected {A} : P A := t <- p_reread_token ;; err (UnexpectedToken t).

(** src/parser.rs:184-187 [set_module] *)
Definition set_module : P unit :=
  modify (set_goal G_Module) ;;; modify_context (set_strict Yes).

(** src/parser.rs:388-413 [strict_check] *)
Definition strict_check (f : P (option check)) : P unit :=
  c <- get_context ;;
  if tri_eqb (cx_strict c) No then ret tt
  else
    k <- f ;;
    match k with
    | Some (Ck_Strict e) =>
        if tri_eqb (cx_strict c) Yes then err e
        else modify (fun s => set_deferred (p_deferred s ++ [Ck_Strict e]) s)
    | Some (Ck_Module e) =>
        g <- gets p_goal ;;
        if goal_eqb g G_Module then err e
        else if negb (goal_eqb g G_Script)
             then modify (fun s => set_deferred (p_deferred s ++ [Ck_Module e]) s)
             else ret tt
    | None => ret tt
    end.

(** src/parser.rs:573-587: the check made for an identifier *)
Definition id_check (binding : bool) (n : name) (location : span) : P (option check) :=
  if binding && name_illegal_strict_binding n then
    match name_atom n with
    | Some a => ret (Some (Ck_Strict (IllegalStrictBinding location a)))
    | None => panic_at P_unwrap
    end
  else match name_strict_reserved n with
       | No => ret None
       | Yes => match name_atom n with
                | Some a => ret (Some (Ck_Strict (ContextualKeyword location a)))
                | None => panic_at P_unwrap
                end
       | Unknown => match name_atom n with
                    | Some a => ret (Some (Ck_Module (ContextualKeyword location a)))
                    | None => panic_at P_unwrap
                    end
       end.

(** src/parser.rs:571-590 [new_id] *)
Definition new_id (binding : bool) (n : name) (location : span) : P id :=
  strict_check (id_check binding n location) ;;;
  ret (id_new n (Some location)).

(** src/parser.rs:564-569 [new_id_from_token] *)
Definition new_id_from_token (binding : bool) (t : token) : P id :=
  match as_ident t with
  | Some n => new_id binding n (tk_loc t)
  | None => panic_at P_unreachable
  end.

Section WithEnv.
Context (V : env).
Context (R : recs).
Notation peek := (p_peek V).
Notation peek_op := (p_peek_op V).
Notation read := (p_read V).
Notation read_op := (p_read_op V).
Notation unread := p_unread.
Notation expect := (p_expect V).
Notation matches := (p_matches V).
Notation matches_op := (p_matches_op V).
Notation matches_token := (p_matches_token V).
Notation reread := p_reread.
Notation loop := (loopM (r_fuel R)).

(** src/parser.rs:954-962 [more_comma] *)
Definition more_comma {A} (first : A) (f : P A) : P (list A) :=
  loop (fun items =>
          b <- matches (TPunc T_Comma) ;;
          if b then x <- f ;; ret (inl (items ++ [x])) else ret (inr items)) [first].

(** src/parser.rs:947-952 [comma_separated] *)
Definition comma_separated {A} (f : P A) : P (list A) :=
  first <- f ;; more_comma first f.

(** src/parser.rs:592-602 [id] *)
Definition p_id (binding : bool) : P id :=
  t <- read ;;
  match as_ident t with
  | Some n => new_id binding n (tk_loc t)
  | None => err (UnexpectedToken t)
  end.

(** src/parser.rs:604-613 [id_opt] *)
Definition p_id_opt (binding : bool) : P (option id) :=
  t <- read ;;
  match as_ident t with
  | Some n => i <- new_id binding n (tk_loc t) ;; ret (Some i)
  | None => unread t ;;; ret None
  end.

(** src/parser.rs:381-386 [binding_pattern] *)
Definition binding_pattern : P (cpatt id) :=
  t <- peek ;;
  if negb (first_binding t) then unexpected
  else err (UnsupportedFeature (lit "destructuring")).

(** src/parser.rs:368-379 [pattern] *)
Definition pattern_ : P (patt id) :=
  t <- peek ;;
  match as_ident t with
  | Some _ => i <- p_id true ;; ret (Simple i)
  | None => p <- binding_pattern ;; ret (Compound p)
  end.

(** ** Expressions *)

(** src/parser.rs:1687-1694 [more_expressions] *)
Definition more_expressions (first : expr) : P expr :=
  t <- peek ;;
  if negb (is_t t (TPunc T_Comma)) then ret first
  else elts <- more_comma first (r_assign R) ;;
       location <- p_vec_span (map expr_loc elts) ;;
       ret (E_Seq location elts).

(** src/parser.rs:1682-1685 [expression] *)
Definition expression : P expr :=
  first <- r_assign R ;; more_expressions first.

(** src/parser.rs:1150-1155 [paren_expression] *)
Definition paren_expression : P expr :=
  expect (TPunc T_LParen) ;;;
  result <- p_allow_in true expression ;;
  expect (TPunc T_RParen) ;;;
  ret result.

(** ** Functions *)

(** src/parser.rs:331-366 [formal_parameters] *)
Definition formal_parameters : P params :=
  p_span params_set_loc (
    expect (TPunc T_LParen) ;;;
    '(list, rest) <- loop (fun list =>
        t <- peek ;;
        if is_t t (TPunc T_RParen) then ret (inr (list, None))
        else if is_t t (TPunc T_Ellipsis) then
          r <- p_span rest_set_loc (
                 reread (TPunc T_Ellipsis) ;;;
                 p <- pattern_ ;;
                 ret (RestPatt None p)) ;;
          ret (inr (list, Some r))
        else
          p <- pattern_ ;;
          b <- matches (TPunc T_Comma) ;;
          if b then ret (inl (list ++ [p])) else ret (inr (list ++ [p], None))) [] ;;
    expect (TPunc T_RParen) ;;;
    ret (Params None list rest)).

(** src/parser.rs:166-182 [match_directive_opt] *)
Definition match_directive_opt : P (option dir) :=
  start <- p_posn ;;
  token1 <- read ;;
  match tk_value token1 with
  | TString literal =>
      t <- peek ;;
      if negb (expression_continuation t) then
        d <- end_with_auto_semi V (fun d l => Dir l (dir_string d) (dir_semi d)) start NL_Required
               (fun semi => Dir None literal semi) ;;
        ret (Some d)
      else unread token1 ;;; ret None
  | _ => unread token1 ;;; ret None
  end.

(** src/parser.rs:245-253: the effect of one directive *)
Definition apply_pragma (d : dir) : P unit :=
  if str_eqb (dir_pragma d) (lit "use strict") then modify_context (set_strict Yes)
  else if str_eqb (dir_pragma d) (lit "use module") then
    c <- get_context ;;
    if negb (cx_function c) then set_module else ret tt
  else ret tt.

(** src/parser.rs:241-258 [body_directives] *)
Definition body_directives : P (list dir) :=
  loop (fun dirs =>
          o <- match_directive_opt ;;
          match o with
          | Some d => apply_pragma d ;;; ret (inl (dirs ++ [d]))
          | None => ret (inr dirs)
          end) [].

(** src/parser.rs:316-323 [statement_list] *)
Definition statement_list : P (list item) :=
  loop (fun items =>
          t <- peek ;;
          if follow_statement_list t then ret (inr items)
          else i <- r_item R true ;; ret (inl (items ++ [i]))) [].

(** src/parser.rs:231-239 [script_body] *)
Definition script_body : P script :=
  p_span body_set_loc (
    dirs <- body_directives ;;
    items <- statement_list ;;
    ret (Body None dirs items)).

(** src/parser.rs:434-443: the check made after a function body *)
Fixpoint first_compound (ps : list (patt id)) : option (cpatt id) :=
  match ps with
  | [] => None
  | Compound c :: _ => Some c
  | Simple _ :: ps' => first_compound ps'
  end.
Definition body_check (b : script) (ps : list (patt id)) : P (option check) :=
  ret (if existsb (fun d => str_eqb (dir_pragma d) (lit "use strict")) (bo_dirs b)
       then match first_compound ps with
            | Some c => Some (Ck_Strict (CompoundParamWithUseStrict c))
            | None => None
            end
       else None).

(** src/parser.rs:428-447 [function_body] *)
Definition function_body (ps : list (patt id)) : P script :=
  outer <- get_context ;;
  modify_context context_new_function ;;;
  expect (TPunc T_LBrace) ;;;
  b <- script_body ;;
  strict_check (body_check b ps) ;;;
  expect (TPunc T_RBrace) ;;;
  modify_context (fun _ => outer) ;;;
  ret b.

(** src/parser.rs:415-426 [function] *)
Definition function_ {I} (get_id : P I) : P (func I (body item)) :=
  p_span func_set_loc (
    reread (TReserved R_Function) ;;;
    generator <- matches (TPunc T_Star) ;;
    i <- get_id ;;
    ps <- formal_parameters ;;
    b <- function_body (pa_list ps) ;;
    ret (Fun None i ps b generator)).

(** src/parser.rs:325-329 [function_declaration] *)
Definition function_declaration : P decl :=
  p_span decl_set_loc (f <- function_ (p_id true) ;; ret (D_Fun f)).

(** ** Primary expressions *)

(** src/parser.rs:1214-1227 [expr_list_item] *)
Definition expr_list_item : P eli :=
  t <- peek ;;
  if is_t t (TPunc T_Ellipsis) then
    p_span eli_set_loc (
      reread (TPunc T_Ellipsis) ;;;
      e <- r_assign R ;;
      ret (L_Spread None e))
  else e <- r_assign R ;; ret (L_Expr e).

(** src/parser.rs:1229-1234 [array_element] *)
Definition array_element : P (option eli) :=
  t <- peek ;;
  if is_t t (TPunc T_Comma) then ret None
  else e <- expr_list_item ;; ret (Some e).

(** src/parser.rs:1195-1212 [array_literal] *)
Definition array_literal (start : token) : P expr :=
  p_allow_in true (
    elts <- loop (fun elts =>
        t <- peek ;;
        if is_t t (TPunc T_RBrack) then ret (inr elts)
        else
          e <- array_element ;;
          b <- matches (TPunc T_Comma) ;;
          if b then ret (inl (elts ++ [e])) else ret (inr (elts ++ [e]))) [] ;;
    e <- expect (TPunc T_RBrack) ;;
    ret (E_Arr (span_of (Some (tk_loc start)) (Some (tk_loc e))) elts)).

(** src/parser.rs:1252-1279 [more_prop_init] *)
Definition more_prop_init (key : prop_key) : P prop :=
  t <- peek ;;
  if is_t t (TPunc T_Colon) then
    p_skip V ;;;
    val <- p_allow_in true (r_assign R) ;;
    ret (Pr_Regular (span_of (prop_key_loc key) (expr_loc val)) key (PV_Init val))
  else if is_t t (TPunc T_LParen) then
    ps <- formal_parameters ;;
    b <- function_body (pa_list ps) ;;
    ret (Pr_Method (Fun (span_of (prop_key_loc key) (bo_loc b)) key ps b false))
  else if is_t t (TPunc T_Comma) || is_t t (TPunc T_RBrace) then
    match key with
    | PK_Id (Some location) n =>
        i <- new_id false (name_from n) location ;; ret (Pr_Shorthand i)
    | PK_Id None n => panic_at P_unwrap
    | _ => unexpected
    end
  else unexpected.

(** src/parser.rs:1284-1288: the property key denoted by a token *)
Definition token_prop_key (t : token) : option prop_key :=
  match tk_value t with
  | TIdent n => Some (PK_Id (Some (tk_loc t)) (name_string n))
  | TReserved w => Some (PK_Id (Some (tk_loc t)) (reserved_name w))
  | TString s => Some (PK_String (Some (tk_loc t)) s)
  | TNumber n => Some (PK_Number (Some (tk_loc t)) n)
  | _ => None
  end.

(** src/parser.rs:1281-1294 [property_key_opt] *)
Definition property_key_opt : P (option prop_key) :=
  t <- read ;;
  match token_prop_key t with
  | Some k => ret (Some k)
  | None => unread t ;;; ret None
  end.

(** src/parser.rs:1296-1301 [property_key] *)
Definition property_key : P prop_key :=
  o <- property_key_opt ;;
  match o with Some k => ret k | None => unexpected end.

(** A token [TokenData::Reserved(_)]. *)
Definition is_reserved (t : token) : bool :=
  match tk_value t with TReserved _ => true | _ => false end.

(** src/parser.rs:1303-1361 [object_property] *)
Definition object_property : P prop :=
  first <- read ;;
  if is_t first (TIdent (NAtom A_Get)) then
    o <- property_key_opt ;;
    match o with
    | Some key =>
        paren <- expect (TPunc T_LParen) ;;
        expect (TPunc T_RParen) ;;;
        b <- function_body [] ;;
        ret (Pr_Regular (span_of (prop_key_loc key) (bo_loc b)) key
               (PV_Get (span_of (Some (tk_loc paren)) (bo_loc b)) b))
    | None => more_prop_init (PK_Id (Some (tk_loc first)) (lit "get"))
    end
  else if is_t first (TIdent (NAtom A_Set)) then
    o <- property_key_opt ;;
    match o with
    | Some key =>
        paren <- expect (TPunc T_LParen) ;;
        param <- pattern_ ;;
        expect (TPunc T_RParen) ;;;
        b <- function_body [param] ;;
        ret (Pr_Regular (span_of (prop_key_loc key) (bo_loc b)) key
               (PV_Set (span_of (Some (tk_loc paren)) (bo_loc b)) param b))
    | None => more_prop_init (PK_Id (Some (tk_loc first)) (lit "set"))
    end
  else if is_t first (TPunc T_Star) then
    key <- property_key ;;
    ps <- formal_parameters ;;
    b <- function_body (pa_list ps) ;;
    ret (Pr_Method (Fun (span_of (prop_key_loc key) (bo_loc b)) key ps b true))
  else if is_reserved first then
    t <- peek ;;
    if is_t t (TPunc T_Comma) || is_t t (TPunc T_RBrace) then err (UnexpectedToken first)
    else unread first ;;; key <- property_key ;; more_prop_init key
  else unread first ;;; key <- property_key ;; more_prop_init key.

(** src/parser.rs:1236-1250 [object_literal] *)
Definition object_literal (start : token) : P expr :=
  props <- loop (fun props =>
      t <- peek ;;
      if is_t t (TPunc T_RBrace) then ret (inr props)
      else
        p <- object_property ;;
        b <- matches (TPunc T_Comma) ;;
        if b then ret (inl (props ++ [p])) else ret (inr (props ++ [p]))) [] ;;
  e <- expect (TPunc T_RBrace) ;;
  ret (E_Obj (span_of (Some (tk_loc start)) (Some (tk_loc e))) props).

(** src/parser.rs:1173-1179: the expressions consisting of one token *)
Definition token_literal (t : token) : option expr :=
  match tk_value t with
  | TReserved R_Null => Some (E_Null (Some (tk_loc t)))
  | TReserved R_This => Some (E_This (Some (tk_loc t)))
  | TReserved R_True => Some (E_True (Some (tk_loc t)))
  | TReserved R_False => Some (E_False (Some (tk_loc t)))
  | TNumber l => Some (E_Number (Some (tk_loc t)) l)
  | TString l => Some (E_String (Some (tk_loc t)) l)
  | TRegExp l => Some (E_RegExp (Some (tk_loc t)) l)
  | _ => None
  end.

(** src/parser.rs:1168-1193 [primary_expression] *)
Definition primary_expression : P expr :=
  t <- read ;;
  match as_ident t with
  | Some n => i <- new_id false n (tk_loc t) ;; ret (E_Id i)
  | None =>
      match token_literal t with
      | Some e => ret e
      | None =>
          if is_t t (TPunc T_LBrack) then array_literal t
          else if is_t t (TPunc T_LBrace) then object_literal t
          else if is_t t (TReserved R_Function) then
            unread t ;;; f <- function_ (p_id_opt true) ;; ret (E_Fun f)
          else if is_t t (TPunc T_LParen) then unread t ;;; paren_expression
          else err (UnexpectedToken t)
      end
  end.

(** ** Left-hand sides *)

(** src/parser.rs:1366-1373 [member_base_expression] *)
Definition member_base_expression : P expr :=
  o <- matches_token (TReserved R_New) ;;
  match o with
  | Some new =>
      expect (TPunc T_Dot) ;;;
      target <- expect (TIdent (NAtom A_Target)) ;;
      ret (E_NewTarget (span_of (Some (tk_loc new)) (Some (tk_loc target))))
  | None => primary_expression
  end.

(** src/parser.rs:1421-1436 [arguments] *)
Definition arguments_ : P arguments :=
  p_allow_in true (
    expect (TPunc T_LParen) ;;;
    t <- peek ;;
    args <- (if negb (is_t t (TPunc T_RParen)) then
               loop (fun args =>
                       a <- expr_list_item ;;
                       b <- matches (TPunc T_Comma) ;;
                       if b then ret (inl (args ++ [a])) else ret (inr (args ++ [a]))) []
             else ret []) ;;
    e <- expect (TPunc T_RParen) ;;
    ret (Arguments_ args e)).

(** src/parser.rs:1449-1454 [deref_brack] *)
Definition deref_brack : P deref :=
  reread (TPunc T_LBrack) ;;;
  e <- p_allow_in true expression ;;
  end_ <- expect (TPunc T_RBrack) ;;
  ret (De_Brack e end_).

(** src/parser.rs:1456-1466 [id_name] *)
Definition id_name_ : P dot_key :=
  t <- read ;;
  match tk_value t with
  | TIdent n => ret (DotKey (Some (tk_loc t)) (name_string n))
  | TReserved w => ret (DotKey (Some (tk_loc t)) (reserved_name w))
  | _ => err (UnexpectedToken t)
  end.

(** src/parser.rs:1468-1471 [deref_dot] *)
Definition deref_dot : P deref :=
  reread (TPunc T_Dot) ;;; k <- id_name_ ;; ret (De_Dot k).

(** src/parser.rs:1441-1447 [deref_opt] *)
Definition deref_opt : P (option deref) :=
  t <- peek_op ;;
  if is_t t (TPunc T_LBrack) then d <- deref_brack ;; ret (Some d)
  else if is_t t (TPunc T_Dot) then d <- deref_dot ;; ret (Some d)
  else ret None.

(** src/parser.rs:1411-1418 [suffix_opt] *)
Definition suffix_opt : P (option suffix) :=
  t <- peek_op ;;
  if is_t t (TPunc T_Dot) then d <- deref_dot ;; ret (Some (Su_Deref d))
  else if is_t t (TPunc T_LBrack) then d <- deref_brack ;; ret (Some (Su_Deref d))
  else if is_t t (TPunc T_LParen) then a <- arguments_ ;; ret (Some (Su_Arguments a))
  else ret None.

(** src/parser.rs:1474-1479 [more_suffixes] *)
Definition more_suffixes (result : expr) : P expr :=
  loop (fun result =>
          o <- suffix_opt ;;
          match o with
          | Some s => ret (inl (suffix_append_to s result))
          | None => ret (inr result)
          end) result.

(** src/parser.rs:1387-1396: supply the [new]s, innermost first, with arguments *)
Fixpoint apply_news (has_args : bool) (news : list token) (base : expr) : P expr :=
  match news with
  | [] => ret base
  | new :: news' =>
      has_args <- (if has_args then t <- peek_op ;; ret (is_t t (TPunc T_LParen)) else ret false) ;;
      base <- (if has_args : bool then
                 a <- arguments_ ;; ret (arguments_append_to_new a new base)
               else ret (E_New (span_of (Some (tk_loc new)) (expr_loc base)) base None)) ;;
      apply_news has_args news' base
  end.

(** src/parser.rs:1383-1398 [more_new_expression] *)
Definition more_new_expression (news : list token) (base : expr) : P expr :=
  base <- loop (fun base =>
            o <- deref_opt ;;
            match o with
            | Some d => ret (inl (deref_append_to d base))
            | None => ret (inr base)
            end) base ;;
  base <- apply_news true (rev news) base ;;
  more_suffixes base.

(** src/parser.rs:1376-1380 [new_expression] *)
Definition new_expression (news : list token) : P expr :=
  base <- member_base_expression ;; more_new_expression news base.

(** src/parser.rs:1402-1406 [call_expression] *)
Definition call_expression : P expr :=
  base <- primary_expression ;; more_suffixes base.

(** src/parser.rs:1485-1488: the leading [new] tokens *)
Definition read_news : P (list token) :=
  loop (fun news =>
          t <- peek ;;
          if is_t t (TReserved R_New) then
            n <- reread (TReserved R_New) ;; ret (inl (news ++ [n]))
          else ret (inr news)) [].

(** src/parser.rs:1484-1506 [lhs_expression] *)
Definition lhs_expression : P expr :=
  news <- read_news ;;
  match rev news with
  | [] => call_expression
  | new :: news' =>
      b <- matches_op (TPunc T_Dot) ;;
      if b : bool then
        target <- expect (TIdent (NAtom A_Target)) ;;
        let new_target := E_NewTarget (span_of (Some (tk_loc new)) (Some (tk_loc target))) in
        match news' with
        | _ :: _ => more_new_expression (rev news') new_target
        | [] => more_suffixes new_target
        end
      else new_expression news
  end.

(** ** Operators *)

(** src/parser.rs:1578-1587: the unary operator denoted by a token *)
Definition token_unop (t : token) : option unop_tag :=
  match tk_value t with
  | TReserved R_Delete => Some Un_Delete
  | TReserved R_Void => Some Un_Void
  | TReserved R_Typeof => Some Un_Typeof
  | TPunc T_Plus => Some Un_Plus
  | TPunc T_Minus => Some Un_Minus
  | TPunc T_Tilde => Some Un_BitNot
  | TPunc T_Bang => Some Un_Not
  | _ => None
  end.

(** src/parser.rs:1576-1589 [match_unop] *)
Definition match_unop : P (option unop) :=
  t <- read ;;
  match token_unop t with
  | Some tag => ret (Some (Op (Some (tk_loc t)) tag))
  | None => unread t ;;; ret None
  end.

(** src/parser.rs:1556-1566 [match_prefix] *)
Definition match_prefix : P (option prefix) :=
  t <- read ;;
  if is_t t (TPunc T_Inc) then ret (Some (Pre_Inc (tk_loc t)))
  else if is_t t (TPunc T_Dec) then ret (Some (Pre_Dec (tk_loc t)))
  else unread t ;;; o <- match_unop ;; ret (option_map Pre_Unop o).

(** src/parser.rs:1594-1605 [match_postfix_operator_opt] *)
Definition match_postfix_operator_opt : P (option postfix) :=
  t <- read_op ;;
  if negb (tk_newline t) && is_t t (TPunc T_Inc) then ret (Some (Post_Inc (tk_loc t)))
  else if negb (tk_newline t) && is_t t (TPunc T_Dec) then ret (Some (Post_Dec (tk_loc t)))
  else unread t ;;; ret None.

(** [into_assign_target] and [into_assign_patt] with the error wrapped as
    [Error::InvalidLHS] (src/parser.rs:1517-1526, 1535-1545, 1636-1641, ...) *)
Definition to_target (e : expr) : P target :=
  match into_assign_target e with
  | inl c => err (InvalidLHS (expr_loc e) c)
  | inr t => ret t
  end.
Definition to_patt (e : expr) : P (patt target) :=
  match into_assign_patt e with
  | inl c => err (InvalidLHS (expr_loc e) c)
  | inr t => ret t
  end.

(** src/parser.rs:1516-1527: apply a postfix operator *)
Definition apply_postfix (p : postfix) (arg : expr) : P expr :=
  target <- to_target arg ;;
  ret (match p with
       | Post_Inc l => E_PostInc (Some l) target
       | Post_Dec l => E_PostDec (Some l) target
       end).

(** src/parser.rs:1528-1548: apply the prefixes, innermost first *)
Fixpoint apply_prefixes (ps : list prefix) (arg : expr) : P expr :=
  match ps with
  | [] => ret arg
  | Pre_Unop o :: ps' => apply_prefixes ps' (E_Unop (span_of (op_loc o) (expr_loc arg)) o arg)
  | Pre_Inc l :: ps' => t <- to_target arg ;; apply_prefixes ps' (E_PreInc (Some l) t)
  | Pre_Dec l :: ps' => t <- to_target arg ;; apply_prefixes ps' (E_PreDec (Some l) t)
  end.

(** src/parser.rs:1511-1514: the prefixes *)
Definition read_prefixes : P (list prefix) :=
  loop (fun ps =>
          o <- match_prefix ;;
          match o with
          | Some p => ret (inl (ps ++ [p]))
          | None => ret (inr ps)
          end) [].

(** src/parser.rs:1510-1550 [unary_expression] *)
Definition unary_expression : P expr :=
  prefixes <- read_prefixes ;;
  arg <- lhs_expression ;;
  o <- match_postfix_operator_opt ;;
  arg <- (match o with Some p => apply_postfix p arg | None => ret arg end) ;;
  apply_prefixes (rev prefixes) arg.

(** src/parser.rs:1671-1673: the infix operator denoted by a token *)
Definition token_infix (t : token) (allow_in : bool) : option infix :=
  match to_binop t allow_in with
  | Some o => Some (In_Binop o)
  | None => option_map In_Logop (to_logop t)
  end.

(** src/parser.rs:1669-1678 [match_infix] *)
Definition match_infix : P (option infix) :=
  t <- read_op ;;
  c <- get_context ;;
  match token_infix t (cx_allow_in c) with
  | Some o => ret (Some o)
  | None => unread t ;;; ret None
  end.

(** src/parser.rs:1658-1667 [more_infix_expressions] *)
Definition more_infix_expressions (left : expr) : P expr :=
  loop (fun '(stack, operand) =>
          o <- match_infix ;;
          match o with
          | Some op =>
              let stack := stack_extend stack operand op in
              operand <- unary_expression ;;
              ret (inl (stack, operand))
          | None => ret (inr (stack_finish stack operand))
          end) (stack_new, left).

(** src/parser.rs:1615-1624 [more_conditional] *)
Definition more_conditional (left : expr) : P expr :=
  b <- matches_op (TPunc T_Question) ;;
  if b : bool then
    cons <- p_allow_in true (r_assign R) ;;
    expect (TPunc T_Colon) ;;;
    alt <- r_assign R ;;
    ret (E_Cond (span_of (expr_loc cons) (expr_loc alt)) left cons alt)
  else ret left.

(** src/parser.rs:1609-1613 [conditional_expression] *)
Definition conditional_expression : P expr :=
  left <- unary_expression ;;
  test <- more_infix_expressions left ;;
  more_conditional test.

(** src/parser.rs:1634-1656 [more_assignment] *)
Definition more_assignment (left : expr) : P expr :=
  t <- read_op ;;
  if is_t t (TPunc T_Assign) then
    lhs <- to_patt left ;;
    right <- r_assign R ;;
    ret (E_Assign (span_of (patt_target_loc lhs) (expr_loc right)) lhs right)
  else match to_assop t with
       | Some op =>
           lhs <- to_target left ;;
           right <- r_assign R ;;
           ret (E_BinAssign (span_of (target_loc lhs) (expr_loc right)) op lhs right)
       | None => unread t ;;; ret left
       end.

(** src/parser.rs:1629-1632 [assignment_expression] *)
Definition assignment_expression : P expr :=
  left <- conditional_expression ;; more_assignment left.

(** ** Statements *)

(** src/parser.rs:501-506 [statement] *)
Definition statement : P stmt :=
  i <- r_item R false ;;
  match i with
  | I_Stmt s => ret s
  | I_Decl _ => panic_at P_unreachable
  end.

(** src/parser.rs:513-520: the labels after the first *)
Definition more_labels (first : id) : P (list id) :=
  loop (fun labels =>
          t <- peek ;;
          match as_ident t with
          | Some _ =>
              t <- p_reread_token ;;
              b <- matches_op (TPunc T_Colon) ;;
              if b : bool then
                i <- new_id_from_token false t ;; ret (inl (labels ++ [i]))
              else unread t ;;; ret (inr labels)
          | None => ret (inr labels)
          end) [first].

(** src/parser.rs:508-524 [labelled_statement] *)
Definition labelled_statement (i : id) : P stmt :=
  reread (TPunc T_Colon) ;;;
  labels <- more_labels i ;;
  t <- peek ;;
  with_labels labels (token_label_type t) statement.

(** src/parser.rs:526-530 [expression_statement] *)
Definition expression_statement : P stmt :=
  start <- p_posn ;;
  e <- p_allow_in true expression ;;
  end_with_auto_semi V stmt_set_loc start NL_Required (fun semi => S_Expr None e semi).

(** src/parser.rs:532-542 [block] *)
Definition block_ : P block :=
  p_span block_set_loc (
    expect (TPunc T_LBrace) ;;;
    items <- statement_list ;;
    expect (TPunc T_RBrace) ;;;
    ret (Block None items)).

(** src/parser.rs:615-635 [declarator] *)
Definition declarator : P dtor :=
  p_span dtor_set_loc (
    t <- peek ;;
    match as_ident t with
    | Some _ =>
        i <- p_id true ;;
        b <- matches (TPunc T_Assign) ;;
        init <- (if b : bool then e <- r_assign R ;; ret (Some e) else ret None) ;;
        ret (Dt_Simple None i init)
    | None =>
        lhs <- binding_pattern ;;
        expect (TPunc T_Assign) ;;;
        rhs <- r_assign R ;;
        ret (Dt_Compound None lhs rhs)
    end).

(** src/parser.rs:637-642 [const_declarator] *)
Definition const_declarator : P const_dtor :=
  lhs <- pattern_ ;;
  expect (TPunc T_Assign) ;;;
  rhs <- r_assign R ;;
  ret (const_dtor_from_init lhs rhs).

(** src/parser.rs:544-549 [var_statement] *)
Definition var_statement : P stmt :=
  start <- p_posn ;;
  reread (TReserved R_Var) ;;;
  ds <- comma_separated declarator ;;
  end_with_auto_semi V stmt_set_loc start NL_Required (fun semi => S_Var None ds semi).

(** src/parser.rs:551-555 [let_declaration] *)
Definition let_declaration (start : posn) : P decl :=
  ds <- comma_separated declarator ;;
  end_with_auto_semi V decl_set_loc start NL_Required (fun semi => D_Let None ds semi).

(** src/parser.rs:557-562 [const_declaration] *)
Definition const_declaration : P decl :=
  start <- p_posn ;;
  reread (TReserved R_Const) ;;;
  ds <- comma_separated const_declarator ;;
  end_with_auto_semi V decl_set_loc start NL_Required (fun semi => D_Const None ds semi).

(** src/parser.rs:644-649 [empty_statement] *)
Definition empty_statement : P stmt :=
  p_span stmt_set_loc (expect (TPunc T_Semi) ;;; ret (S_Empty None)).

(** src/parser.rs:651-664 [if_statement] *)
Definition if_statement : P stmt :=
  p_span stmt_set_loc (
    expect (TReserved R_If) ;;;
    test <- paren_expression ;;
    cons <- statement ;;
    t <- peek ;;
    alt <- (if is_t t (TReserved R_Else) then
              reread (TReserved R_Else) ;;; s <- statement ;; ret (Some s)
            else ret None) ;;
    ret (S_If None test cons alt)).

(** src/parser.rs:666-671 [iteration_body] *)
Definition iteration_body : P stmt :=
  c <- get_context ;;
  modify_context (set_iteration true) ;;;
  result <- statement ;;
  modify_context (set_iteration (cx_iteration c)) ;;;
  ret result.

(** src/parser.rs:673-682 [do_statement] *)
Definition do_statement : P stmt :=
  start <- p_posn ;;
  reread (TReserved R_Do) ;;;
  b <- iteration_body ;;
  expect (TReserved R_While) ;;;
  test <- paren_expression ;;
  end_with_auto_semi V stmt_set_loc start NL_Optional (fun semi => S_DoWhile None b test semi).

(** src/parser.rs:684-691 [while_statement] *)
Definition while_statement : P stmt :=
  p_span stmt_set_loc (
    reread (TReserved R_While) ;;;
    test <- paren_expression ;;
    b <- iteration_body ;;
    ret (S_While None test b)).

(** src/parser.rs:937-945 [expression_opt_semi] *)
Definition expression_opt_semi : P (option expr) :=
  b <- matches (TPunc T_Semi) ;;
  if b : bool then ret None
  else
    e <- p_allow_in true expression ;;
    expect (TPunc T_Semi) ;;;
    ret (Some e).

(** src/parser.rs:908-919 [more_for] *)
Definition more_for (head : option for_head) : P stmt :=
  test <- expression_opt_semi ;;
  b <- matches (TPunc T_RParen) ;;
  update <- (if b : bool then ret None
             else
               node <- p_allow_in true expression ;;
               expect (TPunc T_RParen) ;;;
               ret (Some node)) ;;
  b <- iteration_body ;;
  ret (S_For None head test update b).

(** src/parser.rs:922-927 [more_for_in] *)
Definition more_for_in (head : for_in_head) : P stmt :=
  obj <- p_allow_in true (r_assign R) ;;
  expect (TPunc T_RParen) ;;;
  b <- iteration_body ;;
  ret (S_ForIn None head obj b).

(** src/parser.rs:930-935 [more_for_of] *)
Definition more_for_of (head : for_of_head) : P stmt :=
  obj <- p_allow_in true (r_assign R) ;;
  expect (TPunc T_RParen) ;;;
  b <- iteration_body ;;
  ret (S_ForOf None head obj b).

(** src/parser.rs:896-905 [more_for_head] *)
Definition more_for_head (start : loc) (d : dtor) (op : loc -> list dtor -> for_head) : P stmt :=
  ds <- p_allow_in false (more_comma d declarator) ;;
  semi <- expect (TPunc T_Semi) ;;
  more_for (Some (op (span_of start (Some (tk_loc semi))) ds)).

(** src/parser.rs:863-893 [for_expr] *)
Definition for_expr : P stmt :=
  lhs <- p_allow_in false expression ;;
  t <- peek ;;
  if is_t t (TPunc T_Semi) then
    semi <- reread (TPunc T_Semi) ;;
    more_for (Some (FH_Expr (span_of (expr_loc lhs) (Some (tk_loc semi))) lhs))
  else if is_t t (TReserved R_In) then
    reread (TReserved R_In) ;;;
    p <- to_patt lhs ;;
    more_for_in (FI_Patt p)
  else if is_t t (TIdent (NAtom A_Of)) then
    reread (TIdent (NAtom A_Of)) ;;;
    p <- to_patt lhs ;;
    more_for_of (FO_Patt p)
  else unexpected.

(** src/parser.rs:711-774 [for_var] *)
Definition for_var : P stmt :=
  var <- reread (TReserved R_Var) ;;
  let var_location := Some (tk_loc var) in
  lhs <- pattern_ ;;
  t <- peek ;;
  if is_t t (TPunc T_Assign) then
    reread (TPunc T_Assign) ;;;
    match lhs with
    | Simple i =>
        rhs <- p_allow_in false (r_assign R) ;;
        t <- peek ;;
        if is_t t (TPunc T_Comma) || is_t t (TPunc T_Semi) then
          more_for_head var_location (dtor_from_simple_init i rhs) FH_Var
        else if is_t t (TReserved R_In) then
          reread (TReserved R_In) ;;;
          more_for_in (FI_VarInit (span_of var_location (expr_loc rhs)) i rhs)
        else unexpected
    | Compound p =>
        rhs <- p_allow_in false (r_assign R) ;;
        more_for_head var_location (dtor_from_compound_init p rhs) FH_Var
    end
  else if is_t t (TPunc T_Comma) || is_t t (TPunc T_Semi) then
    match dtor_from_init_opt lhs None with
    | inl d => more_for_head var_location d FH_Var
    | inr _ => unexpected
    end
  else if is_t t (TReserved R_In) then
    reread (TReserved R_In) ;;;
    more_for_in (FI_Var (span_of var_location (patt_id_loc lhs)) lhs)
  else if is_t t (TIdent (NAtom A_Of)) then
    reread (TIdent (NAtom A_Of)) ;;;
    more_for_of (FO_Var (span_of var_location (patt_id_loc lhs)) lhs)
  else unexpected.

(** src/parser.rs:777-822 [for_let] *)
Definition for_let : P stmt :=
  let_ <- reread (TIdent (NAtom A_Let)) ;;
  t <- peek ;;
  if negb (first_binding t) then unread let_ ;;; for_expr
  else
    let let_location := Some (tk_loc let_) in
    lhs <- pattern_ ;;
    t <- peek ;;
    if is_t t (TPunc T_Assign) then
      reread (TPunc T_Assign) ;;;
      rhs <- p_allow_in false (r_assign R) ;;
      more_for_head let_location (dtor_from_init lhs rhs) FH_Let
    else if is_t t (TPunc T_Comma) || is_t t (TPunc T_Semi) then
      match dtor_from_init_opt lhs None with
      | inl d => more_for_head let_location d FH_Let
      | inr _ => unexpected
      end
    else if is_t t (TReserved R_In) then
      reread (TReserved R_In) ;;;
      more_for_in (FI_Let (span_of let_location (patt_id_loc lhs)) lhs)
    else if is_t t (TIdent (NAtom A_Of)) then
      reread (TIdent (NAtom A_Of)) ;;;
      more_for_of (FO_Let (span_of let_location (patt_id_loc lhs)) lhs)
    else unexpected.

(** src/parser.rs:825-861 [for_const] *)
Definition for_const : P stmt :=
  const <- reread (TReserved R_Const) ;;
  t <- peek ;;
  if negb (first_binding t) then unread const ;;; for_expr
  else
    let const_location := Some (tk_loc const) in
    lhs <- pattern_ ;;
    t <- peek ;;
    if is_t t (TPunc T_Assign) then
      reread (TPunc T_Assign) ;;;
      ds <- p_allow_in false (
              rhs <- r_assign R ;;
              more_comma (const_dtor_from_init lhs rhs) const_declarator) ;;
      semi <- expect (TPunc T_Semi) ;;
      more_for (Some (FH_Const (span_of const_location (Some (tk_loc semi))) ds))
    else if is_t t (TReserved R_In) then
      reread (TReserved R_In) ;;;
      more_for_in (FI_Const (span_of const_location (patt_id_loc lhs)) lhs)
    else if is_t t (TIdent (NAtom A_Of)) then
      reread (TIdent (NAtom A_Of)) ;;;
      more_for_of (FO_Const (span_of const_location (patt_id_loc lhs)) lhs)
    else unexpected.

(** src/parser.rs:693-708 [for_statement] *)
Definition for_statement : P stmt :=
  p_span stmt_set_loc (
    reread (TReserved R_For) ;;;
    expect (TPunc T_LParen) ;;;
    t <- peek ;;
    if is_t t (TReserved R_Var) then for_var
    else if is_t t (TIdent (NAtom A_Let)) then for_let
    else if is_t t (TReserved R_Const) then for_const
    else if is_t t (TPunc T_Semi) then reread (TPunc T_Semi) ;;; more_for None
    else for_expr).

(** src/parser.rs:997-1005 [case] *)
Definition case_ : P case :=
  p_span case_set_loc (
    reread (TReserved R_Case) ;;;
    test <- p_allow_in true expression ;;
    expect (TPunc T_Colon) ;;;
    b <- statement_list ;;
    ret (Case None (Some test) b)).

(** src/parser.rs:1007-1014 [default] *)
Definition default_ : P case :=
  p_span case_set_loc (
    reread (TReserved R_Default) ;;;
    expect (TPunc T_Colon) ;;;
    b <- statement_list ;;
    ret (Case None None b)).

(** src/parser.rs:975-995 [switch_cases] *)
Definition switch_cases : P (list case) :=
  expect (TPunc T_LBrace) ;;;
  cases <- loop (fun '(cases, found_default) =>
      t <- peek ;;
      if is_t t (TReserved R_Case) then
        c <- case_ ;; ret (inl (cases ++ [c], found_default))
      else if is_t t (TReserved R_Default) then
        if found_default : bool then
          t <- reread (TReserved R_Default) ;; err (DuplicateDefault t)
        else c <- default_ ;; ret (inl (cases ++ [c], true))
      else ret (inr cases)) ([], false) ;;
  expect (TPunc T_RBrace) ;;;
  ret cases.

(** src/parser.rs:964-973 [switch_statement] *)
Definition switch_statement : P stmt :=
  p_span stmt_set_loc (
    reread (TReserved R_Switch) ;;;
    disc <- paren_expression ;;
    c <- get_context ;;
    modify_context (set_switch true) ;;;
    cases <- switch_cases ;;
    modify_context (set_switch (cx_switch c)) ;;;
    ret (S_Switch None disc cases)).

(** src/parser.rs:1016-1034 [break_statement] *)
Definition break_statement : P stmt :=
  start <- p_posn ;;
  break <- reread (TReserved R_Break) ;;
  h <- p_has_arg_same_line V ;;
  arg <- (if h : bool then
            i <- p_id false ;;
            c <- get_context ;;
            match labels_get (cx_labels c) (id_name i) with
            | None => err (InvalidLabel i)
            | Some _ => ret (Some i)
            end
          else
            c <- get_context ;;
            if negb (cx_iteration c) && negb (cx_switch c) then err (IllegalBreak break)
            else ret None) ;;
  end_with_auto_semi V stmt_set_loc start NL_Required (fun semi => S_Break None arg semi).

(** src/parser.rs:1036-1056 [continue_statement] *)
Definition continue_statement : P stmt :=
  start <- p_posn ;;
  continue <- reread (TReserved R_Continue) ;;
  h <- p_has_arg_same_line V ;;
  arg <- (if h : bool then
            i <- p_id false ;;
            c <- get_context ;;
            match labels_get (cx_labels c) (id_name i) with
            | None => err (InvalidLabel i)
            | Some LT_Statement => err (InvalidLabelType i)
            | Some LT_Iteration => ret (Some i)
            end
          else
            c <- get_context ;;
            if negb (cx_iteration c) then err (IllegalContinue continue)
            else ret None) ;;
  end_with_auto_semi V stmt_set_loc start NL_Required (fun semi => S_Cont None arg semi).

(** src/parser.rs:1058-1074 [return_statement] *)
Definition return_statement : P stmt :=
  start <- p_posn ;;
  reread (TReserved R_Return) ;;;
  h <- p_has_arg_same_line V ;;
  arg <- (if h : bool then e <- p_allow_in true expression ;; ret (Some e) else ret None) ;;
  result <- end_with_auto_semi V stmt_set_loc start NL_Required (fun semi => S_Return None arg semi) ;;
  c <- get_context ;;
  if negb (cx_function c) then
    match stmt_loc result with
    | Some l => err (TopLevelReturn l)
    | None => panic_at P_unwrap
    end
  else ret result.

(** src/parser.rs:1076-1086 [with_statement] *)
Definition with_statement : P stmt :=
  p_span stmt_set_loc (
    t <- reread (TReserved R_With) ;;
    strict_check (ret (Some (Ck_Strict (StrictWith t)))) ;;;
    obj <- paren_expression ;;
    b <- statement ;;
    ret (S_With None obj b)).

(** src/parser.rs:1088-1098 [throw_statement] *)
Definition throw_statement : P stmt :=
  start <- p_posn ;;
  t <- reread (TReserved R_Throw) ;;
  h <- p_has_arg_same_line V ;;
  if negb h then err (ThrowArgument t)
  else
    arg <- p_allow_in true expression ;;
    end_with_auto_semi V stmt_set_loc start NL_Required (fun semi => S_Throw None arg semi).

(** src/parser.rs:1117-1132 [catch_opt] *)
Definition catch_opt : P (option catch) :=
  t <- peek ;;
  if is_t t (TReserved R_Catch) then
    c <- p_span catch_set_loc (
           reread (TReserved R_Catch) ;;;
           expect (TPunc T_LParen) ;;;
           param <- pattern_ ;;
           expect (TPunc T_RParen) ;;;
           b <- block_ ;;
           ret (Catch None param b)) ;;
    ret (Some c)
  else ret None.

(** src/parser.rs:1134-1142 [finally_opt] *)
Definition finally_opt : P (option block) :=
  t <- peek ;;
  if is_t t (TReserved R_Finally) then
    reread (TReserved R_Finally) ;;; b <- block_ ;; ret (Some b)
  else ret None.

(** src/parser.rs:1100-1115 [try_statement] *)
Definition try_statement : P stmt :=
  p_span stmt_set_loc (
    reread (TReserved R_Try) ;;;
    b <- block_ ;;
    t <- peek ;;
    if is_t t (TReserved R_Catch) || is_t t (TReserved R_Finally) then
      c <- catch_opt ;;
      f <- finally_opt ;;
      ret (S_Try None b c f)
    else t <- read ;; err (OrphanTry t)).

(** src/parser.rs:1144-1148 [debugger_statement] *)
Definition debugger_statement : P stmt :=
  start <- p_posn ;;
  reread (TReserved R_Debugger) ;;;
  end_with_auto_semi V stmt_set_loc start NL_Required (fun semi => S_Debugger None semi).

(** src/parser.rs:478-496: a statement or declaration starting with an identifier *)
Definition ident_item (allow_decl : bool) : P item :=
  t <- p_reread_token ;;
  next <- peek_op ;;
  if is_t next (TPunc T_Colon) then
    i <- new_id_from_token false t ;;
    s <- labelled_statement i ;;
    ret (I_Stmt s)
  else if first_binding next && is_t t (TIdent (NAtom A_Let)) then
    if negb allow_decl then unexpected
    else d <- let_declaration (sp_start (tk_loc t)) ;; ret (I_Decl d)
  else unread t ;;; s <- expression_statement ;; ret (I_Stmt s).

(** src/parser.rs:449-499 [stmt_list_item] *)
Definition stmt_list_item (allow_decl : bool) : P item :=
  t <- peek ;;
  if is_t t (TReserved R_Function) then
    if negb allow_decl then unexpected
    else d <- function_declaration ;; ret (I_Decl d)
  else if is_t t (TPunc T_LBrace) then b <- block_ ;; ret (I_Stmt (S_Block b))
  else if is_t t (TReserved R_Var) then s <- var_statement ;; ret (I_Stmt s)
  else if is_t t (TReserved R_Const) then
    if negb allow_decl then unexpected
    else d <- const_declaration ;; ret (I_Decl d)
  else if is_t t (TPunc T_Semi) then s <- empty_statement ;; ret (I_Stmt s)
  else if is_t t (TReserved R_If) then s <- if_statement ;; ret (I_Stmt s)
  else if is_t t (TReserved R_Continue) then s <- continue_statement ;; ret (I_Stmt s)
  else if is_t t (TReserved R_Break) then s <- break_statement ;; ret (I_Stmt s)
  else if is_t t (TReserved R_Return) then s <- return_statement ;; ret (I_Stmt s)
  else if is_t t (TReserved R_With) then s <- with_statement ;; ret (I_Stmt s)
  else if is_t t (TReserved R_Switch) then s <- switch_statement ;; ret (I_Stmt s)
  else if is_t t (TReserved R_Throw) then s <- throw_statement ;; ret (I_Stmt s)
  else if is_t t (TReserved R_Try) then s <- try_statement ;; ret (I_Stmt s)
  else if is_t t (TReserved R_While) then s <- while_statement ;; ret (I_Stmt s)
  else if is_t t (TReserved R_Do) then s <- do_statement ;; ret (I_Stmt s)
  else if is_t t (TReserved R_For) then s <- for_statement ;; ret (I_Stmt s)
  else if is_t t (TReserved R_Debugger) then s <- debugger_statement ;; ret (I_Stmt s)
  else match as_ident t with
       | Some _ => ident_item allow_decl
       | None => s <- expression_statement ;; ret (I_Stmt s)
       end.

(** ** Programs *)

(** src/parser.rs:299-314 [more_module_items] *)
Definition more_module_items (items : list mod_item) : P (list mod_item) :=
  loop (fun items =>
          t <- peek ;;
          if is_t t (TPunc T_EOF) then ret (inr items)
          else if is_t t (TReserved R_Import) || is_t t (TReserved R_Export)
               then panic_at P_unimplemented
          else i <- r_item R true ;; ret (inl (items ++ [MI_Item i]))) items.

(** src/parser.rs:295-297 [module_items] *)
Definition module_items : P (list mod_item) := more_module_items [].

(** src/parser.rs:260-272 [force_deferred_module_validation] *)
Fixpoint perform_all (module : bool) (cs : list check) : option perror :=
  match cs with
  | [] => None
  | c :: cs' => match check_perform c module with
                | Some e => Some e
                | None => perform_all module cs'
                end
  end.
Definition force_deferred_module_validation : P unit :=
  d <- take_deferred ;;
  match perform_all true d with Some e => err e | None => ret tt end.

(** src/parser.rs:274-293 [program_items] *)
Definition program_items_ : P program_items :=
  loop (fun stmts =>
          t <- peek ;;
          if is_t t (TPunc T_EOF) then ret (inr (PI_Script stmts))
          else if is_t t (TReserved R_Import) || is_t t (TReserved R_Export) then
            force_deferred_module_validation ;;;
            items <- more_module_items (map item_into_mod_item stmts) ;;
            ret (inr (PI_Module items))
          else i <- r_item R true ;; ret (inl (stmts ++ [i]))) [].

(** [debug_assert_eq!(self.goal, Goal::Unknown)] *)
Definition assert_goal_unknown : P unit :=
  g <- gets p_goal ;;
  if goal_eqb g G_Unknown then ret tt else panic_at P_assert.

(** src/parser.rs:189-199 [module] *)
Definition module_ : P module :=
  assert_goal_unknown ;;;
  set_module ;;;
  p_span body_set_loc (
    dirs <- body_directives ;;
    items <- module_items ;;
    ret (Body None dirs items)).

(** src/parser.rs:201-222 [program] *)
Definition program_ : P program :=
  assert_goal_unknown ;;;
  p_span program_set_loc (
    dirs <- body_directives ;;
    items <- program_items_ ;;
    match items with
    | PI_Script items =>
        checks <- take_deferred ;;
        ret (Pg_Ambiguous checks (Body None dirs items))
    | PI_Module items => ret (Pg_Module (Body None dirs items))
    end).

(** src/parser.rs:224-229 [script] *)
Definition script_ (strict : bool) : P script :=
  assert_goal_unknown ;;;
  modify (set_goal G_Script) ;;;
  modify_context (set_strict (tri_of_bool strict)) ;;;
  script_body.
End WithEnv.

(** The parser's recursion, tied on fuel. *)
Fixpoint parse_rec (V : env) (fuel : nat) : recs :=
  match fuel with
  | O => Recs nofuel (fun _ => nofuel) O
  | S fuel' =>
      let R := parse_rec V fuel' in
      Recs (assignment_expression V R) (stmt_list_item V R) fuel'
  end.
