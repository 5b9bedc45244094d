(** The parser again, in a monad that also records what it does: how many steps it takes, and
    which tokens it has the lexer read from the characters.

    The definitions below are those of PState.v, Parser.v and Api.v, word for word except
    that their names end in a prime and that the operations of the monad are the recording
    ones of this file; CostErase.v proves that forgetting the record gives the definitions of
    Parser.v back.  One step is counted for every token operation, every access to the
    fields of the parser and every [Ok], [Err] or panic, and one more for every character that
    a token operation consumes.  What is not counted is the work on values already at hand:
    building nodes, [Vec::push], converting an expression to a pattern, and wrapping an
    operand in a unary operator (src/parser.rs:1530-1533). *)
From Coq Require Import String Ascii List NArith Bool.
From Verif Require Import Base Chars Word Token Reader Lexer Punc Ast Track Cover Stack PState Parser Api.
Import ListNotations.
Open Scope N_scope.

(** ** The recording monad *)

(** The number of steps, and, for each token read from the characters, whether an operator was
    expected there. *)
Record log : Type := Log { steps : nat; flags : list bool }.
Definition step1 : log := Log 1 [].
Definition log_app (c c' : log) : log := Log (steps c + steps c') (flags c ++ flags c').

(** A computation: its record, and its outcome.  Simplification: as in
    Base.v; see the heading for what is not counted. *)
Definition C (A : Type) : Type := pst -> log * res perror (A * pst).

Definition cret {A} (a : A) : C A := fun s => (step1, Ok (a, s)).
Definition cbind {A B} (m : C A) (f : A -> C B) : C B :=
  fun s => match m s with
           | (c, Ok (a, s')) => let '(c', r) := f a s' in (log_app c c', r)
           | (c, Err e) => (c, Err e)
           | (c, Panic k) => (c, Panic k)
           | (c, NoFuel) => (c, NoFuel)
           end.
Definition cerr {A} (e : perror) : C A := fun _ => (step1, Err e).
Definition cpanic {A} (k : panic) : C A := fun _ => (step1, Panic k).
Definition cnofuel {A} : C A := fun _ => (step1, NoFuel).
Definition cgets {A} (f : pst -> A) : C A := fun s => (step1, Ok (f s, s)).
Definition cmodify (f : pst -> pst) : C unit := fun s => (step1, Ok (tt, f s)).

Declare Scope cost_scope.
Notation "x <- m ;; k" := (cbind m (fun x => k))
  (at level 61, m at next level, right associativity) : cost_scope.
Notation "' p <- m ;; k" := (cbind m (fun p => k))
  (at level 61, p pattern, m at next level, right associativity) : cost_scope.
Notation "m ;;; k" := (cbind m (fun _ => k))
  (at level 61, right associativity) : cost_scope.
Open Scope cost_scope.

(** As [loopM] in Base.v. *)
Fixpoint cloop {A B} (fuel : nat) (body : A -> C (A + B)) (a : A) : C B :=
  match fuel with
  | O => cnofuel
  | Datatypes.S fuel' =>
      x <- body a ;;
      match x with
      | inl a' => cloop fuel' body a'
      | inr b => cret b
      end
  end.

(** ** PState.v *)

Definition get_context' : C context := cgets p_context.
Definition modify_context' (f : context -> context) : C unit :=
  cmodify (fun s => set_context (f (p_context s)) s).
Section WithEnv.
Context (V : env).
(** The price of a lexer operation: one, and one for every character it consumes; an
    operation that fails is charged for all that remains of the input. *)
Definition lex_price {A} (x : lexer) (r : res lex_error (A * lexer)) : nat :=
  match r with
  | Ok (_, x') => S (length (rest (lx_rd x)) - length (rest (lx_rd x')))
  | _ => S (length (rest (lx_rd x)))
  end.

(** The operation reads a token from the characters when it is one that may (with the flag
    [op]) and no token has been pushed back. *)
Definition lex_flags (op : option bool) (x : lexer) : list bool :=
  match op, lx_ahead x with Some b, [] => [b] | _, _ => [] end.

(** Run a lexer operation, mapping errors with [Error::LexError]. *)
Definition lex' {A} (op : option bool) (m : XM A) : C A :=
  fun s => let r := m (p_lexer s) in
           (Log (lex_price (p_lexer s) r) (lex_flags op (p_lexer s)),
            match r with
            | Ok (a, x) => Ok (a, set_lexer x s)
            | Err e => Err (LexError e)
            | Panic k => Panic k
            | NoFuel => NoFuel
            end).
(** src/state.rs:21-39 *)
Definition p_skip' : C unit := lex' (Some false) (skip_token V false).
Definition p_read' : C token := lex' (Some false) (read_token V false).
Definition p_read_op' : C token := lex' (Some true) (read_token V true).
Definition p_peek' : C token := lex' (Some false) (peek_token V false).
Definition p_peek_op' : C token := lex' (Some true) (peek_token V true).
Definition p_unread' (t : token) : C unit := lex' None (unread_token t).
Definition p_reread_token' : C token := lex' None reread_token.
(** src/state.rs:41-47 [expect] *)
Definition p_expect' (expected : token_data) : C token :=
  t <- p_read' ;;
  if is_t t expected then cret t else cerr (UnexpectedToken t).
(** src/state.rs:49-56 [matches_token] *)
Definition p_matches_token' (expected : token_data) : C (option token) :=
  t <- p_read' ;;
  if is_t t expected then cret (Some t) else p_unread' t ;;; cret None.
(** src/state.rs:58-65 [matches]; 67-74 [matches_op] *)
Definition p_matches' (expected : token_data) : C bool :=
  t <- p_read' ;;
  if is_t t expected then cret true else p_unread' t ;;; cret false.
Definition p_matches_op' (expected : token_data) : C bool :=
  t <- p_read_op' ;;
  if is_t t expected then cret true else p_unread' t ;;; cret false.
(** src/state.rs:76-81 [reread] *)
Definition p_reread' (expected : token_data) : C token :=
  t <- lex' None repeek_token ;;
  if is_t t expected then lex' None reread_token else cpanic P_assert.
(** src/state.rs:83-86 [has_arg_same_line] *)
Definition p_has_arg_same_line' : C bool :=
  t <- p_peek' ;;
  cret (negb (tk_newline t) && negb (is_t t (TPunc T_Semi))
       && negb (is_t t (TPunc T_RBrace))).
(** ** src/track.rs *)

(** src/track.rs:28-30 [posn]; 32-34 [start] *)
Definition p_posn' : C posn := cgets (fun s => lexer_posn (p_lexer s)).
(** src/track.rs:19-26 [vec_span], given the elements' locations *)
Definition p_vec_span' (ls : list loc) : C loc :=
  match ls with
  | [] => here <- p_posn' ;; cret (Some (Span here here))
  | l :: _ => cret (span_of l (last ls l))
  end.
(** src/track.rs:36-45 [span]; [set] is assignment through [tracking_mut] *)
Definition p_span' {A} (set : A -> loc -> A) (parse : C A) : C A :=
  start <- p_posn' ;;
  v <- parse ;;
  e <- p_posn' ;;
  cret (set v (Some (Span start e))).
(** src/track.rs:71-101 [end_with_auto_semi] *)
Definition end_with_auto_semi' {A} (set : A -> loc -> A) (start : posn) (nl : newline)
    (cons : semi -> A) : C A :=
  before <- p_posn' ;;
  t <- p_peek' ;;
  if is_t t (TPunc T_Semi) then
    p_reread' (TPunc T_Semi) ;;;
    e <- p_posn' ;;
    cret (set (cons (Explicit (Some (sp_start (tk_loc t))))) (Some (Span start e)))
  else if is_t t (TPunc T_RBrace) || is_t t (TPunc T_EOF) then
    cret (set (cons Inserted) (Some (Span start before)))
  else if match nl with NL_Required => negb (tk_newline t) | NL_Optional => false end then
    t' <- p_read' ;; cerr (FailedASI t')
  else cret (set (cons Inserted) (Some (Span start before))).
(** ** src/context.rs *)

(** src/context.rs:42-49 [allow_in] (an error abandons the whole parse, so the
    restoration on the error path is not represented) *)
Definition p_allow_in' {A} (b : bool) (parse : C A) : C A :=
  c <- get_context' ;;
  modify_context' (set_allow_in b) ;;;
  r <- parse ;;
  modify_context' (set_allow_in (cx_allow_in c)) ;;;
  cret r.
(** src/context.rs:20-40 [with_labels] *)
Definition with_labels' (ls : list id) (t : label_type) (op : C stmt) : C stmt :=
  modify_context' (fun c => set_labels (insert_labels ls t (cx_labels c)) c) ;;;
  b <- op ;;
  modify_context' (fun c => set_labels (remove_labels ls (cx_labels c)) c) ;;;
  cret (wrap_labels ls b).
End WithEnv.

(** ** Parser.v *)

(** The methods through which the parser's recursion passes. *)
Record recs' : Type := Recs' { r_assign' : C expr; r_item' : bool -> C item; r_fuel' : nat }.

(** src/parser.rs:158-160 [take_deferred] *)
Definition take_deferred' : C (list check) :=
  d <- cgets p_deferred ;; cmodify (set_deferred []) ;;; cret d.

(** src/parser.rs:162-164 [unexpected] *)
Definition unexpected' {A} : C A := t <- p_reread_token' ;; cerr (UnexpectedToken t).

(** src/parser.rs:184-187 [set_module] *)
Definition set_module' : C unit :=
  cmodify (set_goal G_Module) ;;; modify_context' (set_strict Yes).

(** src/parser.rs:388-413 [strict_check] *)
Definition strict_check' (f : C (option check)) : C unit :=
  c <- get_context' ;;
  if tri_eqb (cx_strict c) No then cret tt
  else
    k <- f ;;
    match k with
    | Some (Ck_Strict e) =>
        if tri_eqb (cx_strict c) Yes then cerr e
        else cmodify (fun s => set_deferred (p_deferred s ++ [Ck_Strict e]) s)
    | Some (Ck_Module e) =>
        g <- cgets p_goal ;;
        if goal_eqb g G_Module then cerr e
        else if negb (goal_eqb g G_Script)
             then cmodify (fun s => set_deferred (p_deferred s ++ [Ck_Module e]) s)
             else cret tt
    | None => cret tt
    end.

(** src/parser.rs:573-587: the check made for an identifier *)
Definition id_check' (binding : bool) (n : name) (location : span) : C (option check) :=
  if binding && name_illegal_strict_binding n then
    match name_atom n with
    | Some a => cret (Some (Ck_Strict (IllegalStrictBinding location a)))
    | None => cpanic P_unwrap
    end
  else match name_strict_reserved n with
       | No => cret None
       | Yes => match name_atom n with
                | Some a => cret (Some (Ck_Strict (ContextualKeyword location a)))
                | None => cpanic P_unwrap
                end
       | Unknown => match name_atom n with
                    | Some a => cret (Some (Ck_Module (ContextualKeyword location a)))
                    | None => cpanic P_unwrap
                    end
       end.

(** src/parser.rs:571-590 [new_id] *)
Definition new_id' (binding : bool) (n : name) (location : span) : C id :=
  strict_check' (id_check' binding n location) ;;;
  cret (id_new n (Some location)).

(** src/parser.rs:564-569 [new_id_from_token] *)
Definition new_id_from_token' (binding : bool) (t : token) : C id :=
  match as_ident t with
  | Some n => new_id' binding n (tk_loc t)
  | None => cpanic P_unreachable
  end.

Section WithEnv.

Context (V : env).

Context (R : recs').

Notation peek := (p_peek' V).

Notation peek_op := (p_peek_op' V).

Notation read := (p_read' V).

Notation read_op := (p_read_op' V).

Notation unread := p_unread'.

Notation expect := (p_expect' V).

Notation matches := (p_matches' V).

Notation matches_op := (p_matches_op' V).

Notation matches_token := (p_matches_token' V).

Notation reread := p_reread'.

Notation loop := (cloop (r_fuel' R)).

(** src/parser.rs:954-962 [more_comma] *)
Definition more_comma' {A} (first : A) (f : C A) : C (list A) :=
  loop (fun items =>
          b <- matches (TPunc T_Comma) ;;
          if b then x <- f ;; cret (inl (items ++ [x])) else cret (inr items)) [first].

(** src/parser.rs:947-952 [comma_separated] *)
Definition comma_separated' {A} (f : C A) : C (list A) :=
  first <- f ;; more_comma' first f.

(** src/parser.rs:592-602 [id] *)
Definition p_id' (binding : bool) : C id :=
  t <- read ;;
  match as_ident t with
  | Some n => new_id' binding n (tk_loc t)
  | None => cerr (UnexpectedToken t)
  end.

(** src/parser.rs:604-613 [id_opt] *)
Definition p_id_opt' (binding : bool) : C (option id) :=
  t <- read ;;
  match as_ident t with
  | Some n => i <- new_id' binding n (tk_loc t) ;; cret (Some i)
  | None => unread t ;;; cret None
  end.

(** src/parser.rs:381-386 [binding_pattern] *)
Definition binding_pattern' : C (cpatt id) :=
  t <- peek ;;
  if negb (first_binding t) then unexpected'
  else cerr (UnsupportedFeature (lit "destructuring")).

(** src/parser.rs:368-379 [pattern] *)
Definition pattern_' : C (patt id) :=
  t <- peek ;;
  match as_ident t with
  | Some _ => i <- p_id' true ;; cret (Simple i)
  | None => p <- binding_pattern' ;; cret (Compound p)
  end.

(** ** Expressions *)

(** src/parser.rs:1687-1694 [more_expressions] *)
Definition more_expressions' (first : expr) : C expr :=
  t <- peek ;;
  if negb (is_t t (TPunc T_Comma)) then cret first
  else elts <- more_comma' first (r_assign' R) ;;
       location <- p_vec_span' (map expr_loc elts) ;;
       cret (E_Seq location elts).

(** src/parser.rs:1682-1685 [expression] *)
Definition expression' : C expr :=
  first <- r_assign' R ;; more_expressions' first.

(** src/parser.rs:1150-1155 [paren_expression] *)
Definition paren_expression' : C expr :=
  expect (TPunc T_LParen) ;;;
  result <- p_allow_in' true expression' ;;
  expect (TPunc T_RParen) ;;;
  cret result.

(** ** Functions *)

(** src/parser.rs:331-366 [formal_parameters] *)
Definition formal_parameters' : C params :=
  p_span' params_set_loc (
    expect (TPunc T_LParen) ;;;
    '(list, rest) <- loop (fun list =>
        t <- peek ;;
        if is_t t (TPunc T_RParen) then cret (inr (list, None))
        else if is_t t (TPunc T_Ellipsis) then
          r <- p_span' rest_set_loc (
                 reread (TPunc T_Ellipsis) ;;;
                 p <- pattern_' ;;
                 cret (RestPatt None p)) ;;
          cret (inr (list, Some r))
        else
          p <- pattern_' ;;
          b <- matches (TPunc T_Comma) ;;
          if b then cret (inl (list ++ [p])) else cret (inr (list ++ [p], None))) [] ;;
    expect (TPunc T_RParen) ;;;
    cret (Params None list rest)).

(** src/parser.rs:166-182 [match_directive_opt] *)
Definition match_directive_opt' : C (option dir) :=
  start <- p_posn' ;;
  token1 <- read ;;
  match tk_value token1 with
  | TString literal =>
      t <- peek ;;
      if negb (expression_continuation t) then
        d <- end_with_auto_semi' V (fun d l => Dir l (dir_string d) (dir_semi d)) start NL_Required
               (fun semi => Dir None literal semi) ;;
        cret (Some d)
      else unread token1 ;;; cret None
  | _ => unread token1 ;;; cret None
  end.

(** src/parser.rs:245-253: the effect of one directive *)
Definition apply_pragma' (d : dir) : C unit :=
  if str_eqb (dir_pragma d) (lit "use strict") then modify_context' (set_strict Yes)
  else if str_eqb (dir_pragma d) (lit "use module") then
    c <- get_context' ;;
    if negb (cx_function c) then set_module' else cret tt
  else cret tt.

(** src/parser.rs:241-258 [body_directives] *)
Definition body_directives' : C (list dir) :=
  loop (fun dirs =>
          o <- match_directive_opt' ;;
          match o with
          | Some d => apply_pragma' d ;;; cret (inl (dirs ++ [d]))
          | None => cret (inr dirs)
          end) [].

(** src/parser.rs:316-323 [statement_list] *)
Definition statement_list' : C (list item) :=
  loop (fun items =>
          t <- peek ;;
          if follow_statement_list t then cret (inr items)
          else i <- r_item' R true ;; cret (inl (items ++ [i]))) [].

(** src/parser.rs:231-239 [script_body] *)
Definition script_body' : C script :=
  p_span' body_set_loc (
    dirs <- body_directives' ;;
    items <- statement_list' ;;
    cret (Body None dirs items)).

Definition body_check' (b : script) (ps : list (patt id)) : C (option check) :=
  cret (if existsb (fun d => str_eqb (dir_pragma d) (lit "use strict")) (bo_dirs b)
       then match first_compound ps with
            | Some c => Some (Ck_Strict (CompoundParamWithUseStrict c))
            | None => None
            end
       else None).

(** src/parser.rs:428-447 [function_body] *)
Definition function_body' (ps : list (patt id)) : C script :=
  outer <- get_context' ;;
  modify_context' context_new_function ;;;
  expect (TPunc T_LBrace) ;;;
  b <- script_body' ;;
  strict_check' (body_check' b ps) ;;;
  expect (TPunc T_RBrace) ;;;
  modify_context' (fun _ => outer) ;;;
  cret b.

(** src/parser.rs:415-426 [function] *)
Definition function_' {I} (get_id : C I) : C (func I (body item)) :=
  p_span' func_set_loc (
    reread (TReserved R_Function) ;;;
    generator <- matches (TPunc T_Star) ;;
    i <- get_id ;;
    ps <- formal_parameters' ;;
    b <- function_body' (pa_list ps) ;;
    cret (Fun None i ps b generator)).

(** src/parser.rs:325-329 [function_declaration] *)
Definition function_declaration' : C decl :=
  p_span' decl_set_loc (f <- function_' (p_id' true) ;; cret (D_Fun f)).

(** ** Primary expressions *)

(** src/parser.rs:1214-1227 [expr_list_item] *)
Definition expr_list_item' : C eli :=
  t <- peek ;;
  if is_t t (TPunc T_Ellipsis) then
    p_span' eli_set_loc (
      reread (TPunc T_Ellipsis) ;;;
      e <- r_assign' R ;;
      cret (L_Spread None e))
  else e <- r_assign' R ;; cret (L_Expr e).

(** src/parser.rs:1229-1234 [array_element] *)
Definition array_element' : C (option eli) :=
  t <- peek ;;
  if is_t t (TPunc T_Comma) then cret None
  else e <- expr_list_item' ;; cret (Some e).

(** src/parser.rs:1195-1212 [array_literal] *)
Definition array_literal' (start : token) : C expr :=
  p_allow_in' true (
    elts <- loop (fun elts =>
        t <- peek ;;
        if is_t t (TPunc T_RBrack) then cret (inr elts)
        else
          e <- array_element' ;;
          b <- matches (TPunc T_Comma) ;;
          if b then cret (inl (elts ++ [e])) else cret (inr (elts ++ [e]))) [] ;;
    e <- expect (TPunc T_RBrack) ;;
    cret (E_Arr (span_of (Some (tk_loc start)) (Some (tk_loc e))) elts)).

(** src/parser.rs:1252-1279 [more_prop_init] *)
Definition more_prop_init' (key : prop_key) : C prop :=
  t <- peek ;;
  if is_t t (TPunc T_Colon) then
    p_skip' V ;;;
    val <- p_allow_in' true (r_assign' R) ;;
    cret (Pr_Regular (span_of (prop_key_loc key) (expr_loc val)) key (PV_Init val))
  else if is_t t (TPunc T_LParen) then
    ps <- formal_parameters' ;;
    b <- function_body' (pa_list ps) ;;
    cret (Pr_Method (Fun (span_of (prop_key_loc key) (bo_loc b)) key ps b false))
  else if is_t t (TPunc T_Comma) || is_t t (TPunc T_RBrace) then
    match key with
    | PK_Id (Some location) n =>
        i <- new_id' false (name_from n) location ;; cret (Pr_Shorthand i)
    | PK_Id None n => cpanic P_unwrap
    | _ => unexpected'
    end
  else unexpected'.

(** src/parser.rs:1281-1294 [property_key_opt] *)
Definition property_key_opt' : C (option prop_key) :=
  t <- read ;;
  match token_prop_key t with
  | Some k => cret (Some k)
  | None => unread t ;;; cret None
  end.

(** src/parser.rs:1296-1301 [property_key] *)
Definition property_key' : C prop_key :=
  o <- property_key_opt' ;;
  match o with Some k => cret k | None => unexpected' end.

(** src/parser.rs:1303-1361 [object_property] *)
Definition object_property' : C prop :=
  first <- read ;;
  if is_t first (TIdent (NAtom A_Get)) then
    o <- property_key_opt' ;;
    match o with
    | Some key =>
        paren <- expect (TPunc T_LParen) ;;
        expect (TPunc T_RParen) ;;;
        b <- function_body' [] ;;
        cret (Pr_Regular (span_of (prop_key_loc key) (bo_loc b)) key
               (PV_Get (span_of (Some (tk_loc paren)) (bo_loc b)) b))
    | None => more_prop_init' (PK_Id (Some (tk_loc first)) (lit "get"))
    end
  else if is_t first (TIdent (NAtom A_Set)) then
    o <- property_key_opt' ;;
    match o with
    | Some key =>
        paren <- expect (TPunc T_LParen) ;;
        param <- pattern_' ;;
        expect (TPunc T_RParen) ;;;
        b <- function_body' [param] ;;
        cret (Pr_Regular (span_of (prop_key_loc key) (bo_loc b)) key
               (PV_Set (span_of (Some (tk_loc paren)) (bo_loc b)) param b))
    | None => more_prop_init' (PK_Id (Some (tk_loc first)) (lit "set"))
    end
  else if is_t first (TPunc T_Star) then
    key <- property_key' ;;
    ps <- formal_parameters' ;;
    b <- function_body' (pa_list ps) ;;
    cret (Pr_Method (Fun (span_of (prop_key_loc key) (bo_loc b)) key ps b true))
  else if is_reserved first then
    t <- peek ;;
    if is_t t (TPunc T_Comma) || is_t t (TPunc T_RBrace) then cerr (UnexpectedToken first)
    else unread first ;;; key <- property_key' ;; more_prop_init' key
  else unread first ;;; key <- property_key' ;; more_prop_init' key.

(** src/parser.rs:1236-1250 [object_literal] *)
Definition object_literal' (start : token) : C expr :=
  props <- loop (fun props =>
      t <- peek ;;
      if is_t t (TPunc T_RBrace) then cret (inr props)
      else
        p <- object_property' ;;
        b <- matches (TPunc T_Comma) ;;
        if b then cret (inl (props ++ [p])) else cret (inr (props ++ [p]))) [] ;;
  e <- expect (TPunc T_RBrace) ;;
  cret (E_Obj (span_of (Some (tk_loc start)) (Some (tk_loc e))) props).

(** src/parser.rs:1168-1193 [primary_expression] *)
Definition primary_expression' : C expr :=
  t <- read ;;
  match as_ident t with
  | Some n => i <- new_id' false n (tk_loc t) ;; cret (E_Id i)
  | None =>
      match token_literal t with
      | Some e => cret e
      | None =>
          if is_t t (TPunc T_LBrack) then array_literal' t
          else if is_t t (TPunc T_LBrace) then object_literal' t
          else if is_t t (TReserved R_Function) then
            unread t ;;; f <- function_' (p_id_opt' true) ;; cret (E_Fun f)
          else if is_t t (TPunc T_LParen) then unread t ;;; paren_expression'
          else cerr (UnexpectedToken t)
      end
  end.

(** ** Left-hand sides *)

(** src/parser.rs:1366-1373 [member_base_expression] *)
Definition member_base_expression' : C expr :=
  o <- matches_token (TReserved R_New) ;;
  match o with
  | Some new =>
      expect (TPunc T_Dot) ;;;
      target <- expect (TIdent (NAtom A_Target)) ;;
      cret (E_NewTarget (span_of (Some (tk_loc new)) (Some (tk_loc target))))
  | None => primary_expression'
  end.

(** src/parser.rs:1421-1436 [arguments] *)
Definition arguments_' : C arguments :=
  p_allow_in' true (
    expect (TPunc T_LParen) ;;;
    t <- peek ;;
    args <- (if negb (is_t t (TPunc T_RParen)) then
               loop (fun args =>
                       a <- expr_list_item' ;;
                       b <- matches (TPunc T_Comma) ;;
                       if b then cret (inl (args ++ [a])) else cret (inr (args ++ [a]))) []
             else cret []) ;;
    e <- expect (TPunc T_RParen) ;;
    cret (Arguments_ args e)).

(** src/parser.rs:1449-1454 [deref_brack] *)
Definition deref_brack' : C deref :=
  reread (TPunc T_LBrack) ;;;
  e <- p_allow_in' true expression' ;;
  end_ <- expect (TPunc T_RBrack) ;;
  cret (De_Brack e end_).

(** src/parser.rs:1456-1466 [id_name] *)
Definition id_name_' : C dot_key :=
  t <- read ;;
  match tk_value t with
  | TIdent n => cret (DotKey (Some (tk_loc t)) (name_string n))
  | TReserved w => cret (DotKey (Some (tk_loc t)) (reserved_name w))
  | _ => cerr (UnexpectedToken t)
  end.

(** src/parser.rs:1468-1471 [deref_dot] *)
Definition deref_dot' : C deref :=
  reread (TPunc T_Dot) ;;; k <- id_name_' ;; cret (De_Dot k).

(** src/parser.rs:1441-1447 [deref_opt] *)
Definition deref_opt' : C (option deref) :=
  t <- peek_op ;;
  if is_t t (TPunc T_LBrack) then d <- deref_brack' ;; cret (Some d)
  else if is_t t (TPunc T_Dot) then d <- deref_dot' ;; cret (Some d)
  else cret None.

(** src/parser.rs:1411-1418 [suffix_opt] *)
Definition suffix_opt' : C (option suffix) :=
  t <- peek_op ;;
  if is_t t (TPunc T_Dot) then d <- deref_dot' ;; cret (Some (Su_Deref d))
  else if is_t t (TPunc T_LBrack) then d <- deref_brack' ;; cret (Some (Su_Deref d))
  else if is_t t (TPunc T_LParen) then a <- arguments_' ;; cret (Some (Su_Arguments a))
  else cret None.

(** src/parser.rs:1474-1479 [more_suffixes] *)
Definition more_suffixes' (result : expr) : C expr :=
  loop (fun result =>
          o <- suffix_opt' ;;
          match o with
          | Some s => cret (inl (suffix_append_to s result))
          | None => cret (inr result)
          end) result.

(** src/parser.rs:1387-1396: supply the [new]s, innermost first, with arguments *)
Fixpoint apply_news' (has_args : bool) (news : list token) (base : expr) : C expr :=
  match news with
  | [] => cret base
  | new :: news' =>
      has_args <- (if has_args then t <- peek_op ;; cret (is_t t (TPunc T_LParen)) else cret false) ;;
      base <- (if has_args : bool then
                 a <- arguments_' ;; cret (arguments_append_to_new a new base)
               else cret (E_New (span_of (Some (tk_loc new)) (expr_loc base)) base None)) ;;
      apply_news' has_args news' base
  end.

(** src/parser.rs:1383-1398 [more_new_expression] *)
Definition more_new_expression' (news : list token) (base : expr) : C expr :=
  base <- loop (fun base =>
            o <- deref_opt' ;;
            match o with
            | Some d => cret (inl (deref_append_to d base))
            | None => cret (inr base)
            end) base ;;
  base <- apply_news' true (rev news) base ;;
  more_suffixes' base.

(** src/parser.rs:1376-1380 [new_expression] *)
Definition new_expression' (news : list token) : C expr :=
  base <- member_base_expression' ;; more_new_expression' news base.

(** src/parser.rs:1402-1406 [call_expression] *)
Definition call_expression' : C expr :=
  base <- primary_expression' ;; more_suffixes' base.

(** src/parser.rs:1485-1488: the leading [new] tokens *)
Definition read_news' : C (list token) :=
  loop (fun news =>
          t <- peek ;;
          if is_t t (TReserved R_New) then
            n <- reread (TReserved R_New) ;; cret (inl (news ++ [n]))
          else cret (inr news)) [].

(** src/parser.rs:1484-1506 [lhs_expression] *)
Definition lhs_expression' : C expr :=
  news <- read_news' ;;
  match rev news with
  | [] => call_expression'
  | new :: news' =>
      b <- matches_op (TPunc T_Dot) ;;
      if b : bool then
        target <- expect (TIdent (NAtom A_Target)) ;;
        let new_target := E_NewTarget (span_of (Some (tk_loc new)) (Some (tk_loc target))) in
        match news' with
        | _ :: _ => more_new_expression' (rev news') new_target
        | [] => more_suffixes' new_target
        end
      else new_expression' news
  end.

(** src/parser.rs:1576-1589 [match_unop] *)
Definition match_unop' : C (option unop) :=
  t <- read ;;
  match token_unop t with
  | Some tag => cret (Some (Op (Some (tk_loc t)) tag))
  | None => unread t ;;; cret None
  end.

(** src/parser.rs:1556-1566 [match_prefix] *)
Definition match_prefix' : C (option prefix) :=
  t <- read ;;
  if is_t t (TPunc T_Inc) then cret (Some (Pre_Inc (tk_loc t)))
  else if is_t t (TPunc T_Dec) then cret (Some (Pre_Dec (tk_loc t)))
  else unread t ;;; o <- match_unop' ;; cret (option_map Pre_Unop o).

(** src/parser.rs:1594-1605 [match_postfix_operator_opt] *)
Definition match_postfix_operator_opt' : C (option postfix) :=
  t <- read_op ;;
  if negb (tk_newline t) && is_t t (TPunc T_Inc) then cret (Some (Post_Inc (tk_loc t)))
  else if negb (tk_newline t) && is_t t (TPunc T_Dec) then cret (Some (Post_Dec (tk_loc t)))
  else unread t ;;; cret None.

(** [into_assign_target] and [into_assign_patt] with the error wrapped as
    [Error::InvalidLHS] (src/parser.rs:1517-1526, 1535-1545, 1636-1641, ...) *)
Definition to_target' (e : expr) : C target :=
  match into_assign_target e with
  | inl c => cerr (InvalidLHS (expr_loc e) c)
  | inr t => cret t
  end.

Definition to_patt' (e : expr) : C (patt target) :=
  match into_assign_patt e with
  | inl c => cerr (InvalidLHS (expr_loc e) c)
  | inr t => cret t
  end.

(** src/parser.rs:1516-1527: apply a postfix operator *)
Definition apply_postfix' (p : postfix) (arg : expr) : C expr :=
  target <- to_target' arg ;;
  cret (match p with
       | Post_Inc l => E_PostInc (Some l) target
       | Post_Dec l => E_PostDec (Some l) target
       end).

(** src/parser.rs:1528-1548: apply the prefixes, innermost first *)
Fixpoint apply_prefixes' (ps : list prefix) (arg : expr) : C expr :=
  match ps with
  | [] => cret arg
  | Pre_Unop o :: ps' => apply_prefixes' ps' (E_Unop (span_of (op_loc o) (expr_loc arg)) o arg)
  | Pre_Inc l :: ps' => t <- to_target' arg ;; apply_prefixes' ps' (E_PreInc (Some l) t)
  | Pre_Dec l :: ps' => t <- to_target' arg ;; apply_prefixes' ps' (E_PreDec (Some l) t)
  end.

(** src/parser.rs:1511-1514: the prefixes *)
Definition read_prefixes' : C (list prefix) :=
  loop (fun ps =>
          o <- match_prefix' ;;
          match o with
          | Some p => cret (inl (ps ++ [p]))
          | None => cret (inr ps)
          end) [].

(** src/parser.rs:1510-1550 [unary_expression] *)
Definition unary_expression' : C expr :=
  prefixes <- read_prefixes' ;;
  arg <- lhs_expression' ;;
  o <- match_postfix_operator_opt' ;;
  arg <- (match o with Some p => apply_postfix' p arg | None => cret arg end) ;;
  apply_prefixes' (rev prefixes) arg.

(** src/parser.rs:1669-1678 [match_infix] *)
Definition match_infix' : C (option infix) :=
  t <- read_op ;;
  c <- get_context' ;;
  match token_infix t (cx_allow_in c) with
  | Some o => cret (Some o)
  | None => unread t ;;; cret None
  end.

(** src/parser.rs:1658-1667 [more_infix_expressions] *)
Definition more_infix_expressions' (left : expr) : C expr :=
  loop (fun '(stack, operand) =>
          o <- match_infix' ;;
          match o with
          | Some op =>
              let stack := stack_extend stack operand op in
              operand <- unary_expression' ;;
              cret (inl (stack, operand))
          | None => cret (inr (stack_finish stack operand))
          end) (stack_new, left).

(** src/parser.rs:1615-1624 [more_conditional] *)
Definition more_conditional' (left : expr) : C expr :=
  b <- matches_op (TPunc T_Question) ;;
  if b : bool then
    cons <- p_allow_in' true (r_assign' R) ;;
    expect (TPunc T_Colon) ;;;
    alt <- r_assign' R ;;
    cret (E_Cond (span_of (expr_loc cons) (expr_loc alt)) left cons alt)
  else cret left.

(** src/parser.rs:1609-1613 [conditional_expression] *)
Definition conditional_expression' : C expr :=
  left <- unary_expression' ;;
  test <- more_infix_expressions' left ;;
  more_conditional' test.

(** src/parser.rs:1634-1656 [more_assignment] *)
Definition more_assignment' (left : expr) : C expr :=
  t <- read_op ;;
  if is_t t (TPunc T_Assign) then
    lhs <- to_patt' left ;;
    right <- r_assign' R ;;
    cret (E_Assign (span_of (patt_target_loc lhs) (expr_loc right)) lhs right)
  else match to_assop t with
       | Some op =>
           lhs <- to_target' left ;;
           right <- r_assign' R ;;
           cret (E_BinAssign (span_of (target_loc lhs) (expr_loc right)) op lhs right)
       | None => unread t ;;; cret left
       end.

(** src/parser.rs:1629-1632 [assignment_expression] *)
Definition assignment_expression' : C expr :=
  left <- conditional_expression' ;; more_assignment' left.

(** ** Statements *)

(** src/parser.rs:501-506 [statement] *)
Definition statement' : C stmt :=
  i <- r_item' R false ;;
  match i with
  | I_Stmt s => cret s
  | I_Decl _ => cpanic P_unreachable
  end.

(** src/parser.rs:513-520: the labels after the first *)
Definition more_labels' (first : id) : C (list id) :=
  loop (fun labels =>
          t <- peek ;;
          match as_ident t with
          | Some _ =>
              t <- p_reread_token' ;;
              b <- matches_op (TPunc T_Colon) ;;
              if b : bool then
                i <- new_id_from_token' false t ;; cret (inl (labels ++ [i]))
              else unread t ;;; cret (inr labels)
          | None => cret (inr labels)
          end) [first].

(** src/parser.rs:508-524 [labelled_statement] *)
Definition labelled_statement' (i : id) : C stmt :=
  reread (TPunc T_Colon) ;;;
  labels <- more_labels' i ;;
  t <- peek ;;
  with_labels' labels (token_label_type t) statement'.

(** src/parser.rs:526-530 [expression_statement] *)
Definition expression_statement' : C stmt :=
  start <- p_posn' ;;
  e <- p_allow_in' true expression' ;;
  end_with_auto_semi' V stmt_set_loc start NL_Required (fun semi => S_Expr None e semi).

(** src/parser.rs:532-542 [block] *)
Definition block_' : C block :=
  p_span' block_set_loc (
    expect (TPunc T_LBrace) ;;;
    items <- statement_list' ;;
    expect (TPunc T_RBrace) ;;;
    cret (Block None items)).

(** src/parser.rs:615-635 [declarator] *)
Definition declarator' : C dtor :=
  p_span' dtor_set_loc (
    t <- peek ;;
    match as_ident t with
    | Some _ =>
        i <- p_id' true ;;
        b <- matches (TPunc T_Assign) ;;
        init <- (if b : bool then e <- r_assign' R ;; cret (Some e) else cret None) ;;
        cret (Dt_Simple None i init)
    | None =>
        lhs <- binding_pattern' ;;
        expect (TPunc T_Assign) ;;;
        rhs <- r_assign' R ;;
        cret (Dt_Compound None lhs rhs)
    end).

(** src/parser.rs:637-642 [const_declarator] *)
Definition const_declarator' : C const_dtor :=
  lhs <- pattern_' ;;
  expect (TPunc T_Assign) ;;;
  rhs <- r_assign' R ;;
  cret (const_dtor_from_init lhs rhs).

(** src/parser.rs:544-549 [var_statement] *)
Definition var_statement' : C stmt :=
  start <- p_posn' ;;
  reread (TReserved R_Var) ;;;
  ds <- comma_separated' declarator' ;;
  end_with_auto_semi' V stmt_set_loc start NL_Required (fun semi => S_Var None ds semi).

(** src/parser.rs:551-555 [let_declaration] *)
Definition let_declaration' (start : posn) : C decl :=
  ds <- comma_separated' declarator' ;;
  end_with_auto_semi' V decl_set_loc start NL_Required (fun semi => D_Let None ds semi).

(** src/parser.rs:557-562 [const_declaration] *)
Definition const_declaration' : C decl :=
  start <- p_posn' ;;
  reread (TReserved R_Const) ;;;
  ds <- comma_separated' const_declarator' ;;
  end_with_auto_semi' V decl_set_loc start NL_Required (fun semi => D_Const None ds semi).

(** src/parser.rs:644-649 [empty_statement] *)
Definition empty_statement' : C stmt :=
  p_span' stmt_set_loc (expect (TPunc T_Semi) ;;; cret (S_Empty None)).

(** src/parser.rs:651-664 [if_statement] *)
Definition if_statement' : C stmt :=
  p_span' stmt_set_loc (
    expect (TReserved R_If) ;;;
    test <- paren_expression' ;;
    cons <- statement' ;;
    t <- peek ;;
    alt <- (if is_t t (TReserved R_Else) then
              reread (TReserved R_Else) ;;; s <- statement' ;; cret (Some s)
            else cret None) ;;
    cret (S_If None test cons alt)).

(** src/parser.rs:666-671 [iteration_body] *)
Definition iteration_body' : C stmt :=
  c <- get_context' ;;
  modify_context' (set_iteration true) ;;;
  result <- statement' ;;
  modify_context' (set_iteration (cx_iteration c)) ;;;
  cret result.

(** src/parser.rs:673-682 [do_statement] *)
Definition do_statement' : C stmt :=
  start <- p_posn' ;;
  reread (TReserved R_Do) ;;;
  b <- iteration_body' ;;
  expect (TReserved R_While) ;;;
  test <- paren_expression' ;;
  end_with_auto_semi' V stmt_set_loc start NL_Optional (fun semi => S_DoWhile None b test semi).

(** src/parser.rs:684-691 [while_statement] *)
Definition while_statement' : C stmt :=
  p_span' stmt_set_loc (
    reread (TReserved R_While) ;;;
    test <- paren_expression' ;;
    b <- iteration_body' ;;
    cret (S_While None test b)).

(** src/parser.rs:937-945 [expression_opt_semi] *)
Definition expression_opt_semi' : C (option expr) :=
  b <- matches (TPunc T_Semi) ;;
  if b : bool then cret None
  else
    e <- p_allow_in' true expression' ;;
    expect (TPunc T_Semi) ;;;
    cret (Some e).

(** src/parser.rs:908-919 [more_for] *)
Definition more_for' (head : option for_head) : C stmt :=
  test <- expression_opt_semi' ;;
  b <- matches (TPunc T_RParen) ;;
  update <- (if b : bool then cret None
             else
               node <- p_allow_in' true expression' ;;
               expect (TPunc T_RParen) ;;;
               cret (Some node)) ;;
  b <- iteration_body' ;;
  cret (S_For None head test update b).

(** src/parser.rs:922-927 [more_for_in] *)
Definition more_for_in' (head : for_in_head) : C stmt :=
  obj <- p_allow_in' true (r_assign' R) ;;
  expect (TPunc T_RParen) ;;;
  b <- iteration_body' ;;
  cret (S_ForIn None head obj b).

(** src/parser.rs:930-935 [more_for_of] *)
Definition more_for_of' (head : for_of_head) : C stmt :=
  obj <- p_allow_in' true (r_assign' R) ;;
  expect (TPunc T_RParen) ;;;
  b <- iteration_body' ;;
  cret (S_ForOf None head obj b).

(** src/parser.rs:896-905 [more_for_head] *)
Definition more_for_head' (start : loc) (d : dtor) (op : loc -> list dtor -> for_head) : C stmt :=
  ds <- p_allow_in' false (more_comma' d declarator') ;;
  semi <- expect (TPunc T_Semi) ;;
  more_for' (Some (op (span_of start (Some (tk_loc semi))) ds)).

(** src/parser.rs:863-893 [for_expr] *)
Definition for_expr' : C stmt :=
  lhs <- p_allow_in' false expression' ;;
  t <- peek ;;
  if is_t t (TPunc T_Semi) then
    semi <- reread (TPunc T_Semi) ;;
    more_for' (Some (FH_Expr (span_of (expr_loc lhs) (Some (tk_loc semi))) lhs))
  else if is_t t (TReserved R_In) then
    reread (TReserved R_In) ;;;
    p <- to_patt' lhs ;;
    more_for_in' (FI_Patt p)
  else if is_t t (TIdent (NAtom A_Of)) then
    reread (TIdent (NAtom A_Of)) ;;;
    p <- to_patt' lhs ;;
    more_for_of' (FO_Patt p)
  else unexpected'.

(** src/parser.rs:711-774 [for_var] *)
Definition for_var' : C stmt :=
  var <- reread (TReserved R_Var) ;;
  let var_location := Some (tk_loc var) in
  lhs <- pattern_' ;;
  t <- peek ;;
  if is_t t (TPunc T_Assign) then
    reread (TPunc T_Assign) ;;;
    match lhs with
    | Simple i =>
        rhs <- p_allow_in' false (r_assign' R) ;;
        t <- peek ;;
        if is_t t (TPunc T_Comma) || is_t t (TPunc T_Semi) then
          more_for_head' var_location (dtor_from_simple_init i rhs) FH_Var
        else if is_t t (TReserved R_In) then
          reread (TReserved R_In) ;;;
          more_for_in' (FI_VarInit (span_of var_location (expr_loc rhs)) i rhs)
        else unexpected'
    | Compound p =>
        rhs <- p_allow_in' false (r_assign' R) ;;
        more_for_head' var_location (dtor_from_compound_init p rhs) FH_Var
    end
  else if is_t t (TPunc T_Comma) || is_t t (TPunc T_Semi) then
    match dtor_from_init_opt lhs None with
    | inl d => more_for_head' var_location d FH_Var
    | inr _ => unexpected'
    end
  else if is_t t (TReserved R_In) then
    reread (TReserved R_In) ;;;
    more_for_in' (FI_Var (span_of var_location (patt_id_loc lhs)) lhs)
  else if is_t t (TIdent (NAtom A_Of)) then
    reread (TIdent (NAtom A_Of)) ;;;
    more_for_of' (FO_Var (span_of var_location (patt_id_loc lhs)) lhs)
  else unexpected'.

(** src/parser.rs:777-822 [for_let] *)
Definition for_let' : C stmt :=
  let_ <- reread (TIdent (NAtom A_Let)) ;;
  t <- peek ;;
  if negb (first_binding t) then unread let_ ;;; for_expr'
  else
    let let_location := Some (tk_loc let_) in
    lhs <- pattern_' ;;
    t <- peek ;;
    if is_t t (TPunc T_Assign) then
      reread (TPunc T_Assign) ;;;
      rhs <- p_allow_in' false (r_assign' R) ;;
      more_for_head' let_location (dtor_from_init lhs rhs) FH_Let
    else if is_t t (TPunc T_Comma) || is_t t (TPunc T_Semi) then
      match dtor_from_init_opt lhs None with
      | inl d => more_for_head' let_location d FH_Let
      | inr _ => unexpected'
      end
    else if is_t t (TReserved R_In) then
      reread (TReserved R_In) ;;;
      more_for_in' (FI_Let (span_of let_location (patt_id_loc lhs)) lhs)
    else if is_t t (TIdent (NAtom A_Of)) then
      reread (TIdent (NAtom A_Of)) ;;;
      more_for_of' (FO_Let (span_of let_location (patt_id_loc lhs)) lhs)
    else unexpected'.

(** src/parser.rs:825-861 [for_const] *)
Definition for_const' : C stmt :=
  const <- reread (TReserved R_Const) ;;
  t <- peek ;;
  if negb (first_binding t) then unread const ;;; for_expr'
  else
    let const_location := Some (tk_loc const) in
    lhs <- pattern_' ;;
    t <- peek ;;
    if is_t t (TPunc T_Assign) then
      reread (TPunc T_Assign) ;;;
      ds <- p_allow_in' false (
              rhs <- r_assign' R ;;
              more_comma' (const_dtor_from_init lhs rhs) const_declarator') ;;
      semi <- expect (TPunc T_Semi) ;;
      more_for' (Some (FH_Const (span_of const_location (Some (tk_loc semi))) ds))
    else if is_t t (TReserved R_In) then
      reread (TReserved R_In) ;;;
      more_for_in' (FI_Const (span_of const_location (patt_id_loc lhs)) lhs)
    else if is_t t (TIdent (NAtom A_Of)) then
      reread (TIdent (NAtom A_Of)) ;;;
      more_for_of' (FO_Const (span_of const_location (patt_id_loc lhs)) lhs)
    else unexpected'.

(** src/parser.rs:693-708 [for_statement] *)
Definition for_statement' : C stmt :=
  p_span' stmt_set_loc (
    reread (TReserved R_For) ;;;
    expect (TPunc T_LParen) ;;;
    t <- peek ;;
    if is_t t (TReserved R_Var) then for_var'
    else if is_t t (TIdent (NAtom A_Let)) then for_let'
    else if is_t t (TReserved R_Const) then for_const'
    else if is_t t (TPunc T_Semi) then reread (TPunc T_Semi) ;;; more_for' None
    else for_expr').

(** src/parser.rs:997-1005 [case] *)
Definition case_' : C case :=
  p_span' case_set_loc (
    reread (TReserved R_Case) ;;;
    test <- p_allow_in' true expression' ;;
    expect (TPunc T_Colon) ;;;
    b <- statement_list' ;;
    cret (Case None (Some test) b)).

(** src/parser.rs:1007-1014 [default] *)
Definition default_' : C case :=
  p_span' case_set_loc (
    reread (TReserved R_Default) ;;;
    expect (TPunc T_Colon) ;;;
    b <- statement_list' ;;
    cret (Case None None b)).

(** src/parser.rs:975-995 [switch_cases] *)
Definition switch_cases' : C (list case) :=
  expect (TPunc T_LBrace) ;;;
  cases <- loop (fun '(cases, found_default) =>
      t <- peek ;;
      if is_t t (TReserved R_Case) then
        c <- case_' ;; cret (inl (cases ++ [c], found_default))
      else if is_t t (TReserved R_Default) then
        if found_default : bool then
          t <- reread (TReserved R_Default) ;; cerr (DuplicateDefault t)
        else c <- default_' ;; cret (inl (cases ++ [c], true))
      else cret (inr cases)) ([], false) ;;
  expect (TPunc T_RBrace) ;;;
  cret cases.

(** src/parser.rs:964-973 [switch_statement] *)
Definition switch_statement' : C stmt :=
  p_span' stmt_set_loc (
    reread (TReserved R_Switch) ;;;
    disc <- paren_expression' ;;
    c <- get_context' ;;
    modify_context' (set_switch true) ;;;
    cases <- switch_cases' ;;
    modify_context' (set_switch (cx_switch c)) ;;;
    cret (S_Switch None disc cases)).

(** src/parser.rs:1016-1034 [break_statement] *)
Definition break_statement' : C stmt :=
  start <- p_posn' ;;
  break <- reread (TReserved R_Break) ;;
  h <- p_has_arg_same_line' V ;;
  arg <- (if h : bool then
            i <- p_id' false ;;
            c <- get_context' ;;
            match labels_get (cx_labels c) (id_name i) with
            | None => cerr (InvalidLabel i)
            | Some _ => cret (Some i)
            end
          else
            c <- get_context' ;;
            if negb (cx_iteration c) && negb (cx_switch c) then cerr (IllegalBreak break)
            else cret None) ;;
  end_with_auto_semi' V stmt_set_loc start NL_Required (fun semi => S_Break None arg semi).

(** src/parser.rs:1036-1056 [continue_statement] *)
Definition continue_statement' : C stmt :=
  start <- p_posn' ;;
  continue <- reread (TReserved R_Continue) ;;
  h <- p_has_arg_same_line' V ;;
  arg <- (if h : bool then
            i <- p_id' false ;;
            c <- get_context' ;;
            match labels_get (cx_labels c) (id_name i) with
            | None => cerr (InvalidLabel i)
            | Some LT_Statement => cerr (InvalidLabelType i)
            | Some LT_Iteration => cret (Some i)
            end
          else
            c <- get_context' ;;
            if negb (cx_iteration c) then cerr (IllegalContinue continue)
            else cret None) ;;
  end_with_auto_semi' V stmt_set_loc start NL_Required (fun semi => S_Cont None arg semi).

(** src/parser.rs:1058-1074 [return_statement] *)
Definition return_statement' : C stmt :=
  start <- p_posn' ;;
  reread (TReserved R_Return) ;;;
  h <- p_has_arg_same_line' V ;;
  arg <- (if h : bool then e <- p_allow_in' true expression' ;; cret (Some e) else cret None) ;;
  result <- end_with_auto_semi' V stmt_set_loc start NL_Required (fun semi => S_Return None arg semi) ;;
  c <- get_context' ;;
  if negb (cx_function c) then
    match stmt_loc result with
    | Some l => cerr (TopLevelReturn l)
    | None => cpanic P_unwrap
    end
  else cret result.

(** src/parser.rs:1076-1086 [with_statement] *)
Definition with_statement' : C stmt :=
  p_span' stmt_set_loc (
    t <- reread (TReserved R_With) ;;
    strict_check' (cret (Some (Ck_Strict (StrictWith t)))) ;;;
    obj <- paren_expression' ;;
    b <- statement' ;;
    cret (S_With None obj b)).

(** src/parser.rs:1088-1098 [throw_statement] *)
Definition throw_statement' : C stmt :=
  start <- p_posn' ;;
  t <- reread (TReserved R_Throw) ;;
  h <- p_has_arg_same_line' V ;;
  if negb h then cerr (ThrowArgument t)
  else
    arg <- p_allow_in' true expression' ;;
    end_with_auto_semi' V stmt_set_loc start NL_Required (fun semi => S_Throw None arg semi).

(** src/parser.rs:1117-1132 [catch_opt] *)
Definition catch_opt' : C (option catch) :=
  t <- peek ;;
  if is_t t (TReserved R_Catch) then
    c <- p_span' catch_set_loc (
           reread (TReserved R_Catch) ;;;
           expect (TPunc T_LParen) ;;;
           param <- pattern_' ;;
           expect (TPunc T_RParen) ;;;
           b <- block_' ;;
           cret (Catch None param b)) ;;
    cret (Some c)
  else cret None.

(** src/parser.rs:1134-1142 [finally_opt] *)
Definition finally_opt' : C (option block) :=
  t <- peek ;;
  if is_t t (TReserved R_Finally) then
    reread (TReserved R_Finally) ;;; b <- block_' ;; cret (Some b)
  else cret None.

(** src/parser.rs:1100-1115 [try_statement] *)
Definition try_statement' : C stmt :=
  p_span' stmt_set_loc (
    reread (TReserved R_Try) ;;;
    b <- block_' ;;
    t <- peek ;;
    if is_t t (TReserved R_Catch) || is_t t (TReserved R_Finally) then
      c <- catch_opt' ;;
      f <- finally_opt' ;;
      cret (S_Try None b c f)
    else t <- read ;; cerr (OrphanTry t)).

(** src/parser.rs:1144-1148 [debugger_statement] *)
Definition debugger_statement' : C stmt :=
  start <- p_posn' ;;
  reread (TReserved R_Debugger) ;;;
  end_with_auto_semi' V stmt_set_loc start NL_Required (fun semi => S_Debugger None semi).

(** src/parser.rs:478-496: a statement or declaration starting with an identifier *)
Definition ident_item' (allow_decl : bool) : C item :=
  t <- p_reread_token' ;;
  next <- peek_op ;;
  if is_t next (TPunc T_Colon) then
    i <- new_id_from_token' false t ;;
    s <- labelled_statement' i ;;
    cret (I_Stmt s)
  else if first_binding next && is_t t (TIdent (NAtom A_Let)) then
    if negb allow_decl then unexpected'
    else d <- let_declaration' (sp_start (tk_loc t)) ;; cret (I_Decl d)
  else unread t ;;; s <- expression_statement' ;; cret (I_Stmt s).

(** src/parser.rs:449-499 [stmt_list_item] *)
Definition stmt_list_item' (allow_decl : bool) : C item :=
  t <- peek ;;
  if is_t t (TReserved R_Function) then
    if negb allow_decl then unexpected'
    else d <- function_declaration' ;; cret (I_Decl d)
  else if is_t t (TPunc T_LBrace) then b <- block_' ;; cret (I_Stmt (S_Block b))
  else if is_t t (TReserved R_Var) then s <- var_statement' ;; cret (I_Stmt s)
  else if is_t t (TReserved R_Const) then
    if negb allow_decl then unexpected'
    else d <- const_declaration' ;; cret (I_Decl d)
  else if is_t t (TPunc T_Semi) then s <- empty_statement' ;; cret (I_Stmt s)
  else if is_t t (TReserved R_If) then s <- if_statement' ;; cret (I_Stmt s)
  else if is_t t (TReserved R_Continue) then s <- continue_statement' ;; cret (I_Stmt s)
  else if is_t t (TReserved R_Break) then s <- break_statement' ;; cret (I_Stmt s)
  else if is_t t (TReserved R_Return) then s <- return_statement' ;; cret (I_Stmt s)
  else if is_t t (TReserved R_With) then s <- with_statement' ;; cret (I_Stmt s)
  else if is_t t (TReserved R_Switch) then s <- switch_statement' ;; cret (I_Stmt s)
  else if is_t t (TReserved R_Throw) then s <- throw_statement' ;; cret (I_Stmt s)
  else if is_t t (TReserved R_Try) then s <- try_statement' ;; cret (I_Stmt s)
  else if is_t t (TReserved R_While) then s <- while_statement' ;; cret (I_Stmt s)
  else if is_t t (TReserved R_Do) then s <- do_statement' ;; cret (I_Stmt s)
  else if is_t t (TReserved R_For) then s <- for_statement' ;; cret (I_Stmt s)
  else if is_t t (TReserved R_Debugger) then s <- debugger_statement' ;; cret (I_Stmt s)
  else match as_ident t with
       | Some _ => ident_item' allow_decl
       | None => s <- expression_statement' ;; cret (I_Stmt s)
       end.

(** ** Programs *)

(** src/parser.rs:299-314 [more_module_items] *)
Definition more_module_items' (items : list mod_item) : C (list mod_item) :=
  loop (fun items =>
          t <- peek ;;
          if is_t t (TPunc T_EOF) then cret (inr items)
          else if is_t t (TReserved R_Import) || is_t t (TReserved R_Export)
               then cpanic P_unimplemented
          else i <- r_item' R true ;; cret (inl (items ++ [MI_Item i]))) items.

(** src/parser.rs:295-297 [module_items] *)
Definition module_items' : C (list mod_item) := more_module_items' [].

Definition force_deferred_module_validation' : C unit :=
  d <- take_deferred' ;;
  match perform_all true d with Some e => cerr e | None => cret tt end.

(** src/parser.rs:274-293 [program_items] *)
Definition program_items_' : C program_items :=
  loop (fun stmts =>
          t <- peek ;;
          if is_t t (TPunc T_EOF) then cret (inr (PI_Script stmts))
          else if is_t t (TReserved R_Import) || is_t t (TReserved R_Export) then
            force_deferred_module_validation' ;;;
            items <- more_module_items' (map item_into_mod_item stmts) ;;
            cret (inr (PI_Module items))
          else i <- r_item' R true ;; cret (inl (stmts ++ [i]))) [].

(** [debug_assert_eq!(self.goal, Goal::Unknown)] *)
Definition assert_goal_unknown' : C unit :=
  g <- cgets p_goal ;;
  if goal_eqb g G_Unknown then cret tt else cpanic P_assert.

(** src/parser.rs:189-199 [module] *)
Definition module_' : C module :=
  assert_goal_unknown' ;;;
  set_module' ;;;
  p_span' body_set_loc (
    dirs <- body_directives' ;;
    items <- module_items' ;;
    cret (Body None dirs items)).

(** src/parser.rs:201-222 [program] *)
Definition program_' : C program :=
  assert_goal_unknown' ;;;
  p_span' program_set_loc (
    dirs <- body_directives' ;;
    items <- program_items_' ;;
    match items with
    | PI_Script items =>
        checks <- take_deferred' ;;
        cret (Pg_Ambiguous checks (Body None dirs items))
    | PI_Module items => cret (Pg_Module (Body None dirs items))
    end).

(** src/parser.rs:224-229 [script] *)
Definition script_' (strict : bool) : C script :=
  assert_goal_unknown' ;;;
  cmodify (set_goal G_Script) ;;;
  modify_context' (set_strict (tri_of_bool strict)) ;;;
  script_body'.

End WithEnv.

(** The parser's recursion, tied on fuel. *)
Fixpoint parse_rec' (V : env) (fuel : nat) : recs' :=
  match fuel with
  | O => Recs' cnofuel (fun _ => cnofuel) O
  | S fuel' =>
      let R := parse_rec' V fuel' in
      Recs' (assignment_expression' V R) (stmt_list_item' V R) fuel'
  end.

(** ** Api.v *)

(** The record and the result of a method on a fresh parser. *)
Definition crun {A} (p : C A) (s : pst) : log * res perror A :=
  let '(n, r) := p s in
  (n, match r with
      | Ok (a, _) => Ok a
      | Err e => Err e
      | Panic k => Panic k
      | NoFuel => NoFuel
      end).

(** src/lib.rs:37-39 *)
Definition script_of' (V : env) (src : str) : log * res perror script :=
  crun (script_' V (parse_rec' V (fuel_for src)) false) (parser_new src).
(** src/lib.rs:41-43 *)
Definition strict_of' (V : env) (src : str) : log * res perror script :=
  crun (script_' V (parse_rec' V (fuel_for src)) true) (parser_new src).
(** src/lib.rs:45-47 *)
Definition module_of' (V : env) (src : str) : log * res perror module :=
  crun (module_' V (parse_rec' V (fuel_for src))) (parser_new src).
(** src/lib.rs:49-51 *)
Definition program_of' (V : env) (src : str) : log * res perror program :=
  crun (program_' V (parse_rec' V (fuel_for src))) (parser_new src).
