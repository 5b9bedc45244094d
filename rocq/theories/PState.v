(** Parser state, errors, contexts and token utilities.
    Models src/{context,error,tokens,atom,state,track,expr}.rs. *)
From Coq Require Import String Ascii List NArith Bool.
From Verif Require Import Base Chars Word Token Reader Lexer Punc Ast Track Cover.
Import ListNotations.
Open Scope N_scope.

(** crate tristate *)
Inductive tri : Type := No | Unknown | Yes.
Definition tri_eqb (a b : tri) : bool :=
  match a, b with No, No | Unknown, Unknown | Yes, Yes => true | _, _ => false end.
Definition tri_of_bool (b : bool) : tri := if b then Yes else No.

(** src/context.rs:53-56 *)
Inductive label_type : Type := LT_Statement | LT_Iteration.

(** src/context.rs:59-63 *)
Inductive goal : Type := G_Script | G_Module | G_Unknown.
Definition goal_eqb (a b : goal) : bool :=
  match a, b with
  | G_Script, G_Script | G_Module, G_Module | G_Unknown, G_Unknown => true
  | _, _ => false
  end.

(** src/context.rs:76: the [HashMap<Rc<Name>, LabelType>], as an association list
    with at most one entry per key. *)
Definition labels : Type := list (name * label_type).
Fixpoint labels_get (m : labels) (n : name) : option label_type :=
  match m with
  | [] => None
  | (k, v) :: m' => if name_eqb k n then Some v else labels_get m' n
  end.
Definition labels_remove (m : labels) (n : name) : labels :=
  filter (fun kv => negb (name_eqb (fst kv) n)) m.
Definition labels_insert (m : labels) (n : name) (t : label_type) : labels :=
  (n, t) :: labels_remove m n.

(** src/context.rs:70-77 *)
Record context : Type := Context {
  cx_strict : tri; cx_function : bool; cx_iteration : bool; cx_switch : bool;
  cx_allow_in : bool; cx_labels : labels }.

(** src/context.rs:80-89 *)
Definition context_new : context := Context Unknown false false false true [].

(** src/context.rs:91-100 *)
Definition context_new_function (c : context) : context :=
  Context (cx_strict c) true false false true [].

(** src/error.rs:15-38 *)
Inductive perror : Type :=
| UnexpectedToken (t : token)
| FailedASI (t : token)
| LexError (e : lex_error)
| TopLevelReturn (s : span)
| IllegalBreak (t : token)
| IllegalContinue (t : token)
| InvalidLabel (i : id)
| InvalidLabelType (i : id)
| ContextualKeyword (s : span) (a : atom)
| IllegalStrictBinding (s : span) (a : atom)
| UnexpectedDirective (l : loc) (s : string_literal)
| UnexpectedModule (l : loc)
| ImportInScript (i : import)
| ExportInScript (e : export)
| ForOfLetExpr (s : span)
| DuplicateDefault (t : token)
| StrictWith (t : token)
| ThrowArgument (t : token)
| OrphanTry (t : token)
| InvalidLHS (l : loc) (e : cover_error)
| UnsupportedFeature (s : str)
| CompoundParamWithUseStrict (p : cpatt id).

(** src/error.rs:85-88 *)
Inductive check : Type :=
| Ck_Strict (e : perror)
| Ck_Module (e : perror).

(** src/error.rs:91-102 [Check::perform]; [Some e] is [Err(e)] *)
Definition check_perform (c : check) (module : bool) : option perror :=
  match c with
  | Ck_Strict e => Some e
  | Ck_Module e => if module then Some e else None
  end.

(** src/parser.rs:31-37.  The field [validate] is not represented: it is always
    [true] (parser.rs:145 is the only use of the constructor, and the module is
    private, lib.rs:24). *)
Record pst : Type := PSt {
  p_goal : goal; p_deferred : list check; p_lexer : lexer; p_context : context }.

Definition P (A : Type) : Type := M pst perror A.

Definition set_goal (g : goal) (s : pst) : pst := PSt g (p_deferred s) (p_lexer s) (p_context s).
Definition set_deferred (d : list check) (s : pst) : pst := PSt (p_goal s) d (p_lexer s) (p_context s).
Definition set_lexer (x : lexer) (s : pst) : pst := PSt (p_goal s) (p_deferred s) x (p_context s).
Definition set_context (c : context) (s : pst) : pst := PSt (p_goal s) (p_deferred s) (p_lexer s) c.
Definition set_strict (b : tri) (c : context) : context :=
  Context b (cx_function c) (cx_iteration c) (cx_switch c) (cx_allow_in c) (cx_labels c).
Definition set_iteration (b : bool) (c : context) : context :=
  Context (cx_strict c) (cx_function c) b (cx_switch c) (cx_allow_in c) (cx_labels c).
Definition set_switch (b : bool) (c : context) : context :=
  Context (cx_strict c) (cx_function c) (cx_iteration c) b (cx_allow_in c) (cx_labels c).
Definition set_allow_in (b : bool) (c : context) : context :=
  Context (cx_strict c) (cx_function c) (cx_iteration c) (cx_switch c) b (cx_labels c).
Definition set_labels (m : labels) (c : context) : context :=
  Context (cx_strict c) (cx_function c) (cx_iteration c) (cx_switch c) (cx_allow_in c) m.

Definition get_context : P context := gets p_context.
Definition modify_context (f : context -> context) : P unit :=
  modify (fun s => set_context (f (p_context s)) s).

(** Matching a token against one constant [TokenData] pattern. *)
Definition is_t (t : token) (d : token_data) : bool := td_eqb (tk_value t) d.
(** Matching a token against [TokenData::Identifier(name)]. *)
Definition as_ident (t : token) : option name :=
  match tk_value t with TIdent n => Some n | _ => None end.

(** ** src/tokens.rs *)

(** src/tokens.rs:25-32 *)
Definition first_binding (t : token) : bool :=
  match tk_value t with
  | TPunc T_LBrace | TPunc T_LBrack | TIdent _ => true
  | _ => false
  end.

(** src/tokens.rs:68-76 *)
Definition follow_statement_list (t : token) : bool :=
  match tk_value t with
  | TReserved R_Case | TReserved R_Default | TPunc T_EOF | TPunc T_RBrace => true
  | _ => false
  end.

(** src/tokens.rs:78-111 *)
Definition expression_continuation (t : token) : bool :=
  match tk_value t with
  | TPunc T_Semi | TPunc T_RBrace | TPunc T_EOF => false
  | TReserved R_In | TReserved R_Instanceof => true
  | TPunc T_Inc | TPunc T_Dec => negb (tk_newline t)
  | TReserved _ => false
  | TPunc T_LBrace | TPunc T_RBrack | TPunc T_RParen | TPunc T_Bang | TPunc T_Tilde
  | TPunc T_Colon | TPunc T_Arrow => false
  | TNumber _ | TString _ | TRegExp _ | TIdent _ => false
  | _ => true
  end.

(** src/tokens.rs:119-126 *)
Definition token_label_type (t : token) : label_type :=
  match tk_value t with
  | TReserved R_Do | TReserved R_While | TReserved R_For => LT_Iteration
  | _ => LT_Statement
  end.

(** ** src/atom.rs *)

(** src/atom.rs:26-43, 10-15 *)
Definition atom_strict_reserved (a : atom) : tri :=
  match a with
  | A_Await => Unknown
  | A_Implements | A_Interface | A_Let | A_Package | A_Private | A_Protected
  | A_Public | A_Static | A_Yield => Yes
  | _ => No
  end.
Definition name_strict_reserved (n : name) : tri :=
  match n with NAtom a => atom_strict_reserved a | NString _ => No end.

(** src/atom.rs:46-52, 17-22 *)
Definition atom_illegal_strict_binding (a : atom) : bool :=
  match a with A_Arguments | A_Eval => true | _ => false end.
Definition name_illegal_strict_binding (n : name) : bool :=
  match n with NAtom a => atom_illegal_strict_binding a | NString _ => false end.

Section WithEnv.
Context (V : env).

(** ** src/state.rs *)

(** Run a lexer operation, mapping errors with [Error::LexError]. *)
Definition lex {A} (m : XM A) : P A :=
  fun s => match m (p_lexer s) with
           | Ok (a, x) => Ok (a, set_lexer x s)
           | Err e => Err (LexError e)
           | Panic k => Panic k
           | NoFuel => NoFuel
           end.

(** src/state.rs:21-39 *)
Definition p_skip : P unit := lex (skip_token V false).
Definition p_read : P token := lex (read_token V false).
Definition p_read_op : P token := lex (read_token V true).
Definition p_peek : P token := lex (peek_token V false).
Definition p_peek_op : P token := lex (peek_token V true).
Definition p_unread (t : token) : P unit := lex (unread_token t).
Definition p_reread_token : P token := lex reread_token.

(** src/state.rs:41-47 [expect] *)
Definition p_expect (expected : token_data) : P token :=
  t <- p_read ;;
  if is_t t expected then ret t else err (UnexpectedToken t).

(** src/state.rs:49-56 [matches_token] *)
Definition p_matches_token (expected : token_data) : P (option token) :=
  t <- p_read ;;
  if is_t t expected then ret (Some t) else p_unread t ;;; ret None.

(** src/state.rs:58-65 [matches]; 67-74 [matches_op] *)
Definition p_matches (expected : token_data) : P bool :=
  t <- p_read ;;
  if is_t t expected then ret true else p_unread t ;;; ret false.
Definition p_matches_op (expected : token_data) : P bool :=
  t <- p_read_op ;;
  if is_t t expected then ret true else p_unread t ;;; ret false.

(** src/state.rs:76-81 [reread] *)
Definition p_reread (expected : token_data) : P token :=
  t <- lex repeek_token ;;
  if is_t t expected then lex reread_token else panic_at P_assert.

(** src/state.rs:83-86 [has_arg_same_line] *)
Definition p_has_arg_same_line : P bool :=
  t <- p_peek ;;
  ret (negb (tk_newline t) && negb (is_t t (TPunc T_Semi))
       && negb (is_t t (TPunc T_RBrace))).

(** ** src/track.rs *)

(** src/track.rs:28-30 [posn]; 32-34 [start] *)
Definition p_posn : P posn := gets (fun s => lexer_posn (p_lexer s)).

(** src/track.rs:19-26 [vec_span], given the elements' locations *)
Definition p_vec_span (ls : list loc) : P loc :=
  match ls with
  | [] => here <- p_posn ;; ret (Some (Span here here))
  | l :: _ => ret (span_of l (last ls l))
  end.

(** src/track.rs:36-45 [span]; [set] is assignment through [tracking_mut] *)
Definition p_span {A} (set : A -> loc -> A) (parse : P A) : P A :=
  start <- p_posn ;;
  v <- parse ;;
  e <- p_posn ;;
  ret (set v (Some (Span start e))).

(** src/track.rs:49-52 *)
Inductive newline : Type := NL_Required | NL_Optional.

(** src/track.rs:71-101 [end_with_auto_semi] *)
Definition end_with_auto_semi {A} (set : A -> loc -> A) (start : posn) (nl : newline)
    (cons : semi -> A) : P A :=
  before <- p_posn ;;
  t <- p_peek ;;
  if is_t t (TPunc T_Semi) then
    p_reread (TPunc T_Semi) ;;;
    e <- p_posn ;;
    ret (set (cons (Explicit (Some (sp_start (tk_loc t))))) (Some (Span start e)))
  else if is_t t (TPunc T_RBrace) || is_t t (TPunc T_EOF) then
    ret (set (cons Inserted) (Some (Span start before)))
  else if match nl with NL_Required => negb (tk_newline t) | NL_Optional => false end then
    t' <- p_read ;; err (FailedASI t')
  else ret (set (cons Inserted) (Some (Span start before))).

(** ** src/context.rs *)

(** src/context.rs:42-49 [allow_in] (an error abandons the whole parse, so the
    restoration on the error path is not represented) *)
Definition p_allow_in {A} (b : bool) (parse : P A) : P A :=
  c <- get_context ;;
  modify_context (set_allow_in b) ;;;
  r <- parse ;;
  modify_context (set_allow_in (cx_allow_in c)) ;;;
  ret r.

(** src/context.rs:24-28: insert every label *)
Definition insert_labels (ls : list id) (t : label_type) (m : labels) : labels :=
  fold_left (fun m i => labels_insert m (id_name i) t) ls m.
(** src/context.rs:30-32: remove every label *)
Definition remove_labels (ls : list id) (m : labels) : labels :=
  fold_left (fun m i => labels_remove m (id_name i)) ls m.
(** src/context.rs:34-38: wrap the body, innermost label last *)
Definition wrap_labels (ls : list id) (b : stmt) : stmt :=
  fold_left (fun b i => S_Label (span_of (id_loc i) (stmt_loc b)) i b) (rev ls) b.

(** src/context.rs:20-40 [with_labels] *)
Definition with_labels (ls : list id) (t : label_type) (op : P stmt) : P stmt :=
  modify_context (fun c => set_labels (insert_labels ls t (cx_labels c)) c) ;;;
  b <- op ;;
  modify_context (fun c => set_labels (remove_labels ls (cx_labels c)) c) ;;;
  ret (wrap_labels ls b).
End WithEnv.

(** ** src/expr.rs *)

(** src/expr.rs:7-11 *)
Inductive prefix : Type := Pre_Unop (o : unop) | Pre_Inc (s : span) | Pre_Dec (s : span).
(** src/expr.rs:13-16 *)
Inductive postfix : Type := Post_Inc (s : span) | Post_Dec (s : span).
(** src/expr.rs:18-21 *)
Inductive deref : Type := De_Brack (e : expr) (end_ : token) | De_Dot (k : dot_key).
(** src/expr.rs:41-44 *)
Record arguments : Type := Arguments_ { args_list : list eli; args_end : token }.
(** src/expr.rs:36-39 *)
Inductive suffix : Type := Su_Deref (d : deref) | Su_Arguments (a : arguments).

(** src/expr.rs:24-33 *)
Definition deref_append_to (d : deref) (e : expr) : expr :=
  match d with
  | De_Brack k end_ => E_Brack (span_of (expr_loc e) (Some (tk_loc end_))) e k
  | De_Dot k => E_Dot (span_of (expr_loc e) (dk_loc k)) e k
  end.
(** src/expr.rs:47-49 *)
Definition arguments_append_to (a : arguments) (e : expr) : expr :=
  E_Call (span_of (expr_loc e) (Some (tk_loc (args_end a)))) e (args_list a).
(** src/expr.rs:51-53 *)
Definition arguments_append_to_new (a : arguments) (new : token) (e : expr) : expr :=
  E_New (span_of (Some (tk_loc new)) (Some (tk_loc (args_end a)))) e (Some (args_list a)).
(** src/expr.rs:57-62 *)
Definition suffix_append_to (s : suffix) (e : expr) : expr :=
  match s with
  | Su_Deref d => deref_append_to d e
  | Su_Arguments a => arguments_append_to a e
  end.
