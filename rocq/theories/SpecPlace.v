(** Vocabulary for properties of whole trees: what surrounds a node, which names it
    binds, and where its semicolon is. *)
From Coq Require Import String Ascii List NArith Bool.
From Verif Require Import Base Word Token Punc Ast Node SpecGrammar.
Import ListNotations.
Local Open Scope nat_scope.

(** What surrounds a node, up to the nearest function: whether there is a function, a
    loop, a switch, and the labels, innermost first, each with whether it is the label
    of a loop. *)
Record around : Type := Around {
  ar_fun : bool; ar_loop : bool; ar_switch : bool; ar_labels : list (name * bool) }.
Definition nothing : around := Around false false false [].

(** What surrounds the child [x] of the node [n], if [c] surrounds [n]. *)
Definition enter (n x : node) (c : around) : around :=
  match n, x with
  | N_stmt (S_While _ _ _), N_stmt _ | N_stmt (S_DoWhile _ _ _ _), N_stmt _
  | N_stmt (S_For _ _ _ _ _), N_stmt _ | N_stmt (S_ForIn _ _ _ _), N_stmt _
  | N_stmt (S_ForOf _ _ _ _), N_stmt _ => Around (ar_fun c) true (ar_switch c) (ar_labels c)
  | N_stmt (S_Switch _ _ _), N_case _ => Around (ar_fun c) (ar_loop c) true (ar_labels c)
  | N_stmt (S_Label _ i b), N_stmt _ =>
      Around (ar_fun c) (ar_loop c) (ar_switch c) ((id_name i, is_loop b) :: ar_labels c)
  | N_fexpr _, N_body _ | N_fmeth _, N_body _ | N_fdecl _, N_body _ | N_pval _, N_body _ =>
      Around true false false []
  | _, _ => c
  end.

(** [inside n c m d]: [m] is [n] or a node below it; if [c] surrounds [n] then [d]
    surrounds [m]. *)
Inductive inside (n : node) (c : around) : node -> around -> Prop :=
| is_refl : inside n c n c
| is_step : forall m d x, inside n c m d -> In x (children m) -> inside n c x (enter m x d).

(** C36 *)
Definition jump_ok (d : around) (m : node) : Prop :=
  match m with
  | N_stmt (S_Break _ None _) => ar_loop d = true \/ ar_switch d = true
  | N_stmt (S_Break _ (Some i) _) => exists k, label_in (ar_labels d) (id_name i) k
  | N_stmt (S_Cont _ None _) => ar_loop d = true
  | N_stmt (S_Cont _ (Some i) _) => label_in (ar_labels d) (id_name i) true
  | N_stmt (S_Return _ _ _) => ar_fun d = true
  | _ => True
  end.

(** C38 *)
Definition clauses_ok (m : node) : Prop :=
  match m with
  | N_stmt (S_Switch _ _ cs) => length (filter is_default cs) <= 1
  | N_stmt (S_Try _ _ c f) => c <> None \/ f <> None
  | _ => True
  end.

(** C34: the names a node binds, and what is allowed in strict code. *)
Definition binds (m : node) : list id :=
  match m with
  | N_dtor (Dt_Simple _ i _) => [i]
  | N_fi (FI_VarInit _ i _) => [i]
  | N_ipatt (Simple i) => [i]
  | N_fdecl f => [fn_id f]
  | N_fexpr f => match fn_id f with Some i => [i] | None => [] end
  | _ => []
  end.
Definition strict_ok (module : bool) (m : node) : Prop :=
  (forall l e b, m <> N_stmt (S_With l e b))
  /\ (forall i, In i (binds m) -> ~ In (id_name i) unbindable)
  /\ (forall i, m = N_id i -> ~ In (id_name i) strict_names
                              /\ (module = true -> id_name i <> NAtom A_Await)).

(** C39: [all] are the tokens of the input.  An explicit semicolon is at one of
    them; an inserted one stands before a token [t] that allows it, and the statement,
    declaration or directive is made of the tokens just before [t]. *)
Definition derived (g : place) (m : node) (i o : tokens) : Prop :=
  match m with
  | N_stmt s => G g Statement i o s
  | N_decl d => G g Declaration i o d
  | N_dir d => G g Directive i o d
  | _ => False
  end.
Definition semi_ok (all : tokens) (m : node) : Prop :=
  forall sm, node_semi m = Some sm ->
  exists g before i t after, all = before ++ i
    /\ match sm with
       | Explicit p => derived g m i after /\ p = Some (sp_start (tk_loc t)) /\ tk_value t = TPunc T_Semi
                       /\ exists own, i = own ++ t :: after
       | Inserted => derived g m i (t :: after)
                     /\ (tk_newline t = true \/ tk_value t = TPunc T_RBrace \/ tk_value t = TPunc T_EOF
                         \/ exists l b e sm', m = N_stmt (S_DoWhile l b e sm'))
       end.

