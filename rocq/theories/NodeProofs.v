(** Induction over the nodes of a tree. *)
From Coq Require Import String Ascii List NArith Bool.
From Verif Require Import Base Word Token Punc Ast Track Node.
Import ListNotations.

Section Ind.
Context (P : node -> Prop).

Fixpoint all (l : list node) : Prop :=
  match l with [] => True | n :: l' => P n /\ all l' end.

Lemma all_app a b : all a -> all b -> all (a ++ b).
Proof. induction a as [|n a IH]; cbn; [auto|]. intros [H1 H2] H3. split; auto. Defined.

Lemma all_in l : all l <-> (forall m, In m l -> P m).
Proof.
  induction l as [|n l IH]; cbn.
  - split; [intros _ m []|auto].
  - split.
    + intros [H1 H2] m [<-|H]; [exact H1|]. apply IH; auto.
    + intros H. split; [apply H; auto|]. apply IH. intros m Hm. apply H. auto.
Qed.

Definition all_list {A} (f : A -> node) (F : forall a, P (f a)) : forall l, all (of_list f l) :=
  fix go l := match l return all (of_list f l) with
              | [] => I
              | a :: l' => conj (F a) (go l')
              end.
Definition all_opt {A} (f : A -> node) (F : forall a, P (f a)) (o : option A) : all (of_opt f o) :=
  match o return all (of_opt f o) with
  | Some a => conj (F a) I
  | None => I
  end.
Definition all_holes {A} (f : A -> node) (F : forall a, P (f a)) : forall l, all (of_holes f l) :=
  fix go l := match l return all (of_holes f l) with
              | [] => I
              | o :: l' => all_app _ _ (all_opt f F o) (go l')
              end.

Context (step : forall n, all (children n) -> P n).

Definition P_id (i : id) : P (N_id i) := step (N_id i) I.
Definition P_pk (k : prop_key) : P (N_pk k) := step (N_pk k) I.
Definition P_dk (k : dot_key) : P (N_dk k) := step (N_dk k) I.
Definition P_dir (k : dir) : P (N_dir k) := step (N_dir k) I.
Definition P_unop (k : unop) : P (N_unop k) := step (N_unop k) I.
Definition P_binop (k : binop) : P (N_binop k) := step (N_binop k) I.
Definition P_logop (k : logop) : P (N_logop k) := step (N_logop k) I.
Definition P_assop (k : assop) : P (N_assop k) := step (N_assop k) I.

(** Patterns over targets, given the targets. *)
Section TPatt.
Context (F : forall t, P (N_target t)).
Definition P_trest_of (f : forall p, P (N_tpatt p)) (r : rest_patt target) : P (N_trest r) :=
  step (N_trest r) (conj (f (rp_patt r)) I).
Definition P_tpatt_of (f : forall c, P (N_tpatt (Compound c))) (p : patt target) : P (N_tpatt p) :=
  match p return P (N_tpatt p) with
  | Simple t => step (N_tpatt (Simple t)) (conj (F t) I)
  | Compound c => f c
  end.
Definition P_tpp_of (f : forall p, P (N_tpatt p)) (p : prop_patt target) : P (N_tpp p) :=
  match p return P (N_tpp p) with
  | PP_Regular l k q => step (N_tpp (PP_Regular l k q)) (conj (P_pk k) (conj (f q) I))
  | PP_Shorthand i => step (N_tpp (PP_Shorthand i)) (conj (P_id i) I)
  end.
Definition P_tcpatt : forall c, P (N_tpatt (Compound c)) :=
  fix go (c : cpatt target) : P (N_tpatt (Compound c)) :=
    match c return P (N_tpatt (Compound c)) with
    | C_Arr l es r =>
        step (N_tpatt (Compound (C_Arr l es r)))
          (all_app _ _ (all_holes N_tpatt (P_tpatt_of go) es)
                       (all_opt N_trest (P_trest_of (P_tpatt_of go)) r))
    | C_Obj l ps =>
        step (N_tpatt (Compound (C_Obj l ps))) (all_list N_tpp (P_tpp_of (P_tpatt_of go)) ps)
    end.
Definition P_tpatt : forall p, P (N_tpatt p) := P_tpatt_of P_tcpatt.
End TPatt.

(** Patterns over identifiers. *)
Definition P_irest_of (f : forall p, P (N_ipatt p)) (r : rest_patt id) : P (N_irest r) :=
  step (N_irest r) (conj (f (rp_patt r)) I).
Definition P_ipatt_of (f : forall c, P (N_ipatt (Compound c))) (p : patt id) : P (N_ipatt p) :=
  match p return P (N_ipatt p) with
  | Simple t => step (N_ipatt (Simple t)) (conj (P_id t) I)
  | Compound c => f c
  end.
Definition P_ipp_of (f : forall p, P (N_ipatt p)) (p : prop_patt id) : P (N_ipp p) :=
  match p return P (N_ipp p) with
  | PP_Regular l k q => step (N_ipp (PP_Regular l k q)) (conj (P_pk k) (conj (f q) I))
  | PP_Shorthand i => step (N_ipp (PP_Shorthand i)) (conj (P_id i) I)
  end.
Definition P_icpatt : forall c, P (N_ipatt (Compound c)) :=
  fix go (c : cpatt id) : P (N_ipatt (Compound c)) :=
    match c return P (N_ipatt (Compound c)) with
    | C_Arr l es r =>
        step (N_ipatt (Compound (C_Arr l es r)))
          (all_app _ _ (all_holes N_ipatt (P_ipatt_of go) es)
                       (all_opt N_irest (P_irest_of (P_ipatt_of go)) r))
    | C_Obj l ps =>
        step (N_ipatt (Compound (C_Obj l ps))) (all_list N_ipp (P_ipp_of (P_ipatt_of go)) ps)
    end.
Definition P_ipatt : forall p, P (N_ipatt p) := P_ipatt_of P_icpatt.
Definition P_irest : forall r, P (N_irest r) := P_irest_of P_ipatt.
Definition P_ipp : forall r, P (N_ipp r) := P_ipp_of P_ipatt.
Definition P_params (p : params) : P (N_params p) :=
  step (N_params p) (all_app _ _ (all_list N_ipatt P_ipatt (pa_list p)) (all_opt N_irest P_irest (pa_rest p))).

Definition P_body_of (f : forall i, P (N_item i)) (b : body item) : P (N_body b) :=
  step (N_body b) (all_app _ _ (all_list N_dir P_dir (bo_dirs b)) (all_list N_item f (bo_items b))).
Definition P_fexpr_of (f : forall i, P (N_item i)) (x : func (option id) (body item)) : P (N_fexpr x) :=
  step (N_fexpr x) (all_app _ [N_params (fn_params x); N_body (fn_body x)] (all_opt N_id P_id (fn_id x))
     (conj (P_params (fn_params x)) (conj (P_body_of f (fn_body x)) I))).
Definition P_fmeth_of (f : forall i, P (N_item i)) (x : func prop_key (body item)) : P (N_fmeth x) :=
  step (N_fmeth x) (conj (P_pk (fn_id x)) (conj (P_params (fn_params x)) (conj (P_body_of f (fn_body x)) I))).
Definition P_fdecl_of (f : forall i, P (N_item i)) (x : func id (body item)) : P (N_fdecl x) :=
  step (N_fdecl x) (conj (P_id (fn_id x)) (conj (P_params (fn_params x)) (conj (P_body_of f (fn_body x)) I))).

Ltac go :=
  match goal with
  | |- True => exact I
  | |- _ /\ _ => split; go
  | |- P (N_id ?x) => exact (P_id x)
  | |- P (N_pk ?x) => exact (P_pk x)
  | |- P (N_dk ?x) => exact (P_dk x)
  | |- P (N_dir ?x) => exact (P_dir x)
  | |- P (N_unop ?x) => exact (P_unop x)
  | |- P (N_binop ?x) => exact (P_binop x)
  | |- P (N_logop ?x) => exact (P_logop x)
  | |- P (N_assop ?x) => exact (P_assop x)
  | |- P (N_ipatt ?x) => exact (P_ipatt x)
  | _ => idtac
  end.

Fixpoint P_expr (e : expr) : P (N_expr e)
with P_eli (e : eli) : P (N_eli e)
with P_prop (p : prop) : P (N_prop p)
with P_pval (v : prop_val) : P (N_pval v)
with P_target (t : target) : P (N_target t)
with P_stmt (s : stmt) : P (N_stmt s)
with P_block (b : block) : P (N_block b)
with P_fh (h : for_head) : P (N_fh h)
with P_fi (h : for_in_head) : P (N_fi h)
with P_fo (h : for_of_head) : P (N_fo h)
with P_catch (c : catch) : P (N_catch c)
with P_case (c : case) : P (N_case c)
with P_item (i : item) : P (N_item i)
with P_decl (d : decl) : P (N_decl d)
with P_dtor (d : dtor) : P (N_dtor d)
with P_cdtor (d : const_dtor) : P (N_cdtor d).
Proof.
  - destruct e; apply step; cbn [children expr_children all]; go;
      first [ apply P_expr | apply P_target | exact (all_holes _ P_eli elts) | exact (all_list _ P_prop props)
            | exact (all_list _ P_expr es) | exact (P_fexpr_of P_item f) | exact (P_tpatt P_target lhs)
            | exact (all_list _ P_eli args)
            | exact (match args return all (match args with Some args => of_list N_eli args | None => [] end)
                     with Some a => all_list _ P_eli a | None => I end) ].
  - destruct e; apply step; cbn [children all]; go; apply P_expr.
  - destruct p; apply step; cbn [children prop_children all]; go;
      first [apply P_pval | exact (P_fmeth_of P_item f)].
  - destruct v; apply step; cbn [children pval_children all]; go;
      first [apply P_expr | exact (P_body_of P_item b)].
  - destruct t; apply step; cbn [children target_children all]; go; apply P_expr.
  - destruct s; apply step; cbn [children stmt_children all]; go;
      first [ apply P_expr | apply P_stmt | apply P_block | apply P_fi | apply P_fo
            | exact (all_list _ P_dtor ds) | exact (all_opt _ P_stmt alt) | exact (all_opt _ P_id i)
            | exact (all_list _ P_case cs) | exact (all_opt _ P_expr e)
            | exact (all_app _ _ (all_opt _ P_catch c) (all_opt _ P_block f))
            | exact (all_app _ _ (all_opt _ P_fh h) (all_app _ _ (all_opt _ P_expr test)
                      (all_app _ [N_stmt s] (all_opt _ P_expr update) (conj (P_stmt s) I)))) ].
  - destruct b; apply step; exact (all_list _ P_item items).
  - destruct h; apply step; cbn [children all]; go;
      first [exact (all_list _ P_dtor ds) | exact (all_list _ P_cdtor ds) | apply P_expr].
  - destruct h; apply step; cbn [children all]; go; first [apply P_expr | exact (P_tpatt P_target p)].
  - destruct h; apply step; cbn [children all]; go; exact (P_tpatt P_target p).
  - destruct c; apply step; cbn [children all]; go; apply P_block.
  - destruct c; apply step; cbn [children all];
      exact (all_app _ _ (all_opt _ P_expr test) (all_list _ P_item b)).
  - destruct i; apply step; cbn [children all]; go; [apply P_decl|apply P_stmt].
  - destruct d; apply step; cbn [children all]; go;
      first [exact (P_fdecl_of P_item f)|exact (all_list _ P_dtor ds)|exact (all_list _ P_cdtor ds)].
  - destruct d; apply step; cbn [children all]; go; first [exact (all_opt _ P_expr init)|apply P_expr].
  - destruct d; apply step; cbn [children all]; go; apply P_expr.
Qed.

Lemma node_all n : P n.
Proof.
  assert (Hex : forall e, P (N_export e)).
  { intros [l ds s|d]; apply step; cbn [children all]; [apply all_list, P_dtor|split; [apply P_decl|exact I]]. }
  assert (Hmi : forall i, P (N_mitem i)).
  { intros [i|e|i]; apply step; cbn [children all]; (split; [|exact I]).
    - apply step. exact I.
    - apply Hex.
    - apply P_item. }
  destruct n; auto using P_expr, P_eli, P_prop, P_pval, P_target, P_stmt, P_block, P_fh, P_fi, P_fo, P_catch,
    P_case, P_item, P_decl, P_dtor, P_cdtor, P_fexpr_of, P_fmeth_of, P_fdecl_of, P_body_of, P_ipatt,
    P_irest, P_ipp, P_params, P_dir, P_id, P_dk, P_pk, P_unop, P_binop, P_logop, P_assop.
  - apply P_tpatt, P_target.
  - apply P_trest_of, P_tpatt, P_target.
  - apply P_tpp_of, P_tpatt, P_target.
  - apply step. cbn [children all]. apply all_app; apply all_list; [apply P_dir|apply Hmi].
  - apply step. exact I.
Qed.
End Ind.

Theorem node_ind' (P : node -> Prop) :
  (forall n, (forall m, In m (children n) -> P m) -> P n) -> forall n, P n.
Proof. intros H n. apply node_all. intros m Hm. apply H, all_in, Hm. Qed.
