(** Completeness of the parser, part 3: expressions.  For every production of the
    grammar of expressions: if the parser finds the parts, it finds the whole. *)
From Coq Require Import String Ascii List NArith Arith Bool Lia.
From Verif Require Import Base Chars F64 Word Token Reader Lexer Punc Ast Track Cover Stack PState Parser Wp
  SpecReader SpecLexer SpecStack SpecTree StackProofs CoverProofs SpecGrammar LexWp ParserWp ParserOps CompBase CompTok.
Import ListNotations.
Local Open Scope nat_scope.

(** ** Tactics *)

Ltac op_eat := unfold op_, kw in *;
  repeat match goal with H : eat _ ?i _ |- _ =>
    let t := fresh "t" in let E := fresh "E" in destruct H as (t & -> & E) end.
(** Decide [is_t t d] from what is known of the token. *)
Ltac dec_t := repeat
  match goal with
  | |- context [is_t ?t ?d] =>
      match goal with
      | E : tk_value t = ?v |- _ =>
          let b := eval vm_compute in (td_eqb v d) in
          match b with true => idtac | false => idtac end;
          replace (is_t t d) with b by (unfold is_t; rewrite E; reflexivity)
      end
  end; cbn [negb andb orb].
(** Any token that is not a slash or a regular expression can be read. *)
Ltac fit := first [left; lia | right; eapply fits_of; [eassumption|discriminate|discriminate|discriminate]].
Ltac ist := match goal with
  | E : tk_value ?t = ?d |- is_t ?t ?d = true => exact (is_t_refl t d Logic.I E)
  | E : tk_value ?t = _ |- is_t ?t _ = _ => unfold is_t; rewrite E; reflexivity
  end.

Lemma fits_first (p : token_data -> bool) t : p (tk_value t) = true ->
  p (TPunc T_Slash) = false -> p (TPunc T_SlashAssign) = false -> fits false t.
Proof.
  intros H H1 H2. cbn. unfold slash. cbn [In]. intros [E|[E|[]]]; rewrite <- E in H; congruence.
Qed.

Section Claims.
Context (V : env) (src : str).
Context (HV : ucd_ok V).
Context (gl : goal) (tr : tri) (md : mode).
Context (Hmode : (md = Sloppy -> tr <> Yes /\ gl <> G_Module) /\ (md = Strict -> gl <> G_Module)).
Notation st := (CompBase.st V src gl tr md).
Notation gives := (CompBase.gives V src gl tr md).
Notation lexed := (lexed V src).

(** The recursion depth granted is enough for the tokens [i]. *)
Definition fu (k : nat) (i : tokens) (N : nat) : Prop := 2 * W i + k <= N.
Definition R (N : nat) : recs := parse_rec V N.
Lemma R_fuel N : r_fuel (R N) = pred N.
Proof. destruct N; reflexivity. Qed.
Lemma R_assign N : r_assign (R (S N)) = assignment_expression V (R N).
Proof. reflexivity. Qed.
Lemma R_item N : r_item (R (S N)) = stmt_list_item V (R N).
Proof. reflexivity. Qed.

Definition eqx (e e' : expr) : Prop := expr_untrack e' = expr_untrack e.
Definition eqi (e e' : eli) : Prop := eli_untrack e' = eli_untrack e.

(** *** The loops of the parser, by name *)

Definition pbody (ps : list PState.prefix) : P (list PState.prefix + list PState.prefix) :=
  o <- match_prefix V ;;
  match o with
  | Some p => ret (inl (ps ++ [p]))
  | None => ret (inr ps)
  end.
Definition postfix_tail (N : nat) {T} (K : expr -> P T) : P T :=
  arg <- lhs_expression V (R N) ;;
  o <- match_postfix_operator_opt V ;;
  arg <- (match o with Some p => apply_postfix p arg | None => ret arg end) ;;
  K arg.
Definition prefix_tail (N : nat) (ps : list PState.prefix) : P expr := postfix_tail N (apply_prefixes (rev ps)).
Lemma unary_eq N : unary_expression V (R N) = bind (loopM (r_fuel (R N)) pbody []) (prefix_tail N).
Proof. reflexivity. Qed.

Definition ibody (N : nat) : stack * expr -> P ((stack * expr) + expr) :=
  fun '(stack, operand) =>
    o <- match_infix V ;;
    match o with
    | Some op =>
        let stack := stack_extend stack operand op in
        operand <- unary_expression V (R N) ;;
        ret (inl (stack, operand))
    | None => ret (inr (stack_finish stack operand))
    end.
Lemma infix_eq N left : more_infix_expressions V (R N) left = loopM (r_fuel (R N)) (ibody N) ([], left).
Proof. reflexivity. Qed.

Definition sbody (N : nat) (result : expr) : P (expr + expr) :=
  o <- suffix_opt V (R N) ;;
  match o with
  | Some s => ret (inl (suffix_append_to s result))
  | None => ret (inr result)
  end.
Definition dbody (N : nat) (base : expr) : P (expr + expr) :=
  o <- deref_opt V (R N) ;;
  match o with
  | Some d => ret (inl (deref_append_to d base))
  | None => ret (inr base)
  end.
Definition nbody (news : list token) : P (list token + list token) :=
  t <- p_peek V ;;
  if is_t t (TReserved R_New) then
    n <- p_reread (TReserved R_New) ;; ret (inl (news ++ [n]))
  else ret (inr news).
Definition lrest (N : nat) (news : list token) : P expr :=
  match rev news with
  | [] => call_expression V (R N)
  | new :: news' =>
      b <- p_matches_op V (TPunc T_Dot) ;;
      if b : bool then
        target <- p_expect V (TIdent (NAtom A_Target)) ;;
        let new_target := E_NewTarget (span_of (Some (tk_loc new)) (Some (tk_loc target))) in
        match news' with
        | _ :: _ => more_new_expression V (R N) (rev news') new_target
        | [] => more_suffixes V (R N) new_target
        end
      else new_expression V (R N) news
  end.
Lemma lhs_eq N : lhs_expression V (R N) = bind (loopM (r_fuel (R N)) nbody []) (lrest N).
Proof. reflexivity. Qed.
(** What happens to the base of a left-hand side under the [new]s [acc]. *)
Definition after_base (N : nat) (acc : list token) (f : nat) (base : expr) : P expr :=
  match acc with
  | [] => loopM f (sbody N) base
  | _ => base <- loopM f (dbody N) base ;;
         base <- apply_news V (R N) true (rev acc) base ;;
         more_suffixes V (R N) base
  end.

(** *** Claims: the parser finds a derivation *)

Definition cAssign (g : place) (i o : tokens) (e : expr) : Prop :=
  forall N s b, fu 2 i N -> st b g i s ->
    runs (assignment_expression V (R N)) s (gives 1 g o (eqx e)).
Definition cCond (g : place) (i o : tokens) (e : expr) : Prop :=
  forall N s b, fu 2 i N -> st b g i s ->
    runs (conditional_expression V (R N)) s (gives 1 g o (eqx e)).
Definition cExpr (g : place) (i o : tokens) (e : expr) : Prop :=
  forall N s b, fu 3 i N -> st b g i s ->
    runs (expression V (R N)) s (gives 1 g o (eqx e)).
Definition cPostfix (g : place) (i o : tokens) (e : expr) : Prop :=
  forall N T (K : expr -> P T) Q s b, fu 2 i N -> st b g i s ->
    (forall e' b' s', eqx e e' -> st b' g o s' -> runs (K e') s' Q) ->
    runs (postfix_tail N K) s Q.
Definition cUnary (g : place) (i o : tokens) (e : expr) : Prop :=
  forall N f acc T (K : expr -> P T) Q s b, fu 2 i N -> W i < f -> st b g i s ->
    (forall e' b' s', eqx e e' -> st b' g o s' -> runs (bind (apply_prefixes (rev acc) e') K) s' Q) ->
    runs (bind (bind (loopM f pbody acc) (prefix_tail N)) K) s Q.
(** [fs] are the frames that the operators of the derivation leave on the stack. *)
Definition cInfix (n : nat) (g : place) (i o : tokens) (e : expr) : Prop :=
  forall N f stk T (K : expr -> P T) Q s b, fu 2 i N -> W i < f -> st b g i s ->
    match stk with [] => True | fr :: _ => rank (fr_op fr) < n end ->
    (forall fs x b' s' f', (forall fr, In fr fs -> n <= rank (fr_op fr)) -> eqx e (stack_finish fs x) ->
       W o < f' -> st b' g o s' -> runs (bind (loopM f' (ibody N) (fs ++ stk, x)) K) s' Q) ->
    runs (bind (unary_expression V (R N)) (fun x => bind (loopM f (ibody N) (stk, x)) K)) s Q.
Definition cLhs (g : place) (i o : tokens) (e : expr) : Prop :=
  forall N T (K : expr -> P T) Q s b, fu 2 i N -> st b g i s -> next (fun t => ~ regexp t) o ->
    (forall e' b' s' f', eqx e e' -> W o < f' -> st b' g o s' -> runs (bind (loopM f' (sbody N) e') K) s' Q) ->
    runs (bind (lhs_expression V (R N)) K) s Q.
Definition cNew (args : bool) (g : place) (i o : tokens) (e : expr) : Prop :=
  forall N f acc T (K : expr -> P T) Q s b, fu 2 i N -> W i < f -> st b g i s -> next (fun t => ~ regexp t) o ->
    (forall e' x b' s' f', eqx e e' -> (args = true -> x = true) -> W o < f' -> st b' g o s' ->
       runs (bind (bind (apply_news V (R N) x (rev acc) e') (loopM f' (sbody N))) K) s' Q) ->
    runs (bind (bind (loopM f nbody acc) (lrest N)) K) s Q.
Definition cBase (g : place) (i o : tokens) (e : expr) : Prop :=
  forall N f acc T (K : expr -> P T) Q s b, fu 2 i N -> W i < f -> st b g i s ->
    (forall e' b' s' f', eqx e e' -> W o < f' -> st b' g o s' -> runs (bind (after_base N acc f' e') K) s' Q) ->
    runs (bind (bind (loopM f nbody acc) (lrest N)) K) s Q.
Definition cPrimary (g : place) (i o : tokens) (e : expr) : Prop :=
  forall N s b, fu 2 i N -> st b g i s -> runs (primary_expression V (R N)) s (gives 0 g o (eqx e)).
Definition cArguments (g : place) (i o : tokens) (es : list eli) : Prop :=
  forall N s b, fu 2 i N -> st b g i s ->
    runs (arguments_ V (R N)) s (gives 0 g o (fun a => map eli_untrack (args_list a) = map eli_untrack es)).
Definition cListItem (g : place) (i o : tokens) (e : eli) : Prop :=
  forall N s b, fu 3 i N -> st b g i s -> runs (expr_list_item V (R N)) s (gives 1 g o (eqi e)).
Definition cDotName (i o : tokens) (k : dot_key) : Prop :=
  exists t, i = t :: o
    /\ ((exists n, tk_value t = TIdent n /\ k = DotKey (Some (tk_loc t)) (name_string n))
        \/ (exists r, tk_value t = TReserved r /\ k = DotKey (Some (tk_loc t)) (reserved_name r))).

(** ** Operators *)

Lemma c_assign_none g i o e : cCond g i o e -> next (fun t => ~ assign_op t) o -> cAssign g i o e.
Proof.
  intros H (t & o' & -> & Ht) N s b Hf S. unfold assignment_expression.
  eapply k_call; [apply (H N s b Hf S)|]. intros e' b1 s1 He Hb S1. unfold more_assignment.
  eapply k_read_op; [exact HV|exact S1|left; lia|]. intros s2 Hl S2.
  destruct (assop_none t Ht) as [-> ->].
  pose proof (st_le _ _ _ _ _ _ _ _ _ S1). eapply k_unread; [exact S2|lia|exact Hl|]. intros s3 S3.
  apply runs_ret. split; [exact He|]. eexists. split; [|exact S3]. lia.
Qed.
Lemma c_assign g i i1 i2 o l p e : GX true g Conditional i i1 (patt_expr p) -> cCond g i i1 (patt_expr p) ->
  rests_unlocated p -> op_ T_Assign i1 i2 -> cAssign g i2 o e -> cAssign g i o (E_Assign l p e).
Proof.
  intros D H Hr Ha H2 N s b Hf S. pose proof (G_W _ _ _ _ _ _ _ D) as HW. cbn in HW.
  op_eat. unfold assignment_expression.
  eapply k_call; [apply (H N s b Hf S)|]. intros e' b1 s1 He Hb S1. unfold more_assignment.
  eapply k_read_op; [exact HV|exact S1|left; lia|]. intros s2 Hl S2. dec_t.
  destruct (cover_patt true g _ Conditional i (t :: i2) p e' _ D eq_refl Hr He) as (p' & Ep & Hp').
  unfold to_patt. rewrite Ep. apply runs_ret_bind. rewrite W_cons1 in HW by congruence.
  unfold fu in Hf. destruct N as [|N]; [lia|]. rewrite R_assign.
  eapply k_call; [eapply H2; [unfold fu; lia|exact S2]|]. intros e2 b3 s3 He2 Hb3 S3.
  apply runs_ret. split; [|exists b3; auto]. unfold eqx in *. cbn [expr_untrack].
  rewrite He2. unfold patt_untrack in Hp'. rewrite Hp'. reflexivity.
Qed.
Lemma c_assign_op g i t i1 o l a x e : GX true g Conditional i (t :: i1) (target_expr x) ->
  cCond g i (t :: i1) (target_expr x) -> spelled t (assop_tag_text a) -> cAssign g i1 o e ->
  cAssign g i o (E_BinAssign l (Op (Some (tk_loc t)) a) x e).
Proof.
  intros D H Ha H2 N s b Hf S. pose proof (G_W _ _ _ _ _ _ _ D) as HW. cbn [solid fst_ok] in HW.
  unfold assignment_expression.
  eapply k_call; [apply (H N s b Hf S)|]. intros e' b1 s1 He Hb S1. unfold more_assignment.
  eapply k_read_op; [exact HV|exact S1|left; lia|]. intros s2 Hl S2.
  destruct (assop_some t a Ha) as [-> ->].
  destruct (target_transfer x e' He) as (x' & Ex & Hx'). unfold to_target. rewrite Ex. apply runs_ret_bind.
  rewrite W_cons1 in HW by (eapply spelled_not_eof; [exact Ha|apply assop_text_ne]).
  unfold fu in Hf. unfold solid in HW. cbn [fst_ok] in HW. destruct N as [|N]; [lia|]. rewrite R_assign.
  eapply k_call; [eapply H2; [unfold fu; lia|exact S2]|]. intros e2 b3 s3 He2 Hb3 S3.
  apply runs_ret. split; [|exists b3; auto]. unfold eqx in *. cbn [expr_untrack]. rewrite He2, Hx'. reflexivity.
Qed.

(** The infix operators end. *)
Lemma infix_end g N f t o fs x T (K : expr -> P T) Q s b : 0 < f -> st b g (t :: o) s -> ~ regexp t ->
  (forall op, ~ infix_tok (pl_in g) t op) ->
  (forall b' s', 1 <= b' -> st b' g (t :: o) s' -> runs (K (stack_finish fs x)) s' Q) ->
  runs (bind (loopM f (ibody N) (fs ++ [], x)) K) s Q.
Proof.
  intros Hf S Hr Hi HK. apply runs_loop_bind; [exact Hf|]. intros f' _. unfold ibody at 1.
  apply runs_assoc. unfold match_infix. apply runs_assoc.
  eapply k_read_op; [exact HV|exact S|right; exact Hr|]. intros s2 Hl S2. apply runs_assoc. apply runs_gets.
  rewrite (st_ctx _ _ _ _ _ _ _ _ _ S2). cbn [ctx cx_allow_in].
  rewrite (infix_none (pl_in g) t Hi). apply runs_assoc.
  pose proof (st_le _ _ _ _ _ _ _ _ _ S). eapply k_unread; [exact S2|lia|exact Hl|]. intros s3 S3.
  apply runs_ret_bind. apply runs_ret_bind. rewrite app_nil_r. eapply HK; [|exact S3]. lia.
Qed.
Lemma question_not_infix b t : tk_value t = TPunc T_Question -> forall op, ~ infix_tok b t op.
Proof.
  intros E op ([(p & Ep & Hp & _)|(r & Er & _)] & _); [|congruence].
  rewrite E in Ep. injection Ep as <-. destruct op as [[l []]|[l []]]; discriminate Hp.
Qed.
Lemma c_cond_none g i o e : GX true g (Infix 0) i o e -> cInfix 0 g i o e ->
  next (fun t => (forall op, ~ infix_tok (pl_in g) t op) /\ tk_value t <> TPunc T_Question) o ->
  next (fun t => ~ regexp t) o -> cCond g i o e.
Proof.
  intros D H (t & o' & -> & Hi & Hq) (t2 & o2 & E2 & Hr) N s b Hf S. assert (t2 = t) by congruence. subst t2.
  unfold conditional_expression. unfold fu in Hf.
  eapply H with (stk := []) (f := r_fuel (R N)); [exact Hf|rewrite R_fuel; lia|exact S|exact Logic.I|].
  intros fs x b1 s1 f1 _ He Hf1 S1. eapply infix_end; [lia|exact S1|exact Hr|exact Hi|].
  intros b2 s2 Hb2 S2. unfold more_conditional.
  eapply k_matches_op_no; [exact HV|exact S2|left; exact Hb2| |].
  { destruct (is_t t (TPunc T_Question)) eqn:E; [|reflexivity]. apply is_t_true in E; [contradiction|exact Logic.I]. }
  intros s3 S3. apply runs_ret. split; [exact He|]. eexists. split; [|exact S3]. lia.
Qed.
Lemma c_cond g i i1 i2 i3 i4 o l e1 e2 e3 : GX true g (Infix 0) i i1 e1 -> cInfix 0 g i i1 e1 ->
  op_ T_Question i1 i2 -> GX true (with_in true g) Assignment i2 i3 e2 -> cAssign (with_in true g) i2 i3 e2 ->
  op_ T_Colon i3 i4 -> cAssign g i4 o e3 ->
  cCond g i o (E_Cond l e1 e2 e3).
Proof.
  intros D H Hq D2 H2 Hc H3 N s b Hf S.
  pose proof (G_W _ _ _ _ _ _ _ D) as HW. pose proof (G_W _ _ _ _ _ _ _ D2) as HW2. unfold solid in *. cbn [fst_ok] in *.
  op_eat. rewrite W_cons1 in HW by congruence. rewrite W_cons1 in HW2 by congruence.
  unfold conditional_expression. unfold fu in Hf.
  eapply H with (stk := []) (f := r_fuel (R N)); [exact Hf|rewrite R_fuel; lia|exact S|exact Logic.I|].
  intros fs x b1 s1 f1 _ He Hf1 S1. eapply infix_end; [lia|exact S1| |apply question_not_infix; exact E0|].
  { intros (r & Hr). congruence. }
  intros b2 s2 Hb2 S2. unfold more_conditional.
  eapply k_matches_op_yes; [exact HV|exact S2|left; exact Hb2|ist|]. intros s3 S3.
  destruct N as [|N]; [lia|]. rewrite R_assign.
  eapply k_allow_in; [exact S3|intros s' S'; eapply H2; [unfold fu; lia|exact S']|].
  intros a2 b4 s4 He2 Hb4 S4. eapply k_expect; [exact HV|exact S4|left; exact Hb4|ist|]. intros s5 S5.
  eapply k_call; [eapply H3; [unfold fu; lia|exact S5]|]. intros a3 b6 s6 He3 Hb6 S6.
  apply runs_ret. split; [|exists b6; auto]. unfold eqx in *. cbn [expr_untrack]. rewrite He, He2, He3. reflexivity.
Qed.

Lemma finish_app fs stk x : stack_finish (fs ++ stk) x = stack_finish stk (stack_finish fs x).
Proof. revert x. induction fs as [|f fs IH]; intros x; cbn; [reflexivity|apply IH]. Qed.
Lemma extend_all fs stk x op n : (forall fr, In fr fs -> n <= rank (fr_op fr)) ->
  match stk with [] => True | fr :: _ => rank (fr_op fr) < n end -> rank op = n ->
  stack_extend (fs ++ stk) x op = Frame (stack_finish fs x) op :: stk.
Proof.
  intros Hf Hs Hn. revert x. induction fs as [|f fs IH]; intros x; cbn [app stack_extend stack_finish].
  - destruct stk as [|f stk]; [reflexivity|]. cbn [stack_extend]. rewrite rank_precedence.
    replace (rank op <=? rank (fr_op f)) with false; [reflexivity|]. symmetry. apply Nat.leb_gt. lia.
  - rewrite rank_precedence. replace (rank op <=? rank (fr_op f)) with true.
    + apply IH. intros fr Hfr. apply Hf. right. exact Hfr.
    + symmetry. apply Nat.leb_le. rewrite Hn. apply Hf. left. reflexivity.
Qed.

Lemma c_infix_unary g i o e : GX true g Unary i o e -> cUnary g i o e -> cInfix (length levels) g i o e.
Proof.
  intros D H N f stk T K Q s b Hf Hw S Hs HK. rewrite unary_eq. unfold fu in Hf.
  pose proof (G_W _ _ _ _ _ _ _ D) as HW. unfold solid in HW. cbn [fst_ok] in HW.
  eapply H; [exact Hf|rewrite R_fuel; lia|exact S|]. intros e' b1 s1 He S1. cbn [rev apply_prefixes].
  apply runs_ret_bind. apply (HK [] e' b1 s1 f); [intros ? []|exact He|lia|exact S1].
Qed.
Lemma c_infix_up n g i o e : cInfix (S n) g i o e -> cInfix n g i o e.
Proof.
  intros H N f stk T K Q s b Hf Hw S Hs HK. eapply H; try eassumption.
  - destruct stk; [exact Logic.I|]. lia.
  - intros fs x b' s' f' Hfs. apply HK. intros fr Hfr. specialize (Hfs fr Hfr). lia.
Qed.
Lemma c_infix_op n g i t i1 o op l e1 e2 : GX true g (Infix n) i (t :: i1) e1 -> cInfix n g i (t :: i1) e1 ->
  infix_tok (pl_in g) t op -> at_level op n -> cInfix (S n) g i1 o e2 ->
  cInfix n g i o (infix_expr l op e1 e2).
Proof.
  intros D H Ht Hl H2 N f stk T K Q s b Hf Hw S Hs HK.
  pose proof (G_W _ _ _ _ _ _ _ D) as HW. unfold solid in HW. cbn [fst_ok] in HW.
  destruct Ht as (Hsp & Hin & Hloc) eqn:E. clear E. pose proof (conj Hsp (conj Hin Hloc)) as Ht'.
  rewrite W_cons1 in HW by (eapply spelled_not_eof; [exact Hsp|apply infix_text_ne]).
  assert (Hwt : W (t :: i1) = Datatypes.S (W i1))
    by (apply W_cons1; eapply spelled_not_eof; [exact Hsp|apply infix_text_ne]).
  apply at_level_rank in Hl. unfold fu in Hf.
  eapply H; [exact Hf|exact Hw|exact S|exact Hs|]. intros fs x b1 s1 f1 Hfs He Hf1 S1.
  apply runs_loop_bind; [lia|]. intros f2 ->. unfold ibody at 1. apply runs_assoc. unfold match_infix. apply runs_assoc.
  eapply k_read_op; [exact HV|exact S1|right; exact (proj2 (proj2 (spelled_calm true t _ Hsp (infix_text_colon op))))|].
  intros s2 _ S2. apply runs_assoc. apply runs_gets.
  rewrite (st_ctx _ _ _ _ _ _ _ _ _ S2). cbn [ctx cx_allow_in].
  rewrite (infix_spelled _ _ _ Ht'). apply runs_ret_bind. cbn zeta. apply runs_assoc.
  rewrite (extend_all fs stk x op n Hfs Hs (eq_sym Hl)).
  eapply H2 with (stk := Frame (stack_finish fs x) op :: stk) (f := f2);
    [unfold fu; lia|lia|exact S2|cbn; lia|].
  intros fs2 x2 b3 s3 f3 Hfs2 He2 Hf3 S3.
  replace (fs2 ++ Frame (stack_finish fs x) op :: stk) with ((fs2 ++ [Frame (stack_finish fs x) op]) ++ stk)
    by (rewrite <- app_assoc; reflexivity).
  eapply HK; [| |exact Hf3|exact S3].
  - intros fr Hfr. apply in_app_or in Hfr as [Hfr|[<-|[]]]; [specialize (Hfs2 fr Hfr); lia|cbn; lia].
  - rewrite finish_app. cbn [stack_finish]. unfold fill, infix_expr, eqx in *. cbn [fr_op fr_left].
    destruct op; cbn [expr_untrack]; rewrite He, He2; reflexivity.
Qed.

(** *** Prefix and postfix operators *)

Lemma runs_postfix_tail N {A B} (K1 : expr -> P A) (K2 : A -> P B) s Q :
  runs (postfix_tail N (fun e => bind (K1 e) K2)) s Q -> runs (bind (postfix_tail N K1) K2) s Q.
Proof.
  unfold runs. intros (a & s' & E & H). exists a, s'. split; [|exact H]. rewrite <- E. unfold postfix_tail, bind.
  destruct (lhs_expression V (R N) s) as [[e1 s1]|?|?|]; [|reflexivity..].
  destruct (match_postfix_operator_opt V s1) as [[o s2]|?|?|]; [|reflexivity..].
  destruct o as [p|]; [|reflexivity]. destruct (apply_postfix p e1 s2) as [[e2 s3]|?|?|]; reflexivity.
Qed.
Lemma c_unary_none g i o e : GX true g Postfix i o e -> cPostfix g i o e -> cUnary g i o e.
Proof.
  intros D H N f acc T K Q s b Hf Hw S HK.
  destruct (G_first _ _ _ _ _ _ _ D) as (t & i' & -> & Ht). cbn beta in Ht.
  apply runs_assoc. apply runs_loop_bind; [lia|]. intros f' ->. unfold pbody at 1. apply runs_assoc.
  unfold match_prefix. apply runs_assoc. pose proof (st_le _ _ _ _ _ _ _ _ _ S) as Hb2.
  eapply k_read; [exact HV|exact S|right; exact (fits_first lhs_first t Ht eq_refl eq_refl)|]. intros s1 Hl S1.
  assert (E : is_t t (TPunc T_Inc) = false /\ is_t t (TPunc T_Dec) = false /\ token_unop t = None).
  { unfold is_t, token_unop. destruct (tk_value t) as [[]|[]| | | |]; try discriminate Ht; auto. }
  destruct E as (-> & -> & Hu). apply runs_assoc. eapply k_unread; [exact S1|lia|exact Hl|]. intros s2 S2.
  apply runs_assoc. unfold match_unop. apply runs_assoc. eapply k_read; [exact HV|exact S2|left; lia|]. intros s3 _ S3.
  rewrite Hu. apply runs_assoc. eapply k_unread; [exact S3|cbn; lia|exact Hl|]. intros s4 S4.
  apply runs_ret_bind. apply runs_ret_bind. cbn [option_map]. apply runs_ret_bind.
  unfold prefix_tail. apply runs_postfix_tail. eapply H; [exact Hf|exact S4|exact HK].
Qed.
Lemma k_prefix N t p g i s b f acc T (K : expr -> P T) Q : st b g (t :: i) s -> fits false t -> 0 < f ->
  (is_t t (TPunc T_Inc) = true /\ p = Pre_Inc (tk_loc t)
   \/ is_t t (TPunc T_Dec) = true /\ p = Pre_Dec (tk_loc t)
   \/ exists u, token_unop t = Some u /\ p = Pre_Unop (Op (Some (tk_loc t)) u)) ->
  (forall f' b' s', f = Datatypes.S f' -> st b' g i s' ->
     runs (bind (bind (loopM f' pbody (acc ++ [p])) (prefix_tail N)) K) s' Q) ->
  runs (bind (bind (loopM f pbody acc) (prefix_tail N)) K) s Q.
Proof.
  intros S Hf H0 Hp HK. apply runs_assoc. apply runs_loop_bind; [exact H0|]. intros f' Ef. unfold pbody at 1. apply runs_assoc.
  unfold match_prefix. apply runs_assoc. pose proof (st_le _ _ _ _ _ _ _ _ _ S) as Hb2.
  eapply k_read; [exact HV|exact S|right; exact Hf|]. intros s1 Hl S1.
  assert (Hend : forall s' b', st b' g i s' ->
    runs (bind (loopM f' pbody (acc ++ [p])) (fun a => bind (prefix_tail N a) K)) s' Q).
  { intros s' b' S'. specialize (HK f' b' s' Ef S'). unfold runs in *. rewrite bind_bind in HK. exact HK. }
  destruct Hp as [[E ->]|[[E ->]|(u & E & ->)]].
  - rewrite E. apply runs_ret_bind. apply runs_ret_bind. eapply Hend, S1.
  - rewrite E. assert (E' : is_t t (TPunc T_Inc) = false).
    { apply is_t_true in E; [|exact Logic.I]. unfold is_t. rewrite E. reflexivity. }
    rewrite E'. apply runs_ret_bind. apply runs_ret_bind. eapply Hend, S1.
  - assert (E' : is_t t (TPunc T_Inc) = false /\ is_t t (TPunc T_Dec) = false).
    { unfold is_t, token_unop in *. destruct (tk_value t) as [[]|[]| | | |]; try discriminate E; auto. }
    destruct E' as [-> ->]. apply runs_assoc. eapply k_unread; [exact S1|lia|exact Hl|]. intros s2 S2.
    apply runs_assoc. unfold match_unop. apply runs_assoc. eapply k_read; [exact HV|exact S2|left; lia|]. intros s3 _ S3.
    rewrite E. apply runs_ret_bind. cbn [option_map]. apply runs_ret_bind. apply runs_ret_bind. eapply Hend, S3.
Qed.
Lemma c_unary_op g t i o l u e : spelled t (unop_text u) -> cUnary g i o e ->
  cUnary g (t :: i) o (E_Unop l (Op (Some (tk_loc t)) u) e).
Proof.
  intros Ht H N f acc T K Q s b Hf Hw S HK.
  pose proof (unop_first t u Ht) as H1. pose proof (unop_spelled t u Ht) as H2. unfold fu in *.
  rewrite W_cons1 in * by (eapply spelled_not_eof; [exact Ht|apply unop_text_ne]).
  eapply k_prefix; [exact S|exact (fits_first expr_first t H1 eq_refl eq_refl)|lia|right; right; eauto|].
  intros f' b' s' Ef S'. eapply H; [unfold fu; lia|lia|exact S'|]. intros e' b2 s2 He S2.
  rewrite rev_unit. cbn [apply_prefixes]. eapply HK; [|exact S2]. unfold eqx in *. cbn [expr_untrack]. rewrite He. reflexivity.
Qed.
Lemma c_unary_inc g t i o x : tk_value t = TPunc T_Inc -> cUnary g i o (target_expr x) ->
  cUnary g (t :: i) o (E_PreInc (Some (tk_loc t)) x).
Proof.
  intros Ht H N f acc T K Q s b Hf Hw S HK. unfold fu in *. rewrite W_cons1 in * by congruence.
  eapply k_prefix; [exact S|eapply fits_of; [exact Ht|discriminate..]|lia|left; split; [ist|reflexivity]|].
  intros f' b' s' Ef S'. eapply H; [unfold fu; lia|lia|exact S'|]. intros e' b2 s2 He S2.
  rewrite rev_unit. cbn [apply_prefixes]. destruct (target_transfer x e' He) as (x' & Ex & Hx').
  unfold to_target. rewrite Ex. apply runs_assoc. apply runs_ret_bind.
  eapply HK; [|exact S2]. unfold eqx in *. cbn [expr_untrack]. rewrite Hx'. reflexivity.
Qed.
Lemma c_unary_dec g t i o x : tk_value t = TPunc T_Dec -> cUnary g i o (target_expr x) ->
  cUnary g (t :: i) o (E_PreDec (Some (tk_loc t)) x).
Proof.
  intros Ht H N f acc T K Q s b Hf Hw S HK. unfold fu in *. rewrite W_cons1 in * by congruence.
  eapply k_prefix; [exact S|eapply fits_of; [exact Ht|discriminate..]|lia|right; left; split; [ist|reflexivity]|].
  intros f' b' s' Ef S'. eapply H; [unfold fu; lia|lia|exact S'|]. intros e' b2 s2 He S2.
  rewrite rev_unit. cbn [apply_prefixes]. destruct (target_transfer x e' He) as (x' & Ex & Hx').
  unfold to_target. rewrite Ex. apply runs_assoc. apply runs_ret_bind.
  eapply HK; [|exact S2]. unfold eqx in *. cbn [expr_untrack]. rewrite Hx'. reflexivity.
Qed.

Lemma is_t_ne t d : plain d -> tk_value t <> d -> is_t t d = false.
Proof.
  intros Hp H. destruct (is_t t d) eqn:E; [|reflexivity]. apply is_t_true in E; [contradiction|exact Hp].
Qed.

(** The suffixes end. *)
Lemma suffix_end g N f t o e T (K : expr -> P T) Q s b : 0 < f -> st b g (t :: o) s -> ~ regexp t ->
  tk_value t <> TPunc T_Dot -> tk_value t <> TPunc T_LBrack -> tk_value t <> TPunc T_LParen ->
  (forall b' s', 1 <= b' -> st b' g (t :: o) s' -> runs (K e) s' Q) ->
  runs (bind (loopM f (sbody N) e) K) s Q.
Proof.
  intros Hf S Hr H1 H2 H3 HK. apply runs_loop_bind; [exact Hf|]. intros f' _. unfold sbody at 1.
  apply runs_assoc. unfold suffix_opt. apply runs_assoc. eapply k_peek_op; [exact HV|exact S|right; exact Hr|].
  intros s1 S1. rewrite (is_t_ne t (TPunc T_Dot) Logic.I H1), (is_t_ne t (TPunc T_LBrack) Logic.I H2),
    (is_t_ne t (TPunc T_LParen) Logic.I H3). apply runs_ret_bind. apply runs_ret_bind.
  eapply HK; [|exact S1]. lia.
Qed.
Lemma c_postfix_none g i o e : cLhs g i o e ->
  next (fun t => ~ postfix_op t /\ tk_value t <> TPunc T_Dot /\ tk_value t <> TPunc T_LBrack
                   /\ tk_value t <> TPunc T_LParen) o ->
  next (fun t => ~ regexp t) o -> cPostfix g i o e.
Proof.
  intros H (t & o' & -> & H1 & H2 & H3 & H4) Hr N T K Q s b Hf S HK. unfold postfix_tail.
  eapply H; [exact Hf|exact S|exact Hr|]. destruct Hr as (t2 & o2 & E2 & Hr). assert (t2 = t) by congruence. subst t2.
  intros e' b1 s1 f1 He Hf1 S1. eapply suffix_end; [lia|exact S1|exact Hr|exact H2|exact H3|exact H4|].
  intros b2 s2 Hb2 S2. unfold match_postfix_operator_opt. apply runs_assoc.
  eapply k_read_op; [exact HV|exact S2|left; exact Hb2|]. intros s3 Hl S3.
  assert (E : forall p, In (TPunc p) [TPunc T_Inc; TPunc T_Dec] -> negb (tk_newline t) && is_t t (TPunc p) = false).
  { intros p Hp. destruct (tk_newline t) eqn:E; [reflexivity|]. cbn. apply is_t_ne; [exact Logic.I|].
    intros Ht. apply H1. split; [exact E|]. rewrite Ht. exact Hp. }
  rewrite (E T_Inc) by (cbn; auto). rewrite (E T_Dec) by (cbn; auto).
  pose proof (st_le _ _ _ _ _ _ _ _ _ S2). apply runs_assoc. eapply k_unread; [exact S3|lia|exact Hl|]. intros s4 S4.
  apply runs_ret_bind. apply runs_ret_bind. eapply HK; [exact He|exact S4].
Qed.
Lemma c_postfix_inc g i t o x : cLhs g i (t :: o) (target_expr x) -> tk_value t = TPunc T_Inc -> tk_newline t = false ->
  cPostfix g i o (E_PostInc (Some (tk_loc t)) x).
Proof.
  intros H Ht Hn N T K Q s b Hf S HK. unfold postfix_tail.
  assert (Hr : ~ regexp t) by (intros (r & Hr); congruence).
  eapply H; [exact Hf|exact S|exists t, o; split; [reflexivity|exact Hr]|].
  intros e' b1 s1 f1 He Hf1 S1. eapply suffix_end; [lia|exact S1|exact Hr|congruence|congruence|congruence|].
  intros b2 s2 Hb2 S2. unfold match_postfix_operator_opt. apply runs_assoc.
  eapply k_read_op; [exact HV|exact S2|left; exact Hb2|]. intros s3 Hl S3. rewrite Hn. dec_t.
  apply runs_ret_bind. destruct (target_transfer x e' He) as (x' & Ex & Hx'). unfold apply_postfix, to_target. rewrite Ex.
  apply runs_assoc. apply runs_ret_bind. apply runs_ret_bind.
  eapply HK; [|exact S3]. unfold eqx. cbn [expr_untrack]. rewrite Hx'. reflexivity.
Qed.
Lemma c_postfix_dec g i t o x : cLhs g i (t :: o) (target_expr x) -> tk_value t = TPunc T_Dec -> tk_newline t = false ->
  cPostfix g i o (E_PostDec (Some (tk_loc t)) x).
Proof.
  intros H Ht Hn N T K Q s b Hf S HK. unfold postfix_tail.
  assert (Hr : ~ regexp t) by (intros (r & Hr); congruence).
  eapply H; [exact Hf|exact S|exists t, o; split; [reflexivity|exact Hr]|].
  intros e' b1 s1 f1 He Hf1 S1. eapply suffix_end; [lia|exact S1|exact Hr|congruence|congruence|congruence|].
  intros b2 s2 Hb2 S2. unfold match_postfix_operator_opt. apply runs_assoc.
  eapply k_read_op; [exact HV|exact S2|left; exact Hb2|]. intros s3 Hl S3. rewrite Hn. dec_t.
  apply runs_ret_bind. destruct (target_transfer x e' He) as (x' & Ex & Hx'). unfold apply_postfix, to_target. rewrite Ex.
  apply runs_assoc. apply runs_ret_bind. apply runs_ret_bind.
  eapply HK; [|exact S3]. unfold eqx. cbn [expr_untrack]. rewrite Hx'. reflexivity.
Qed.

(** ** Left-hand sides *)

Lemma next_eat (P : token -> Prop) d i o : eat d i o -> (forall t, tk_value t = d -> P t) -> next P i.
Proof. intros (t & -> & E) H. exists t, o. split; [reflexivity|auto]. Qed.
Lemma eat_no_regexp d i o : eat d i o -> (forall r, d <> TRegExp r) -> next (fun t => ~ regexp t) i.
Proof. intros H Hd. eapply next_eat; [exact H|]. intros t E (r & Hr). apply (Hd r). congruence. Qed.

Lemma k_deref_dot g t i o k b s T (K : deref -> P T) Q : st b g (t :: i) s -> 1 <= b -> tk_value t = TPunc T_Dot ->
  cDotName i o k -> (forall b' s', st b' g o s' -> runs (K (De_Dot k)) s' Q) ->
  runs (bind (deref_dot V) K) s Q.
Proof.
  intros S Hb Ht (t2 & -> & H) HK. unfold deref_dot. apply runs_assoc.
  eapply k_reread; [exact HV|exact S|exact Hb|ist|]. intros s1 _ S1. apply runs_assoc. unfold id_name_. apply runs_assoc.
  destruct H as [(n & E & ->)|(r & E & ->)].
  - eapply k_read; [exact HV|exact S1|right; eapply fits_of; [exact E|discriminate..]|]. intros s2 _ S2.
    rewrite E. apply runs_ret_bind. apply runs_ret_bind. eapply HK, S2.
  - eapply k_read; [exact HV|exact S1|right; eapply fits_of; [exact E|discriminate..]|]. intros s2 _ S2.
    rewrite E. apply runs_ret_bind. apply runs_ret_bind. eapply HK, S2.
Qed.
Lemma k_deref_brack N g t i i1 o e b s T (K : deref -> P T) Q : st b g (t :: i) s -> 1 <= b -> tk_value t = TPunc T_LBrack ->
  fu 3 i N -> cExpr (with_in true g) i i1 e -> op_ T_RBrack i1 o ->
  (forall e' t' b' s', eqx e e' -> st b' g o s' -> runs (K (De_Brack e' t')) s' Q) ->
  runs (bind (deref_brack V (R N)) K) s Q.
Proof.
  intros S Hb Ht Hf H Ho HK. op_eat. unfold deref_brack. apply runs_assoc.
  eapply k_reread; [exact HV|exact S|exact Hb|ist|]. intros s1 _ S1. apply runs_assoc.
  eapply k_allow_in; [exact S1|intros s' S'; eapply H; [exact Hf|exact S']|]. intros e' b2 s2 He Hb2 S2.
  apply runs_assoc. eapply k_expect; [exact HV|exact S2|left; exact Hb2|ist|]. intros s3 S3.
  apply runs_ret_bind. eapply HK; [exact He|exact S3].
Qed.

(** One more suffix. *)
Lemma suffix_dot g N f i i1 o e k T (K : expr -> P T) Q s b : 0 < f -> st b g i s ->
  op_ T_Dot i i1 -> cDotName i1 o k ->
  (forall f' l b' s', f = Datatypes.S f' -> st b' g o s' -> runs (bind (loopM f' (sbody N) (E_Dot l e k)) K) s' Q) ->
  runs (bind (loopM f (sbody N) e) K) s Q.
Proof.
  intros Hf S Hd Hn HK. op_eat. apply runs_loop_bind; [exact Hf|]. intros f' Ef. unfold sbody at 1.
  apply runs_assoc. unfold suffix_opt. apply runs_assoc. eapply k_peek_op; [exact HV|exact S|fit|].
  intros s1 S1. dec_t. apply runs_assoc. eapply k_deref_dot; [exact S1|lia|exact E|exact Hn|]. intros b2 s2 S2.
  apply runs_ret_bind. apply runs_ret_bind. eapply HK; [exact Ef|exact S2].
Qed.
Lemma suffix_brack g N f i i1 i2 o e k T (K : expr -> P T) Q s b : 0 < f -> st b g i s ->
  op_ T_LBrack i i1 -> fu 3 i1 N -> cExpr (with_in true g) i1 i2 k -> op_ T_RBrack i2 o ->
  (forall f' l k' b' s', f = Datatypes.S f' -> eqx k k' -> st b' g o s' ->
     runs (bind (loopM f' (sbody N) (E_Brack l e k')) K) s' Q) ->
  runs (bind (loopM f (sbody N) e) K) s Q.
Proof.
  intros Hf S (t & -> & E) Hfu Hn Ho HK. apply runs_loop_bind; [exact Hf|]. intros f' Ef. unfold sbody at 1.
  apply runs_assoc. unfold suffix_opt. apply runs_assoc. eapply k_peek_op; [exact HV|exact S|fit|].
  intros s1 S1. dec_t. apply runs_assoc. eapply k_deref_brack; [exact S1|lia|exact E|exact Hfu|exact Hn|exact Ho|].
  intros k' t' b2 s2 He S2.
  apply runs_ret_bind. apply runs_ret_bind. eapply HK; [exact Ef|exact He|exact S2].
Qed.
Lemma suffix_call g N f i o e es T (K : expr -> P T) Q s b : 0 < f -> st b g i s ->
  begins (fst_ok Arguments) i -> fu 2 i N -> cArguments g i o es ->
  (forall f' l es' b' s', f = Datatypes.S f' -> map eli_untrack es' = map eli_untrack es -> st b' g o s' ->
     runs (bind (loopM f' (sbody N) (E_Call l e es')) K) s' Q) ->
  runs (bind (loopM f (sbody N) e) K) s Q.
Proof.
  intros Hf S (t & i1 & -> & Ht) Hfu Hn HK. apply runs_loop_bind; [exact Hf|]. intros f' Ef. unfold sbody at 1.
  assert (E : tk_value t = TPunc T_LParen).
  { cbn in Ht. destruct (tk_value t) as [|[]| | | |]; try discriminate Ht; reflexivity. }
  apply runs_assoc. unfold suffix_opt. apply runs_assoc. eapply k_peek_op; [exact HV|exact S|fit|].
  intros s1 S1. dec_t. apply runs_assoc. eapply k_call; [eapply Hn; [exact Hfu|exact S1]|].
  intros a b2 s2 He _ S2.
  apply runs_ret_bind. apply runs_ret_bind. eapply HK; [exact Ef|exact He|exact S2].
Qed.
Lemma deref_dot_step g N f i i1 o e k T (K : expr -> P T) Q s b : 0 < f -> st b g i s ->
  op_ T_Dot i i1 -> cDotName i1 o k ->
  (forall f' l b' s', f = Datatypes.S f' -> st b' g o s' -> runs (bind (loopM f' (dbody N) (E_Dot l e k)) K) s' Q) ->
  runs (bind (loopM f (dbody N) e) K) s Q.
Proof.
  intros Hf S Hd Hn HK. op_eat. apply runs_loop_bind; [exact Hf|]. intros f' Ef. unfold dbody at 1.
  apply runs_assoc. unfold deref_opt. apply runs_assoc. eapply k_peek_op; [exact HV|exact S|fit|].
  intros s1 S1. dec_t. apply runs_assoc. eapply k_deref_dot; [exact S1|lia|exact E|exact Hn|]. intros b2 s2 S2.
  apply runs_ret_bind. apply runs_ret_bind. eapply HK; [exact Ef|exact S2].
Qed.
Lemma deref_brack_step g N f i i1 i2 o e k T (K : expr -> P T) Q s b : 0 < f -> st b g i s ->
  op_ T_LBrack i i1 -> fu 3 i1 N -> cExpr (with_in true g) i1 i2 k -> op_ T_RBrack i2 o ->
  (forall f' l k' b' s', f = Datatypes.S f' -> eqx k k' -> st b' g o s' ->
     runs (bind (loopM f' (dbody N) (E_Brack l e k')) K) s' Q) ->
  runs (bind (loopM f (dbody N) e) K) s Q.
Proof.
  intros Hf S (t & -> & E) Hfu Hn Ho HK. apply runs_loop_bind; [exact Hf|]. intros f' Ef. unfold dbody at 1.
  apply runs_assoc. unfold deref_opt. apply runs_assoc. eapply k_peek_op; [exact HV|exact S|fit|].
  intros s1 S1. dec_t. apply runs_assoc. eapply k_deref_brack; [exact S1|lia|exact E|exact Hfu|exact Hn|exact Ho|].
  intros k' t' b2 s2 He S2.
  apply runs_ret_bind. apply runs_ret_bind. eapply HK; [exact Ef|exact He|exact S2].
Qed.
Lemma deref_end g N f t o e T (K : expr -> P T) Q s b : 0 < f -> st b g (t :: o) s -> ~ regexp t ->
  tk_value t <> TPunc T_Dot -> tk_value t <> TPunc T_LBrack ->
  (forall b' s', 1 <= b' -> st b' g (t :: o) s' -> runs (K e) s' Q) ->
  runs (bind (loopM f (dbody N) e) K) s Q.
Proof.
  intros Hf S Hr H1 H2 HK. apply runs_loop_bind; [exact Hf|]. intros f' _. unfold dbody at 1.
  apply runs_assoc. unfold deref_opt. apply runs_assoc. eapply k_peek_op; [exact HV|exact S|right; exact Hr|].
  intros s1 S1. rewrite (is_t_ne t (TPunc T_LBrack) Logic.I H2), (is_t_ne t (TPunc T_Dot) Logic.I H1).
  apply runs_ret_bind. apply runs_ret_bind. eapply HK; [|exact S1]. lia.
Qed.

Lemma c_lhs_dot g i i1 i2 o l e k : GX true g Lhs i i1 e -> cLhs g i i1 e -> op_ T_Dot i1 i2 -> cDotName i2 o k ->
  cLhs g i o (E_Dot l e k).
Proof.
  intros D H Hd Hn N T K Q s b Hf S Hr HK. eapply H; [exact Hf|exact S|eapply eat_no_regexp; [exact Hd|discriminate]|].
  intros e' b1 s1 f1 He Hf1 S1. eapply suffix_dot; [lia|exact S1|exact Hd|exact Hn|].
  intros f2 l' b2 s2 -> S2. pose proof (W_eat _ _ _ Hd ltac:(discriminate)) as Hw. destruct Hn as (t & -> & _).
  pose proof (W_cons t o). eapply HK; [|lia|exact S2]. unfold eqx in *. cbn [expr_untrack]. rewrite He. reflexivity.
Qed.
Lemma c_lhs_brack g i i1 i2 i3 o l e k : GX true g Lhs i i1 e -> cLhs g i i1 e -> op_ T_LBrack i1 i2 ->
  GX true (with_in true g) Expression i2 i3 k -> cExpr (with_in true g) i2 i3 k -> op_ T_RBrack i3 o ->
  cLhs g i o (E_Brack l e k).
Proof.
  intros D H Hd D2 Hn Ho N T K Q s b Hf S Hr HK.
  pose proof (W_eat _ _ _ Hd ltac:(discriminate)) as Hw. pose proof (W_eat _ _ _ Ho ltac:(discriminate)) as Hw2.
  pose proof (G_W _ _ _ _ _ _ _ D) as Hw3. pose proof (G_W _ _ _ _ _ _ _ D2) as Hw4. unfold fu in *.
  eapply H; [exact Hf|exact S|eapply eat_no_regexp; [exact Hd|discriminate]|].
  intros e' b1 s1 f1 He Hf1 S1. eapply suffix_brack; [lia|exact S1|exact Hd|unfold fu; lia|exact Hn|exact Ho|].
  intros f2 l' k' b2 s2 -> Hk S2. eapply HK; [|lia|exact S2]. unfold eqx in *. cbn [expr_untrack]. rewrite He, Hk. reflexivity.
Qed.
Lemma c_lhs_call g i i1 o l e es : GX true g Lhs i i1 e -> cLhs g i i1 e -> GX true g Arguments i1 o es ->
  cArguments g i1 o es -> cLhs g i o (E_Call l e es).
Proof.
  intros D H D2 Hn N T K Q s b Hf S Hr HK.
  pose proof (G_W _ _ _ _ _ _ _ D) as Hw3. pose proof (G_W _ _ _ _ _ _ _ D2) as Hw4. unfold fu in *.
  pose proof (G_first _ _ _ _ _ _ _ D2) as Hb. cbn [solid fst_ok] in Hw4.
  eapply H; [exact Hf|exact S| |].
  { destruct Hb as (t & i' & -> & Ht). exists t, i'. split; [reflexivity|]. intros (r & E). cbn in Ht. rewrite E in Ht. discriminate. }
  intros e' b1 s1 f1 He Hf1 S1. eapply suffix_call; [lia|exact S1|exact Hb|unfold fu; lia|exact Hn|].
  intros f2 l' k' b2 s2 -> Hk S2. unfold solid in Hw4. cbn [fst_ok] in Hw4.
  eapply HK; [|lia|exact S2]. unfold eqx in *. cbn [expr_untrack]. rewrite He, Hk. reflexivity.
Qed.
Lemma c_lhs_base g i o e : cBase g i o e -> cLhs g i o e.
Proof.
  intros H N T K Q s b Hf S Hr HK. rewrite lhs_eq. unfold fu in Hf.
  eapply H with (acc := []); [exact Hf|rewrite R_fuel; lia|exact S|exact HK].
Qed.
Lemma c_lhs_new g i o e : cNew false g i o e -> cLhs g i o e.
Proof.
  intros H N T K Q s b Hf S Hr HK. rewrite lhs_eq. unfold fu in Hf.
  eapply H with (acc := []); [exact Hf|rewrite R_fuel; lia|exact S|exact Hr|].
  intros e' x b' s' f' He _ Hf' S'. exact (HK e' b' s' f' He Hf' S').
Qed.

Lemma c_member_dot g i i1 i2 o l e k : cBase g i i1 e -> op_ T_Dot i1 i2 -> cDotName i2 o k ->
  cBase g i o (E_Dot l e k).
Proof.
  intros H Hd Hn N f acc T K Q s b Hf Hw S HK. eapply H; [exact Hf|exact Hw|exact S|].
  intros e' b1 s1 f1 He Hf1 S1.
  assert (Hq : forall l0, eqx (E_Dot l e k) (E_Dot l0 e' k))
    by (intros l0; unfold eqx in *; cbn [expr_untrack]; rewrite He; reflexivity).
  assert (Hwo : W o < W i1).
  { pose proof (W_eat _ _ _ Hd ltac:(discriminate)) as Hw1. destruct Hn as (t & -> & _). pose proof (W_cons t o). lia. }
  destruct acc as [|a acc]; cbn [after_base] in *.
  - eapply suffix_dot; [lia|exact S1|exact Hd|exact Hn|]. intros f2 l' b2 s2 -> S2. eapply HK; [apply Hq|lia|exact S2].
  - apply runs_assoc. eapply deref_dot_step; [lia|exact S1|exact Hd|exact Hn|]. intros f2 l' b2 s2 -> S2.
    specialize (HK (E_Dot l' e' k) b2 s2 f2 (Hq l') ltac:(lia) S2). unfold runs in *. rewrite bind_bind in HK. exact HK.
Qed.
Lemma c_member_brack g i i1 i2 i3 o l e k : GX true g Member i i1 e -> cBase g i i1 e -> op_ T_LBrack i1 i2 ->
  GX true (with_in true g) Expression i2 i3 k -> cExpr (with_in true g) i2 i3 k -> op_ T_RBrack i3 o ->
  cBase g i o (E_Brack l e k).
Proof.
  intros D H Hd D2 Hn Ho N f acc T K Q s b Hf Hw S HK. eapply H; [exact Hf|exact Hw|exact S|].
  intros e' b1 s1 f1 He Hf1 S1.
  assert (Hq : forall l0 k', eqx k k' -> eqx (E_Brack l e k) (E_Brack l0 e' k'))
    by (intros l0 k' Hk; unfold eqx in *; cbn [expr_untrack]; rewrite He, Hk; reflexivity).
  pose proof (W_eat _ _ _ Hd ltac:(discriminate)) as Hw1. pose proof (W_eat _ _ _ Ho ltac:(discriminate)) as Hw2.
  pose proof (G_W _ _ _ _ _ _ _ D) as Hw3. pose proof (G_W _ _ _ _ _ _ _ D2) as Hw4. unfold fu in *.
  destruct acc as [|a acc]; cbn [after_base] in *.
  - eapply suffix_brack; [lia|exact S1|exact Hd|unfold fu; lia|exact Hn|exact Ho|].
    intros f2 l' k' b2 s2 -> Hk S2. eapply HK; [apply Hq, Hk|lia|exact S2].
  - apply runs_assoc. eapply deref_brack_step; [lia|exact S1|exact Hd|unfold fu; lia|exact Hn|exact Ho|].
    intros f2 l' k' b2 s2 -> Hk S2.
    specialize (HK (E_Brack l' e' k') b2 s2 f2 (Hq l' k' Hk) ltac:(lia) S2). unfold runs in *. rewrite bind_bind in HK. exact HK.
Qed.
Lemma c_base g i o e : GX true g Primary i o e -> cPrimary g i o e -> cBase g i o e.
Proof.
  intros D H N f acc T K Q s b Hf Hw S HK.
  pose proof (G_W _ _ _ _ _ _ _ D) as Hw1. unfold solid in Hw1. cbn [fst_ok] in Hw1. unfold fu in *.
  destruct (G_first _ _ _ _ _ _ _ D) as (t & i' & -> & Ht). cbn beta in Ht.
  assert (Hnew : is_t t (TReserved R_New) = false /\ is_t t (TPunc T_Dot) = false /\ fits false t).
  { split; [|split].
    - unfold is_t. destruct (tk_value t) as [[]|[]| | | |]; try discriminate Ht; reflexivity.
    - unfold is_t. destruct (tk_value t) as [[]|[]| | | |]; try discriminate Ht; reflexivity.
    - exact (fits_first prim_first t Ht eq_refl eq_refl). }
  destruct Hnew as (Hn & Hd & Hfit).
  apply runs_assoc. apply runs_loop_bind; [lia|]. intros f' ->. unfold nbody at 1. apply runs_assoc.
  eapply k_peek; [exact HV|exact S|right; exact Hfit|]. intros s1 S1. rewrite Hn. apply runs_ret_bind.
  unfold lrest. destruct (rev acc) as [|new news] eqn:Er.
  - assert (acc = []) as -> by (apply (f_equal (@rev token)) in Er; rewrite rev_involutive in Er; exact Er).
    unfold call_expression. apply runs_assoc. eapply k_call; [eapply H; [exact Hf|exact S1]|].
    intros e' b2 s2 He _ S2. eapply (HK e' b2 s2 (r_fuel (R N))); [exact He|rewrite R_fuel; lia|exact S2].
  - apply runs_assoc. eapply k_matches_op_no; [exact HV|exact S1|left; lia|exact Hd|]. intros s2 S2.
    unfold new_expression. apply runs_assoc. unfold member_base_expression. apply runs_assoc.
    eapply k_matches_token_no; [exact HV|exact S2|left; lia|exact Hn|]. intros s3 S3.
    eapply k_call; [eapply H; [exact Hf|exact S3]|]. intros e' b4 s4 He _ S4.
    specialize (HK e' b4 s4 (r_fuel (R N)) He ltac:(rewrite R_fuel; lia) S4).
    destruct acc as [|a acc]; [discriminate Er|]. exact HK.
Qed.
Lemma c_new_target g i i1 i2 o l : kw R_New i i1 -> op_ T_Dot i1 i2 -> eat (TIdent (NAtom A_Target)) i2 o ->
  cBase g i o (E_NewTarget l).
Proof.
  intros H1 H2 H3 N f acc T K Q s b Hf Hw S HK. unfold fu in *.
  pose proof (W_eat _ _ _ H1 ltac:(discriminate)) as Hw1. pose proof (W_eat _ _ _ H2 ltac:(discriminate)) as Hw2.
  pose proof (W_eat _ _ _ H3 ltac:(discriminate)) as Hw3.
  destruct H1 as (t1 & -> & E1). destruct H2 as (t2 & -> & E2). destruct H3 as (t3 & -> & E3).
  apply runs_assoc. apply runs_loop_bind; [lia|]. intros f' ->. unfold nbody at 1. apply runs_assoc.
  eapply k_peek; [exact HV|exact S|fit|]. intros s1 S1. dec_t. apply runs_assoc.
  eapply k_reread; [exact HV|exact S1|lia|ist|]. intros s2 _ S2. apply runs_ret_bind.
  apply runs_loop_bind; [lia|]. intros f2 ->. unfold nbody at 1. apply runs_assoc.
  eapply k_peek; [exact HV|exact S2|fit|]. intros s3 S3. dec_t. apply runs_ret_bind.
  unfold lrest. rewrite rev_unit. apply runs_assoc. eapply k_matches_op_yes; [exact HV|exact S3|left; lia|ist|]. intros s4 S4.
  apply runs_assoc. eapply k_expect; [exact HV|exact S4|fit|ist|]. intros s5 S5. cbn zeta.
  match goal with |- context [E_NewTarget ?l'] =>
    specialize (HK (E_NewTarget l') _ s5 (r_fuel (R N)) eq_refl ltac:(rewrite R_fuel; lia) S5) end.
  destruct acc as [|a acc].
  - exact HK.
  - destruct (rev (a :: acc)) as [|x xs] eqn:Er.
    { apply (f_equal (@length token)) in Er. rewrite rev_length in Er. discriminate Er. }
    unfold more_new_expression. rewrite rev_involutive. rewrite <- Er. cbn [after_base] in HK. exact HK.
Qed.

(** *** [new] *)

Lemma k_new N g i i1 s b f acc T (K : expr -> P T) Q : kw R_New i i1 -> st b g i s -> 0 < f ->
  (forall f' t b' s', f = Datatypes.S f' -> st b' g i1 s' ->
     runs (bind (bind (loopM f' nbody (acc ++ [t])) (lrest N)) K) s' Q) ->
  runs (bind (bind (loopM f nbody acc) (lrest N)) K) s Q.
Proof.
  intros (t & -> & E) S Hf HK. apply runs_assoc. apply runs_loop_bind; [lia|]. intros f' ->. unfold nbody at 1. apply runs_assoc.
  eapply k_peek; [exact HV|exact S|fit|]. intros s1 S1. dec_t. apply runs_assoc.
  eapply k_reread; [exact HV|exact S1|lia|ist|]. intros s2 _ S2. apply runs_ret_bind.
  specialize (HK f' t _ s2 eq_refl S2). unfold runs in *. rewrite bind_bind in HK. exact HK.
Qed.
Lemma c_new_base g i o e : GX true g Member i o e -> cBase g i o e ->
  next (fun t => tk_value t <> TPunc T_Dot /\ tk_value t <> TPunc T_LBrack) o -> cNew true g i o e.
Proof.
  intros D H Hn N f acc T K Q s b Hf Hw S Hr HK.
  pose proof (G_W _ _ _ _ _ _ _ D) as Hw1. unfold solid in Hw1. cbn [fst_ok] in Hw1. unfold fu in *.
  eapply H; [exact Hf|exact Hw|exact S|]. intros e' b1 s1 f1 He Hf1 S1.
  destruct acc as [|a acc]; cbn [after_base].
  - exact (HK e' true b1 s1 f1 He (fun _ => eq_refl) Hf1 S1).
  - destruct Hr as (t & o' & -> & Hr). destruct Hn as (t2 & o2 & E2 & Hn1 & Hn2). assert (t2 = t) by congruence. subst t2.
    apply runs_assoc. eapply deref_end; [lia|exact S1|exact Hr|exact Hn1|exact Hn2|]. intros b2 s2 _ S2.
    apply (HK e' true b2 s2 (r_fuel (R N)) He (fun _ => eq_refl)); [rewrite R_fuel; lia|exact S2].
Qed.
Lemma c_new_args g i i1 i2 o l e es : kw R_New i i1 -> GX true g NewArgs i1 i2 e -> cNew true g i1 i2 e ->
  GX true g Arguments i2 o es -> cArguments g i2 o es -> cNew true g i o (E_New l e (Some es)).
Proof.
  intros Hk D H D2 H2 N f acc T K Q s b Hf Hw S Hr HK.
  pose proof (W_eat _ _ _ Hk ltac:(discriminate)) as Hw0.
  pose proof (G_W _ _ _ _ _ _ _ D) as Hw1. pose proof (G_W _ _ _ _ _ _ _ D2) as Hw2. unfold solid in *. cbn [fst_ok] in *.
  unfold fu in *. destruct (G_first _ _ _ _ _ _ _ D2) as (t2 & i2' & -> & Ht). cbn beta in Ht.
  assert (E : tk_value t2 = TPunc T_LParen).
  { destruct (tk_value t2) as [|[]| | | |]; try discriminate Ht; reflexivity. }
  eapply k_new; [exact Hk|exact S|lia|]. intros f' t b1 s1 -> S1.
  eapply H; [unfold fu; lia|lia|exact S1| |].
  { eexists _, _. split; [reflexivity|]. intros (r & Hx). congruence. }
  intros e' x b2 s2 f2 He Hx Hf2 S2. rewrite (Hx eq_refl). rewrite rev_unit. cbn [apply_news].
  apply runs_assoc. apply runs_assoc. apply runs_assoc. eapply k_peek_op; [exact HV|exact S2|fit|]. intros s3 S3. dec_t.
  apply runs_ret_bind. apply runs_assoc. apply runs_assoc. eapply k_call; [eapply H2; [unfold fu; lia|exact S3]|]. intros a b4 s4 Ha _ S4.
  apply runs_ret_bind. specialize (HK (arguments_append_to_new a t e') true b4 s4 f2).
  unfold runs in *. rewrite bind_bind in HK. apply HK; [|reflexivity|lia|exact S4].
  unfold eqx, arguments_append_to_new in *. cbn [expr_untrack option_map]. rewrite He, Ha. reflexivity.
Qed.
Lemma c_new_some g i o e : cNew true g i o e -> cNew false g i o e.
Proof.
  intros H N f acc T K Q s b Hf Hw S Hr HK. eapply H; [exact Hf|exact Hw|exact S|exact Hr|].
  intros e' x b' s' f' He _ Hf' S'. eapply HK; [exact He|discriminate|exact Hf'|exact S'].
Qed.
Lemma c_new_bare g i i1 o l e : kw R_New i i1 -> cNew false g i1 o e -> not_next (TPunc T_LParen) o ->
  cNew false g i o (E_New l e None).
Proof.
  intros Hk H (t2 & o' & -> & Hn) N f acc T K Q s b Hf Hw S Hr HK.
  pose proof (W_eat _ _ _ Hk ltac:(discriminate)) as Hw0. unfold fu in *.
  eapply k_new; [exact Hk|exact S|lia|]. intros f' t b1 s1 -> S1.
  eapply H; [unfold fu; lia|lia|exact S1|exact Hr|]. destruct Hr as (t3 & o3 & E3 & Hr). assert (t3 = t2) by congruence. subst t3.
  intros e' x b2 s2 f2 He _ Hf2 S2. rewrite rev_unit. cbn [apply_news].
  assert (Hq : forall l0, eqx (E_New l e None) (E_New l0 e' None))
    by (intros l0; unfold eqx in *; cbn [expr_untrack option_map]; rewrite He; reflexivity).
  apply runs_assoc. destruct x.
  - apply runs_assoc. apply runs_assoc. eapply k_peek_op; [exact HV|exact S2|right; exact Hr|]. intros s3 S3.
    rewrite (is_t_ne t2 (TPunc T_LParen) Logic.I Hn). apply runs_ret_bind. apply runs_assoc. apply runs_ret_bind.
    match goal with |- context [E_New ?l0 e' None] =>
      specialize (HK (E_New l0 e' None) false _ s3 f2 (Hq l0) ltac:(discriminate) Hf2 S3) end.
    unfold runs in *. rewrite bind_bind in HK. exact HK.
  - apply runs_assoc. apply runs_ret_bind. apply runs_assoc. apply runs_ret_bind.
    match goal with |- context [E_New ?l0 e' None] =>
      specialize (HK (E_New l0 e' None) false _ s2 f2 (Hq l0) ltac:(discriminate) Hf2 S2) end.
    unfold runs in *. rewrite bind_bind in HK. exact HK.
Qed.

(** ** Lists *)

Inductive sep {A} (P : tokens -> tokens -> A -> Prop) : tokens -> tokens -> list A -> Prop :=
| sep_one : forall i o a, P i o a -> sep P i o [a]
| sep_more : forall i i1 i2 o a l, P i i1 a -> op_ T_Comma i1 i2 -> sep P i2 o l -> sep P i o (a :: l).
Inductive csep {A} (P : tokens -> tokens -> A -> Prop) : tokens -> tokens -> list A -> Prop :=
| cs_nil : forall i, csep P i i []
| cs_last : forall i o a, P i o a -> csep P i o [a]
| cs_cons : forall i i1 i2 o a l, P i i1 a -> op_ T_Comma i1 i2 -> csep P i2 o l -> csep P i o (a :: l).
(** The rest of a list after its first element. *)
Definition ctail {A} (P : tokens -> tokens -> A -> Prop) (i o : tokens) (l : list A) : Prop :=
  (i = o /\ l = []) \/ exists i1, op_ T_Comma i i1 /\ sep P i1 o l.

Lemma sep_uncons {A} (P : tokens -> tokens -> A -> Prop) i o l : sep P i o l ->
  exists i1 a l', l = a :: l' /\ P i i1 a /\ ctail P i1 o l'.
Proof.
  intros []; [exists o0, a, []|exists i1, a, l0]; (split; [reflexivity|]; split; [assumption|]); [left; auto|right; eauto].
Qed.
Lemma Forall2_map_eq {A B} (F : A -> B) l l' : Forall2 (fun a a' => F a' = F a) l l' -> map F l' = map F l.
Proof. induction 1; cbn; congruence. Qed.

Definition mcbody {A} (f : P A) (items : list A) : P (list A + list A) :=
  b <- p_matches V (TPunc T_Comma) ;;
  if b : bool then x <- f ;; ret (inl (items ++ [x])) else ret (inr items).

Section MoreComma.
Context {A : Type} (N : nat) (g : place) (E : tokens -> tokens -> A -> Prop) (U : A -> A -> Prop) (f : P A).
Context (Hf : forall i o a s b, E i o a -> fu 3 i N -> st b g i s -> runs f s (gives 1 g o (U a))).
Context (HW : forall i o a, E i o a -> W o < W i).

Lemma sep_loop i o l : sep E i o l -> forall fuel acc s b, fu 3 i N -> W i <= fuel -> not_next (TPunc T_Comma) o -> st b g i s ->
  runs (bind f (fun x => loopM fuel (mcbody f) (acc ++ [x]))) s
    (gives 1 g o (fun l' => exists l2, l' = acc ++ l2 /\ Forall2 U l l2)).
Proof.
  induction 1 as [i o a Ha|i i1 i2 o a l Ha Hc Hs IH]; intros fuel acc s b Hfu Hfuel Hn S; pose proof (HW _ _ _ Ha) as Hw.
  - eapply k_call; [eapply Hf; eassumption|]. intros x b1 s1 Hx Hb1 S1. apply runs_loop; [lia|]. intros f' _.
    unfold mcbody at 1. apply runs_assoc. destruct Hn as (t & o' & -> & Ht).
    eapply k_matches_no; [exact HV|exact S1|left; exact Hb1|apply is_t_ne; [exact Logic.I|exact Ht]|]. intros s2 S2.
    apply runs_ret_bind. apply runs_ret. split; [|eexists; split; [|exact S2]; lia].
    exists [x]. split; [reflexivity|]. repeat constructor. exact Hx.
  - eapply k_call; [eapply Hf; eassumption|]. intros x b1 s1 Hx Hb1 S1. apply runs_loop; [lia|]. intros f' ->.
    pose proof (W_eat _ _ _ Hc ltac:(discriminate)) as Hw2. destruct Hc as (t & -> & Et). unfold fu in *.
    unfold mcbody at 1. apply runs_assoc.
    eapply k_matches_yes; [exact HV|exact S1|left; exact Hb1|ist|]. intros s2 S2. apply runs_assoc.
    eapply runs_conseq; [eapply (IH f' (acc ++ [x])); [unfold fu; lia|lia|exact Hn|exact S2]|].
    intros l' s' ((l2 & -> & Hl2) & HS). split; [|exact HS]. exists (x :: l2).
    rewrite <- app_assoc. split; [reflexivity|]. constructor; assumption.
Qed.
Lemma r_comma_separated i o l s b : sep E i o l -> fu 3 i N -> not_next (TPunc T_Comma) o -> st b g i s ->
  runs (comma_separated V (R N) f) s (gives 1 g o (Forall2 U l)).
Proof.
  intros Hs Hfu Hn S. unfold fu in Hfu.
  eapply runs_conseq; [apply (sep_loop i o l Hs (r_fuel (R N)) [] s b); [exact Hfu|rewrite R_fuel; lia|exact Hn|exact S]|].
  intros l' s' ((l2 & -> & Hl2) & HS). split; [exact Hl2|exact HS].
Qed.
Lemma r_more_comma i o l x s b : ctail E i o l -> fu 3 i N -> not_next (TPunc T_Comma) o -> 1 <= b -> st b g i s ->
  runs (more_comma V (R N) x f) s (gives 1 g o (fun l' => exists l2, l' = x :: l2 /\ Forall2 U l l2)).
Proof.
  intros Hs Hfu Hn Hb S. unfold fu in Hfu. change (more_comma V (R N) x f) with (loopM (r_fuel (R N)) (mcbody f) [x]).
  apply runs_loop; [rewrite R_fuel; lia|]. intros f' Ef. rewrite R_fuel in Ef. unfold mcbody at 1. apply runs_assoc.
  destruct Hs as [[-> ->]|(i1 & Hc & Hs)].
  - destruct Hn as (t & o' & -> & Ht).
    eapply k_matches_no; [exact HV|exact S|left; exact Hb|apply is_t_ne; [exact Logic.I|exact Ht]|]. intros s2 S2.
    apply runs_ret_bind. apply runs_ret. split; [|eexists; split; [|exact S2]; lia]. exists []. auto.
  - pose proof (W_eat _ _ _ Hc ltac:(discriminate)) as Hw2. destruct Hc as (t & -> & Et).
    eapply k_matches_yes; [exact HV|exact S|left; exact Hb|ist|]. intros s2 S2. apply runs_assoc.
    eapply runs_conseq; [eapply (sep_loop i1 o l Hs f' [x]); [unfold fu; lia|lia|exact Hn|exact S2]|].
    intros l' s' ((l2 & -> & Hl2) & HS). split; [|exact HS]. exists l2. auto.
Qed.
End MoreComma.

(** ** Expressions with commas *)

Lemma r_assign_of g i o e N s b : cAssign g i o e -> fu 3 i N -> st b g i s ->
  runs (r_assign (R N)) s (gives 1 g o (eqx e)).
Proof.
  intros H Hf S. unfold fu in Hf. destruct N as [|N]; [lia|]. rewrite R_assign. eapply H; [unfold fu; lia|exact S].
Qed.
Definition gAssign (g : place) (i o : tokens) (e : expr) : Prop := GX true g Assignment i o e /\ cAssign g i o e.
Lemma gAssign_W g i o e : gAssign g i o e -> W o < W i.
Proof. intros [D _]. exact (G_W _ _ _ _ _ _ _ D). Qed.

Lemma c_expr g i o e : cAssign g i o e -> not_next (TPunc T_Comma) o -> cExpr g i o e.
Proof.
  intros H (t & o' & -> & Hn) N s b Hf S. unfold expression.
  eapply k_call; [eapply r_assign_of; eassumption|]. intros e' b1 s1 He Hb S1. unfold more_expressions.
  eapply k_peek; [exact HV|exact S1|left; exact Hb|]. intros s2 S2.
  rewrite (is_t_ne t (TPunc T_Comma) Logic.I Hn). apply runs_ret. split; [exact He|]. eexists; split; [|exact S2]. lia.
Qed.
Lemma c_seq g i i1 i2 o l e es : gAssign g i i1 e -> op_ T_Comma i1 i2 -> sep (gAssign g) i2 o es ->
  not_next (TPunc T_Comma) o -> cExpr g i o (E_Seq l (e :: es)).
Proof.
  intros H Hc Hs Hn N s b Hf S. pose proof (gAssign_W _ _ _ _ H) as Hw. unfold expression.
  eapply k_call; [eapply r_assign_of; [apply H|exact Hf|exact S]|]. intros e' b1 s1 He Hb S1. unfold more_expressions.
  assert (Ht : exists t i1', i1 = t :: i1' /\ tk_value t = TPunc T_Comma)
    by (destruct Hc as (t & -> & E); eauto). destruct Ht as (t & i1' & Ei & Et). rewrite Ei in S1.
  eapply k_peek; [exact HV|exact S1|left; exact Hb|]. intros s2 S2. dec_t. rewrite <- Ei in S2.
  eapply k_call; [eapply (r_more_comma N g (gAssign g) eqx (r_assign (R N))) with (l := es);
      [| |right; eauto|unfold fu in *; lia|exact Hn| |exact S2]|].
  - intros i' o' a s' b' [_ Ha] Hfu S'. eapply r_assign_of; eassumption.
  - intros i' o' a Ha. exact (gAssign_W _ _ _ _ Ha).
  - lia.
  - intros l' b3 s3 (l2 & -> & Hl2) Hb3 S3. cbn [map p_vec_span]. apply runs_ret_bind. apply runs_ret.
    split; [|eauto]. unfold eqx in *. cbn [expr_untrack map]. apply Forall2_map_eq in Hl2. rewrite He, Hl2. reflexivity.
Qed.

Lemma r_allow_in {A} c (m : P A) b n g i o (Q : A -> Prop) s : st b g i s ->
  (forall s', st b (with_in c g) i s' -> runs m s' (gives n (with_in c g) o Q)) ->
  runs (p_allow_in c m) s (gives n g o Q).
Proof.
  intros S H. apply runs_eta. eapply k_allow_in; [exact S|exact H|].
  intros a b' s' Ha Hb S'. apply runs_ret. split; eauto.
Qed.
Lemma r_span {A} (set : A -> loc -> A) (m : P A) n g o (Q Q' : A -> Prop) s :
  runs m s (gives n g o Q') -> (forall a l, Q' a -> Q (set a (Some l))) -> runs (p_span set m) s (gives n g o Q).
Proof.
  intros H HQ. apply runs_eta. apply k_span. eapply k_call; [exact H|]. intros a b s' Ha Hb S.
  apply runs_posn. intros p. apply runs_ret. split; [apply HQ, Ha|eauto].
Qed.

Lemma r_paren g i i1 i2 o e N s b : op_ T_LParen i i1 -> cExpr (with_in true g) i1 i2 e ->
  op_ T_RParen i2 o -> fu 2 i N -> st b g i s ->
  runs (paren_expression V (R N)) s (gives 0 g o (eqx e)).
Proof.
  intros H1 H2 H3 Hf S. unfold fu in Hf. pose proof (W_eat _ _ _ H1 ltac:(discriminate)) as Hw.
  op_eat. unfold paren_expression. eapply k_expect; [exact HV|exact S|fit|ist|]. intros s1 S1.
  eapply k_allow_in; [exact S1|intros s' S'; eapply H2; [unfold fu; lia|exact S']|]. intros e' b2 s2 He Hb2 S2.
  eapply k_expect; [exact HV|exact S2|left; exact Hb2|ist|]. intros s3 S3. apply runs_ret. split; [exact He|].
  eexists. split; [|exact S3]. lia.
Qed.

(** ** Lists of expressions *)

Lemma c_item_expr g i o e : GX true g Assignment i o e -> cAssign g i o e -> cListItem g i o (L_Expr e).
Proof.
  intros D H N s b Hf S. unfold expr_list_item. destruct (G_first _ _ _ _ _ _ _ D) as (t & i' & -> & Ht). cbn beta in Ht.
  eapply k_peek; [exact HV|exact S|right; exact (fits_first expr_first t Ht eq_refl eq_refl)|]. intros s1 S1.
  rewrite (is_t_ne t (TPunc T_Ellipsis) Logic.I) by (intros E; rewrite E in Ht; discriminate).
  eapply k_call; [eapply r_assign_of; eassumption|]. intros e' b2 s2 He Hb S2. apply runs_ret.
  split; [|eauto]. unfold eqi, eqx in *. cbn [eli_untrack]. rewrite He. reflexivity.
Qed.
Lemma c_item_spread g i i1 o l e : op_ T_Ellipsis i i1 -> cAssign g i1 o e -> cListItem g i o (L_Spread (Some l) e).
Proof.
  intros Hc H N s b Hf S. pose proof (W_eat _ _ _ Hc ltac:(discriminate)) as Hw. op_eat. unfold expr_list_item.
  eapply k_peek; [exact HV|exact S|fit|]. intros s1 S1. dec_t.
  eapply r_span with (Q' := fun e' => exists e2, e' = L_Spread None e2 /\ eqx e e2).
  - eapply k_reread; [exact HV|exact S1|lia|ist|]. intros s2 _ S2. unfold fu in *.
    eapply k_call; [eapply r_assign_of; [exact H|unfold fu; lia|exact S2]|]. intros e' b3 s3 He Hb S3. apply runs_ret. split; eauto.
  - intros a l' (e2 & -> & He). unfold eqi, eqx in *. cbn. rewrite He. reflexivity.
Qed.

Definition gItem (g : place) (i o : tokens) (e : eli) : Prop := GX true g ListItem i o e /\ cListItem g i o e.
Definition argbody (N : nat) (args : list eli) : P (list eli + list eli) :=
  a <- expr_list_item V (R N) ;;
  b <- p_matches V (TPunc T_Comma) ;;
  if b : bool then ret (inl (args ++ [a])) else ret (inr (args ++ [a])).
Lemma args_loop g N i o l : sep (gItem g) i o l -> forall fuel acc s b, fu 3 i N -> W i < fuel -> not_next (TPunc T_Comma) o ->
  st b g i s -> runs (loopM fuel (argbody N) acc) s (gives 1 g o (fun l' => exists l2, l' = acc ++ l2 /\ Forall2 eqi l l2)).
Proof.
  induction 1 as [i o a [D Ha]|i i1 i2 o a l [D Ha] Hc Hs IH]; intros fuel acc s b Hfu Hfuel Hn S;
    pose proof (G_W _ _ _ _ _ _ _ D) as Hw; unfold solid in Hw; cbn [fst_ok] in Hw;
    (apply runs_loop; [lia|]); intros f' ->; unfold argbody at 1; apply runs_assoc.
  - eapply k_call; [eapply Ha; eassumption|]. intros x b1 s1 Hx Hb1 S1. apply runs_assoc.
    destruct Hn as (t & o' & -> & Ht).
    eapply k_matches_no; [exact HV|exact S1|left; exact Hb1|apply is_t_ne; [exact Logic.I|exact Ht]|]. intros s2 S2.
    apply runs_ret_bind. apply runs_ret. split; [|eexists; split; [|exact S2]; lia].
    exists [x]. split; [reflexivity|]. repeat constructor. exact Hx.
  - eapply k_call; [eapply Ha; eassumption|]. intros x b1 s1 Hx Hb1 S1. apply runs_assoc.
    pose proof (W_eat _ _ _ Hc ltac:(discriminate)) as Hw2. destruct Hc as (t & -> & Et). unfold fu in *.
    eapply k_matches_yes; [exact HV|exact S1|left; exact Hb1|ist|]. intros s2 S2. apply runs_ret_bind.
    eapply runs_conseq; [eapply (IH f' (acc ++ [x])); [unfold fu; lia|lia|exact Hn|exact S2]|].
    intros l' s' ((l2 & -> & Hl2) & HS). split; [|exact HS]. exists (x :: l2).
    rewrite <- app_assoc. split; [reflexivity|]. constructor; assumption.
Qed.
Lemma sep_begins {A} g (n : nt A) E i o l : sep (fun i o a => GX true g n i o a /\ E i o a) i o l -> begins (fst_ok n) i.
Proof. intros []; destruct H as [D _]; exact (G_first _ _ _ _ _ _ _ D). Qed.
Lemma c_args_nil g i i1 o : op_ T_LParen i i1 -> op_ T_RParen i1 o -> cArguments g i o [].
Proof.
  intros H1 H2 N s b Hf S. unfold arguments_. eapply r_allow_in; [exact S|]. clear s S. intros s S. op_eat.
  eapply k_expect; [exact HV|exact S|fit|ist|]. intros s1 S1. eapply k_peek; [exact HV|exact S1|fit|]. intros s2 S2. dec_t.
  apply runs_ret_bind. eapply k_expect; [exact HV|exact S2|fit|ist|]. intros s3 S3. apply runs_ret.
  split; [reflexivity|]. eexists. split; [|exact S3]. lia.
Qed.
Lemma c_args g i i1 i2 o es : op_ T_LParen i i1 -> sep (gItem (with_in true g)) i1 i2 es -> op_ T_RParen i2 o ->
  cArguments g i o es.
Proof.
  intros H1 Hs H2 N s b Hf S. unfold arguments_. eapply r_allow_in; [exact S|]. clear s S. intros s S.
  pose proof (W_eat _ _ _ H1 ltac:(discriminate)) as Hw. unfold fu in Hf.
  destruct (sep_begins _ _ _ _ _ _ Hs) as (t1 & i1' & E1 & Ht). cbn beta in Ht.
  destruct H1 as (t & -> & E). eapply k_expect; [exact HV|exact S|fit|ist|]. intros s1 S1. rewrite E1 in S1.
  pose proof (fits_first (fun v => expr_first v || td_eqb v (TPunc T_Ellipsis)) t1 Ht eq_refl eq_refl) as Hfit.
  eapply k_peek; [exact HV|exact S1|right; exact Hfit|]. intros s2 S2.
  rewrite (is_t_ne t1 (TPunc T_RParen) Logic.I) by (intros Ex; rewrite Ex in Ht; discriminate). cbn [negb].
  rewrite <- E1 in S2. destruct H2 as (t2 & -> & E2).
  eapply k_call; [eapply (args_loop (with_in true g) N i1 (t2 :: o) es Hs (r_fuel (R N)) []);
    [unfold fu; lia|rewrite R_fuel; lia|exists t2, o; split; [reflexivity|congruence]|exact S2]|].
  intros l' b3 s3 (l2 & -> & Hl2) Hb3 S3. eapply k_expect; [exact HV|exact S3|left; exact Hb3|ist|]. intros s4 S4.
  apply runs_ret. split; [|eexists; split; [|exact S4]; lia]. apply (Forall2_map_eq eli_untrack) in Hl2. exact Hl2.
Qed.

(** *** Array literals *)
Definition elbody (N : nat) (elts : list (option eli)) : P (list (option eli) + list (option eli)) :=
  t <- p_peek V ;;
  if is_t t (TPunc T_RBrack) then ret (inr elts)
  else
    e <- array_element V (R N) ;;
    b <- p_matches V (TPunc T_Comma) ;;
    if b : bool then ret (inl (elts ++ [e])) else ret (inr (elts ++ [e])).
Definition cElements (g : place) (i o : tokens) (es : list (option eli)) : Prop :=
  forall N f acc s b, fu 3 i N -> W i < f -> next (fun t => tk_value t = TPunc T_RBrack) o -> st b g i s ->
    runs (loopM f (elbody N) acc) s (gives 1 g o (fun l' => exists l2, l' = acc ++ l2
      /\ map (option_map eli_untrack) l2 = map (option_map eli_untrack) es)).
Lemma c_elts_nil g i : cElements g i i [].
Proof.
  intros N f acc s b Hf Hw (t & o & -> & E) S. apply runs_loop; [lia|]. intros f' ->. unfold elbody at 1. apply runs_assoc.
  eapply k_peek; [exact HV|exact S|fit|]. intros s1 S1. dec_t. apply runs_ret_bind. apply runs_ret.
  split; [exists []; rewrite app_nil_r; auto|]. eexists. split; [|exact S1]. lia.
Qed.
Lemma c_elts_hole g i i1 o es : op_ T_Comma i i1 -> cElements g i1 o es -> cElements g i o (None :: es).
Proof.
  intros Hc H N f acc s b Hf Hw Ho S. pose proof (W_eat _ _ _ Hc ltac:(discriminate)) as Hw2. unfold fu in *. op_eat.
  apply runs_loop; [lia|]. intros f' ->. unfold elbody at 1. apply runs_assoc.
  eapply k_peek; [exact HV|exact S|fit|]. intros s1 S1. dec_t. apply runs_assoc. unfold array_element. apply runs_assoc.
  eapply k_peek; [exact HV|exact S1|fit|]. intros s2 S2. dec_t. apply runs_ret_bind. apply runs_assoc.
  eapply k_matches_yes; [exact HV|exact S2|fit|ist|]. intros s3 S3. apply runs_ret_bind.
  eapply runs_conseq; [eapply (H N f' (acc ++ [None])); [unfold fu; lia|lia|exact Ho|exact S3]|].
  intros l' s' ((l2 & -> & Hl2) & HS). split; [|exact HS]. exists (None :: l2).
  rewrite <- app_assoc. split; [reflexivity|]. cbn. rewrite Hl2. reflexivity.
Qed.
Lemma k_element g i i1 e N f acc s b (Q : list (option eli) -> pst -> Prop) : gItem g i i1 e -> fu 3 i N -> W i < f -> st b g i s ->
  (forall e' f' b' s', f = Datatypes.S f' -> 1 <= b' -> eqi e e' -> st b' g i1 s' ->
     runs (bind (p_matches V (TPunc T_Comma)) (fun b : bool =>
       if b then loopM f' (elbody N) (acc ++ [Some e']) else ret (acc ++ [Some e']))) s' Q) ->
  runs (loopM f (elbody N) acc) s Q.
Proof.
  intros [D H] Hf Hw S HK. destruct (G_first _ _ _ _ _ _ _ D) as (t & i' & -> & Ht). cbn beta in Ht.
  apply runs_loop; [lia|]. intros f' ->. unfold elbody at 1. apply runs_assoc.
  pose proof (fits_first (fun v => expr_first v || td_eqb v (TPunc T_Ellipsis)) t Ht eq_refl eq_refl) as Hfit.
  eapply k_peek; [exact HV|exact S|right; exact Hfit|]. intros s1 S1.
  rewrite (is_t_ne t (TPunc T_RBrack) Logic.I) by (intros Ex; rewrite Ex in Ht; discriminate).
  apply runs_assoc. unfold array_element. apply runs_assoc.
  eapply k_peek; [exact HV|exact S1|left; lia|]. intros s2 S2.
  rewrite (is_t_ne t (TPunc T_Comma) Logic.I) by (intros Ex; rewrite Ex in Ht; discriminate).
  apply runs_assoc. eapply k_call; [eapply H; [exact Hf|exact S2]|]. intros e' b3 s3 He Hb3 S3. apply runs_ret_bind.
  apply runs_assoc. specialize (HK e' f' b3 s3 eq_refl Hb3 He S3). unfold runs, bind in *.
  destruct (p_matches V (TPunc T_Comma) s3) as [[[|] s4]|?|?|]; exact HK.
Qed.
Lemma c_elts_last g i o e : gItem g i o e -> cElements g i o [Some e].
Proof.
  intros H N f acc s b Hf Hw (t & o' & -> & E) S. eapply k_element; [exact H|exact Hf|exact Hw|exact S|].
  intros e' f' b' s' -> Hb He S'. eapply k_matches_no; [exact HV|exact S'|left; exact Hb|ist|]. intros s2 S2. apply runs_ret.
  split; [|eexists; split; [|exact S2]; lia]. exists [Some e']. split; [reflexivity|]. cbn. unfold eqi in He. rewrite He. reflexivity.
Qed.
Lemma c_elts_cons g i i1 i2 o e es : gItem g i i1 e -> op_ T_Comma i1 i2 -> cElements g i2 o es ->
  cElements g i o (Some e :: es).
Proof.
  intros H Hc H2 N f acc s b Hf Hw Ho S. pose proof (W_eat _ _ _ Hc ltac:(discriminate)) as Hw2.
  pose proof (G_W _ _ _ _ _ _ _ (proj1 H)) as Hw1. unfold solid in Hw1. cbn [fst_ok] in Hw1. unfold fu in *.
  eapply k_element; [exact H|exact Hf|exact Hw|exact S|]. op_eat.
  intros e' f' b' s' -> Hb He S'. eapply k_matches_yes; [exact HV|exact S'|left; exact Hb|ist|]. intros s2 S2.
  eapply runs_conseq; [eapply (H2 N f' (acc ++ [Some e'])); [unfold fu; lia|lia|exact Ho|exact S2]|].
  intros l' s3 ((l2 & -> & Hl2) & HS). split; [|exact HS]. exists (Some e' :: l2).
  rewrite <- app_assoc. split; [reflexivity|]. cbn. unfold eqi in He. rewrite He, Hl2. reflexivity.
Qed.
End Claims.
