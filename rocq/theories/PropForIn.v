(** The object of a [for-in] loop (C61): no text with a comma behind it is accepted. *)
From Coq Require Import String Ascii List NArith Arith Bool Lia.
From Verif Require Import Base Chars F64 Word Token Reader Lexer Punc Ast Track Cover Stack Node PState Parser Api Wp
  SpecReader SpecLexer SpecStack SpecTree StackProofs CoverProofs LexClient SpecClient SpecGrammar SpecParser SpecPlace SpecEntry
  ReaderProofs LexWp LexTheorems ParserWp ParserOps ParserStmt ParserTop GrammarProps CompBase CompTok CompExpr CompFun CompStmt
  CompTop CompEntry SpecExact ExactProofs PropLayout PropParser PortProofs Refuse PropPorts.
Import ListNotations.
Local Open Scope nat_scope.

(** ** Specification *)

(** What may stand between the parenthesis and the [in] of a loop at [g]: a pattern, a
    declaration, or a variable with an initial value.  [es] are the expressions in it. *)
Inductive loop_head (g : place) (i o : tokens) : list expr -> Prop :=
| lh_patt p : (forall i', eat (TIdent (NAtom A_Let)) i i' -> next (fun t => ~ begins_binding t) i') ->
    G (with_in false g) Expression i o (patt_expr p) -> rests_unlocated p -> loop_head g i o [patt_expr p]
| lh_decl d i1 p : In d [TReserved R_Var; TIdent (NAtom A_Let); TReserved R_Const] ->
    eat d i i1 -> G g Pattern i1 o p -> loop_head g i o []
| lh_init i1 i2 i3 x e : kw R_Var i i1 -> G g (Name_ true) i1 i2 x -> op_ T_Assign i2 i3 ->
    G (with_in false g) Assignment i3 o e -> loop_head g i o [e].

(** Such a loop, up to a comma behind the expression that follows [in]. *)
Definition comma_behind (g : place) (i : tokens) (es : list expr) (t : token) : Prop :=
  exists i1 i2 i3 i4 o e es', kw R_For i i1 /\ op_ T_LParen i1 i2 /\ loop_head g i2 i3 es' /\ kw R_In i3 i4
    /\ G (with_in true g) Assignment i4 (t :: o) e /\ tk_value t = TPunc T_Comma /\ es = e :: es'.

(** In the text, such a loop stands behind directives and items; nested labels differ
    and slashes cannot be misread, as in C72. *)
Definition for_in_comma (V : env) (src : str) (m : mode) (t : token) : Prop :=
  exists ts rest k ds is es, reads V src (ts ++ rest) k /\ calm (ts ++ rest)
    /\ labels_differ (N_body (Body None ds is)) /\ Forall (fun e => labels_differ (N_expr e)) es
    /\ top_level m ds is (ts ++ rest) rest /\ comma_behind (top m) rest es t.

(** ** Proof *)

Section Refuse.
Context (V : env) (src : str) (HV : ucd_ok V).
Context (gl : goal) (tri_ : tri) (md : mode).
Context (Hmode : (md = Sloppy -> tri_ <> Yes /\ gl <> G_Module) /\ (md = Strict -> gl <> G_Module)).
Local Notation st := (st V src gl tri_ md).
Local Notation R := (parse_rec V).

Lemma refuse_more g i t o e h N s b : GX true (with_in true g) Assignment i (t :: o) e -> tk_value t = TPunc T_Comma ->
  fu 3 i N -> st b g i s -> refused (UnexpectedToken t) (more_for_in V (R N) h) s.
Proof.
  intros He Et Hf S. unfold more_for_in. apply step.
  eapply k_allow_in; [exact S|intros s1 S1; eapply r_assign_of; [apply (found V src HV gl tri_ md Hmode _ _ _ _ _ _ He)|exact Hf|exact S1]|].
  intros e' b2 s2 _ Hb2 S2. apply leaf, first_. unfold p_expect. apply step.
  eapply k_read; [exact HV|exact S2|left; exact Hb2|]. intros s3 _ S3. apply leaf. dec_t. reflexivity.
Qed.

(** The head, in the sure reading. *)
Inductive sure_head (g : place) (i o : tokens) : Prop :=
| sh_patt p : (forall i', eat (TIdent (NAtom A_Let)) i i' -> next (fun t => ~ begins_binding t /\ (true = true -> ~ slash t)) i') ->
    GX true (with_in false g) Expression i o (patt_expr p) -> rests_unlocated p -> sure_head g i o
| sh_decl d i1 p : In d [TReserved R_Var; TIdent (NAtom A_Let); TReserved R_Const] ->
    eat d i i1 -> GX true g Pattern i1 o p -> sure_head g i o
| sh_init i1 i2 i3 x e : kw R_Var i i1 -> GX true g (Name_ true) i1 i2 x -> op_ T_Assign i2 i3 ->
    GX true (with_in false g) Assignment i3 o e -> sure_head g i o.

Lemma refuse_expr g i o e N t i' s b x : i = t :: i' ->
  (forall i', eat (TIdent (NAtom A_Let)) i i' -> next (fun t => ~ begins_binding t /\ (true = true -> ~ slash t)) i') ->
  gE V src gl tri_ md (with_in false g) i o e -> 1 <= b -> st b g i s ->
  (forall b' s', st b' g i s' -> refused x (for_expr V (R N)) s') ->
  refused x (forbody V N t) s.
Proof.
  intros -> Hl He Hb S HK. pose proof (st_le _ _ _ _ _ _ _ _ _ S) as Hle.
  destruct (gE_start _ _ _ _ _ _ _ _ _ He) as (t0 & i0 & E0 & _ & Ht). assert (t0 = t) by congruence. subst t0. clear i0 E0.
  unfold forbody. destruct (is_t t (TIdent (NAtom A_Let))) eqn:El.
  - apply is_t_true in El; [|exact Logic.I]. rewrite (is_t_ne t (TReserved R_Var) Logic.I) by congruence. unfold for_let. apply step.
    eapply k_reread; [exact HV|exact S|exact Hb|ist|]. intros s1 Hlx S1. destruct (Hl i') as (t2 & i2 & -> & H1 & H2); [exists t; auto|].
    apply leaf, step. eapply k_peek; [exact HV|exact S1|right; exact (H2 eq_refl)|]. intros s2 S2.
    replace (first_binding t2) with false. 2:{ symmetry. destruct (first_binding t2) eqn:Ef; [|reflexivity]. apply first_binding_iff in Ef. contradiction. }
    cbn [negb]. apply leaf, step. eapply k_unread; [exact S2|lia|exact Hlx|]. intros s3 S3. eapply leaf, HK, S3.
  - repeat match goal with |- context [is_t t ?d] => rewrite (is_t_ne t d Logic.I) by (intros Ex; rewrite Ex in Ht; discriminate Ht) end.
    eapply HK, S.
Qed.

Lemma refuse_head g i t2 i2 i3 i4 t o e N s b : i = t2 :: i2 -> sure_head g i i3 -> kw R_In i3 i4 ->
  GX true (with_in true g) Assignment i4 (t :: o) e -> tk_value t = TPunc T_Comma ->
  fu 3 i N -> 1 <= b -> st b g i s -> refused (UnexpectedToken t) (forbody V N t2) s.
Proof.
  intros E2 Hh Hin He Et Hf Hb S. unfold fu in Hf. pose proof (W_eat _ _ _ Hin ltac:(discriminate)) as Wi.
  destruct Hh as [p Hlet Hp Hru|d i1 p Hd Hv Hp|i1 j2 j3 x e0 Hv Hx Ha He0].
  - assert (Hg : gE V src gl tri_ md (with_in false g) i i3 (patt_expr p)) by (split; [exact Hp|exact (found V src HV gl tri_ md Hmode _ _ _ _ _ _ Hp)]).
    pose proof (gE_W _ _ _ _ _ _ _ _ _ Hg) as Wg.
    eapply refuse_expr; [exact E2|exact Hlet|exact Hg|exact Hb|exact S|]. intros b2 s2 S2. unfold for_expr. apply step.
    eapply k_allow_in; [exact S2|intros s3 S3; eapply (proj2 Hg); [unfold fu; lia|exact S3]|]. intros e' b3 s3 He' Hb3 S3.
    destruct Hin as (t3 & -> & E3). apply leaf, step. eapply k_peek; [exact HV|exact S3|left; exact Hb3|]. intros s4 S4. dec_t.
    apply leaf, step. eapply k_reread; [exact HV|exact S4|lia|ist|]. intros s5 _ S5.
    destruct (cover_patt true _ _ Expression _ _ p e' _ Hp eq_refl Hru He') as (p' & Ep & Hp'). unfold to_patt. rewrite Ep.
    apply leaf, step, runs_ret_bind, leaf. eapply refuse_more; [exact He|exact Et|unfold fu; lia|exact S5].
  - apply (found V src HV gl tri_ md Hmode) in Hp. cbn [claim] in Hp.
    pose proof (pattern_W _ _ _ _ Hp) as Wp.
    assert (Wd : W i = Datatypes.S (W i1)) by (apply (W_eat _ _ _ Hv); destruct Hd as [<-|[<-|[<-|[]]]]; discriminate).
    destruct Hv as (t0 & E0 & Ed). rewrite E2 in E0. injection E0 as <- <-. rewrite E2 in S.
    pose proof (pattern_binding _ _ _ _ Hp) as (tb & -> & Hfb & Hbf). unfold forbody. destruct Hin as (t4 & -> & E4).
    destruct Hd as [<-|[<-|[<-|[]]]]; dec_t.
    + unfold for_var. apply step. eapply k_reread; [exact HV|exact S|lia|ist|]. intros s2 _ S2. apply leaf, step.
      eapply k_pattern; [exact HV|exact Hmode|exact Hp|exact S2|]. intros b3 s3 S3. apply leaf, step.
      eapply k_peek; [exact HV|exact S3|fit|]. intros s4 S4. dec_t. cbn [orb]. apply leaf, step.
      eapply k_reread; [exact HV|exact S4|lia|ist|]. intros s5 _ S5.
      apply leaf. eapply refuse_more; [exact He|exact Et|unfold fu; lia|exact S5].
    + unfold for_let. apply step. eapply k_reread; [exact HV|exact S|lia|ist|]. intros s2 _ S2. apply leaf, step.
      eapply k_peek; [exact HV|exact S2|right; exact Hfb|]. intros s2' S2'. rewrite Hbf. cbn [negb]. apply leaf, step.
      eapply k_pattern; [exact HV|exact Hmode|exact Hp|exact S2'|]. intros b3 s3 S3. apply leaf, step.
      eapply k_peek; [exact HV|exact S3|fit|]. intros s4 S4. dec_t. cbn [orb]. apply leaf, step.
      eapply k_reread; [exact HV|exact S4|lia|ist|]. intros s5 _ S5.
      apply leaf. eapply refuse_more; [exact He|exact Et|unfold fu; lia|exact S5].
    + unfold for_const. apply step. eapply k_reread; [exact HV|exact S|lia|ist|]. intros s2 _ S2. apply leaf, step.
      eapply k_peek; [exact HV|exact S2|right; exact Hfb|]. intros s2' S2'. rewrite Hbf. cbn [negb]. apply leaf, step.
      eapply k_pattern; [exact HV|exact Hmode|exact Hp|exact S2'|]. intros b3 s3 S3. apply leaf, step.
      eapply k_peek; [exact HV|exact S3|fit|]. intros s4 S4. dec_t. cbn [orb]. apply leaf, step.
      eapply k_reread; [exact HV|exact S4|lia|ist|]. intros s5 _ S5.
      apply leaf. eapply refuse_more; [exact He|exact Et|unfold fu; lia|exact S5].
  - apply (found V src HV gl tri_ md Hmode) in Hx. cbn [claim] in Hx. pose proof (G_W _ _ _ _ _ _ _ He0) as W0. unfold solid in W0. cbn [fst_ok] in W0.
    apply (found V src HV gl tri_ md Hmode) in He0. cbn [claim] in He0.
    pose proof (name_W _ _ _ _ _ Hx) as Wx. pose proof (W_eat _ _ _ Ha ltac:(discriminate)) as Wa. pose proof (W_eat _ _ _ Hv ltac:(discriminate)) as Wv.
    destruct Hv as (t0 & E0 & Ed). rewrite E2 in E0. injection E0 as <- <-. rewrite E2 in S. unfold forbody. dec_t. unfold for_var.
    apply step. eapply k_reread; [exact HV|exact S|lia|ist|]. intros s2 _ S2. apply leaf, step.
    eapply k_pattern; [exact HV|exact Hmode|exact (ex_intro _ x (conj eq_refl (Hx : cName true g _ _ x)) : cPattern g _ _ _)|exact S2|]. intros b3 s3 S3.
    destruct Ha as (t3 & -> & E3). apply leaf, step. eapply k_peek; [exact HV|exact S3|fit|]. intros s4 S4. dec_t.
    apply leaf, step. eapply k_reread; [exact HV|exact S4|lia|ist|]. intros s5 _ S5. apply leaf, step.
    eapply k_allow_in; [exact S5|intros s6 S6; eapply r_assign_of; [exact He0|unfold fu; lia|exact S6]|]. intros e' b6 s6 He' Hb6 S6.
    destruct Hin as (t6 & -> & E6). apply leaf, step. eapply k_peek; [exact HV|exact S6|left; exact Hb6|]. intros s7 S7. dec_t. cbn [orb].
    apply leaf, step. eapply k_reread; [exact HV|exact S7|lia|ist|]. intros s8 _ S8.
    apply leaf. eapply refuse_more; [exact He|exact Et|unfold fu; lia|exact S8].
Qed.

(** The loop as an item. *)
Definition comma_sure (g : place) (i : tokens) (t : token) : Prop :=
  exists i1 i2 i3 i4 o e, kw R_For i i1 /\ op_ T_LParen i1 i2 /\ sure_head g i2 i3 /\ kw R_In i3 i4
    /\ GX true (with_in true g) Assignment i4 (t :: o) e /\ tk_value t = TPunc T_Comma.

Lemma head_start g i o : sure_head g i o -> exists t i', i = t :: i' /\ fits false t.
Proof.
  intros [p _ Hp _|d i1 p Hd (t & -> & E) _|i1 i2 i3 x e (t & -> & E) _ _ _].
  - assert (Hg : gE V src gl tri_ md (with_in false g) i o (patt_expr p)) by (split; [exact Hp|exact (found V src HV gl tri_ md Hmode _ _ _ _ _ _ Hp)]).
    destruct (gE_start _ _ _ _ _ _ _ _ _ Hg) as (t & i' & -> & Hft & _). eauto.
  - eexists _, _. split; [reflexivity|]. eapply fits_of; [exact E|destruct Hd as [<-|[<-|[<-|[]]]]; discriminate..].
  - eexists _, _. split; [reflexivity|]. eapply fits_of; [exact E|discriminate..].
Qed.
Lemma refuse_item g i t N s b : comma_sure g i t -> fu 4 i N -> st b g i s ->
  refused (UnexpectedToken t) (r_item (R N) true) s.
Proof.
  intros (i1 & i2 & i3 & i4 & o & e & Hk & Hl & Hh & Hin & He & Et) Hf S.
  pose proof (W_eat _ _ _ Hk ltac:(discriminate)). pose proof (W_eat _ _ _ Hl ltac:(discriminate)). unfold fu in Hf. destruct N as [|N]; [lia|]. rewrite R_item.
  destruct (head_start _ _ _ Hh) as (t2 & i2' & E2 & Hft).
  destruct Hk as (t0 & -> & E0). unfold stmt_list_item. apply step. eapply k_peek; [exact HV|exact S|fit|]. intros s1 S1. dec_t.
  apply leaf, first_. unfold for_statement. apply span_, step.
  eapply k_reread; [exact HV|exact S1|lia|ist|]. intros s2 _ S2. destruct Hl as (t1 & -> & E1). apply leaf, step.
  eapply k_expect; [exact HV|exact S2|fit|ist|]. intros s3 S3. rewrite E2 in S3. apply leaf, step.
  eapply k_peek; [exact HV|exact S3|right; exact Hft|]. intros s4 S4. apply leaf. rewrite <- E2 in S4.
  eapply (refuse_head g i2); [exact E2|exact Hh|exact Hin|exact He|exact Et|unfold fu; lia| |exact S4]. lia.
Qed.

End Refuse.

Lemma head_sure g i o es : loop_head g i o es -> calm i -> Forall (fun e => L (ar g) (N_expr e)) es -> sure_head g i o.
Proof.
  intros [p Hlet Hp Hru|d i1 p Hd Hv Hp|i1 i2 i3 x e Hv Hx Ha He] Hc Hl.
  - apply (sh_patt _ _ _ p); [|apply sure_of; [exact Hp|exact Hc|exact (Forall_inv Hl)]|exact Hru].
    intros i' Hi. eapply (calm_let i i (fun t => ~ begins_binding t)); [exact Hc|exists []; reflexivity| |exact Hi].
    intros i2 H2. destruct (Hlet i2 H2) as (t & r & -> & Ht). exists t, r. split; [reflexivity|]. split; [exact Ht|discriminate].
  - apply (sh_decl _ _ _ d i1 p); [exact Hd|exact Hv|]. apply sure_of; [exact Hp| |exact Logic.I].
    exact (calm_suffix _ _ Hc (suffix_eat _ _ _ Hv)).
  - apply (sh_init _ _ _ i1 i2 i3 x e); [exact Hv| |exact Ha|].
    + apply sure_of; [exact Hx|exact (calm_suffix _ _ Hc (suffix_eat _ _ _ Hv))|exact Logic.I].
    + apply sure_of; [exact He| |exact (Forall_inv Hl)]. eapply calm_suffix; [|exact (suffix_eat _ _ _ Ha)].
      eapply calm_suffix; [|exact (G_suffix _ _ _ _ _ _ Hx)]. exact (calm_suffix _ _ Hc (suffix_eat _ _ _ Hv)).
Qed.
Lemma comma_sure_of g i es t : comma_behind g i es t -> calm i -> Forall (fun e => L (ar g) (N_expr e)) es -> comma_sure g i t.
Proof.
  intros (i1 & i2 & i3 & i4 & o & e & es' & Hk & Hl & Hh & Hin & He & Et & ->) Hc Hs.
  assert (C2 : calm i2) by (eapply calm_suffix; [|exact (suffix_eat _ _ _ Hl)]; exact (calm_suffix _ _ Hc (suffix_eat _ _ _ Hk))).
  pose proof (head_sure _ _ _ _ Hh C2 (Forall_inv_tail Hs)) as Sh.
  exists i1, i2, i3, i4, o, e. split; [exact Hk|]. split; [exact Hl|]. split; [exact Sh|]. split; [exact Hin|]. split; [|exact Et].
  apply sure_of; [exact He| |exact (Forall_inv Hs)]. eapply calm_suffix; [|exact (suffix_eat _ _ _ Hin)].
  destruct Hh as [p _ Hp _|d j1 p _ Hv Hp|j1 j2 j3 x e0 Hv Hx Ha He0].
  - exact (calm_suffix _ _ C2 (G_suffix _ _ _ _ _ _ Hp)).
  - eapply calm_suffix; [|exact (G_suffix _ _ _ _ _ _ Hp)]. exact (calm_suffix _ _ C2 (suffix_eat _ _ _ Hv)).
  - eapply calm_suffix; [|exact (G_suffix _ _ _ _ _ _ He0)]. eapply calm_suffix; [|exact (suffix_eat _ _ _ Ha)].
    eapply calm_suffix; [|exact (G_suffix _ _ _ _ _ _ Hx)]. exact (calm_suffix _ _ C2 (suffix_eat _ _ _ Hv)).
Qed.

(** ** The property *)

(** C61: a [for-in] loop whose object is followed by a comma is refused, and the comma
    is what the error reports, whatever stands before and behind the loop. *)
Theorem C61_for_in_comma_refused : forall V src t, ucd_ok V ->
  (for_in_comma V src Sloppy t ->
     script_of V src = Err (UnexpectedToken t) /\ program_of V src = Err (UnexpectedToken t))
  /\ (for_in_comma V src Strict t -> strict_of V src = Err (UnexpectedToken t))
  /\ (for_in_comma V src Module_ t -> module_of V src = Err (UnexpectedToken t)).
Proof.
  intros V src t HV.
  assert (K : forall m, for_in_comma V src m t ->
    (m = Sloppy -> script_of V src = Err (UnexpectedToken t) /\ program_of V src = Err (UnexpectedToken t))
    /\ (m = Strict -> strict_of V src = Err (UnexpectedToken t)) /\ (m = Module_ -> module_of V src = Err (UnexpectedToken t))).
  { intros m (ts & rest & k & ds & is & es & Hr & Hc & Hl & Hes & Htop & Hb).
    assert (C : comma_sure (top m) rest t).
    { eapply comma_sure_of; [exact Hb|eapply calm_suffix; [exact Hc|exists ts; reflexivity]|].
      eapply Forall_impl; [|exact Hes]. intros e He. constructor. exact He. }
    eapply refuse_entries; [exact HV|exact Hr|exact Hc|exact Hl|exact Htop| |].
    - destruct C as (i1 & i2 & i3 & i4 & o' & e & (t1 & -> & E1) & (t2 & -> & _) & _). exists t1, t2, i2.
      split; [reflexivity|]. rewrite E1. reflexivity.
    - intros gl tr Hm N s b Hf S. exact (refuse_item V src HV gl tr m Hm _ _ _ _ _ _ C Hf S). }
  split; [|split]; intros H; apply K in H as (H1 & H2 & H3); auto.
Qed.
Print Assumptions C61_for_in_comma_refused.

(** [; for (var a in b, c) {}] meets the hypotheses in each mode. *)
Lemma comma_operand sure g i t o e : GX sure g Primary i (t :: o) e -> tk_value t = TPunc T_Comma -> GX sure g Assignment i (t :: o) e.
Proof.
  intros D Ht.
  assert (Hs : forall w, spelled t w -> w = lit ",").
  { intros w [(p & E & Hw & _)|(r & E & Hr)]; [|congruence]. assert (p = T_Comma) as -> by congruence. rewrite <- Hw. reflexivity. }
  assert (Hx : forall P : token -> Prop, P t -> next P (t :: o)) by (intros P HP; exists t, o; split; [reflexivity|exact HP]).
  assert (Hr : ~ regexp t) by (intros (r & K); congruence).
  apply g_assign_none; [apply g_cond_none|].
  - assert (D' : GX sure g (Infix (length levels)) i (t :: o) e).
    { apply g_infix_unary, g_unary_none, g_postfix_none; [apply g_lhs_base, g_base, D| |intros _; apply Hx, Hr].
      apply Hx. rewrite Ht. split; [intros [_ [K|[K|[]]]]; congruence|]. repeat split; discriminate. }
    assert (Hn : forall n, n <= length levels -> GX sure g (Infix (length levels - n)) i (t :: o) e).
    { induction n as [|n IH]; intros Hn; [rewrite Nat.sub_0_r; exact D'|]. apply g_infix_up; [lia|].
      replace (S (length levels - S n)) with (length levels - n) by lia. apply IH. lia. }
    specialize (Hn (length levels) (le_n _)). rewrite Nat.sub_diag in Hn. exact Hn.
  - apply Hx. split; [|congruence]. intros op [K _]. apply Hs in K. destruct op as [[? []]|[? []]]; discriminate K.
  - intros _. apply Hx, Hr.
  - apply Hx. intros [K|(a & K)]; [congruence|]. apply Hs in K. destruct a; discriminate K.
Qed.
Example C61_example : exists t, tk_value t = TPunc T_Comma
  /\ for_in_comma env_ascii (lit "; for (var a in b, c) {}") Sloppy t
  /\ for_in_comma env_ascii (lit "; for (var a in b, c) {}") Strict t
  /\ for_in_comma env_ascii (lit "; for (var a in b, c) {}") Module_ t.
Proof.
  destruct (read_reads env_ascii (lit "; for (var a in b, c) {}") (repeat false 12) _ _ ucd_ok_ascii ltac:(vm_compute; reflexivity)) as (k & Hr).
  match type of Hr with reads _ _ (?t0 :: ?r) _ =>
    assert (K : forall m, for_in_comma env_ascii (lit "; for (var a in b, c) {}") m (nth 6 r t0));
    [intros m;
     assert (B : exists es, comma_behind (top m) r es (nth 6 r t0) /\ Forall (fun e => labels_differ (N_expr e)) es);
     [|destruct B as (es & B & Hes); exists [t0], r, k, [], [I_Stmt (S_Empty (Some (tk_loc t0)))], es]
    |exists (nth 6 r t0); split; [reflexivity|]; split; [apply K|split; apply K]] end.
  - eexists. split.
    + eexists _, _, _, _, _, _, _. split; [eexists; split; reflexivity|]. split; [eexists; split; reflexivity|].
      split; [eapply lh_decl with (d := TReserved R_Var); [left; reflexivity|eexists; split; reflexivity|]|].
      { apply g_pattern, g_name; [reflexivity|]. destruct m; (first [left; reflexivity|right; cbn; intuition discriminate|cbn; intuition discriminate]). }
      split; [eexists; split; reflexivity|]. split; [|split; [|reflexivity]]; [|reflexivity].
      apply comma_operand; [|reflexivity]. apply g_id, g_name; [reflexivity|].
      destruct m; (first [left; reflexivity|right; cbn; intuition discriminate|cbn; intuition discriminate]).
    + constructor; [|constructor].
      match goal with |- labels_differ ?n => assert (Q : L nothing n) end.
      { repeat (apply L_intro; [exact Logic.I|cbn; repeat first [apply Forall_nil|apply Forall_cons]]). }
      destruct Q as [Q]. exact Q.
  - split; [exact Hr|]. split; [eapply no_slash_calm; [exact Hr|cbn; intuition discriminate]|].
    split; [|split; [exact Hes|split; [|exact B]]].
    + assert (Q : L nothing (N_body (Body None [] [I_Stmt (S_Empty None)]))).
      { repeat (apply L_intro; [exact Logic.I|cbn; repeat first [apply Forall_nil|apply Forall_cons]]). }
      eapply labels_untrack; [|destruct Q as [Q]; exact Q]. reflexivity.
    + eexists. split; [apply g_dirs_nil|]. split.
      * intros t t' r s E Kt. injection E as <- _ _. discriminate Kt.
      * eexists. split; [|reflexivity]. apply g_item_stmt, g_empty. eexists. split; reflexivity.
Qed.
