(** Completeness of the parser, part 5: statements and declarations. *)
From Coq Require Import String Ascii List NArith Arith Bool Lia.
From Verif Require Import Base Chars F64 Word Token Reader Lexer Punc Ast Track Cover Stack PState Parser Wp
  SpecReader SpecLexer SpecStack SpecTree StackProofs CoverProofs SpecGrammar LexWp LexTheorems ParserWp ParserOps
  ParserStmt GrammarProps CompBase CompTok CompExpr CompFun.
Import ListNotations.
Local Open Scope nat_scope.

Lemma sep_imp {A} (P Q : tokens -> tokens -> A -> Prop) i o l : (forall i o a, P i o a -> Q i o a) -> sep P i o l -> sep Q i o l.
Proof. intros H. induction 1; [apply sep_one|eapply sep_more; [|eassumption|]]; auto. Qed.
Lemma sep_next {A} (P : tokens -> tokens -> A -> Prop) (Q : token -> Prop) i o l : sep P i o l -> next Q o ->
  (forall t, tk_value t = TPunc T_Comma -> Q t) -> sep (fun i o a => P i o a /\ next Q o) i o l.
Proof.
  intros H Ho HQ. induction H as [i o a H|i i1 i2 o a l H Hc Hs IH]; [apply sep_one; auto|].
  eapply sep_more; [split; [exact H|]|exact Hc|auto]. eapply next_eat; [exact Hc|exact HQ].
Qed.
Lemma next_imp (P Q : token -> Prop) i : (forall t, P t -> Q t) -> next P i -> next Q i.
Proof. intros H (t & i' & -> & Ht). exists t, i'. auto. Qed.

Lemma stmt_set_untrack s l : stmt_untrack (stmt_set_loc s l) = stmt_untrack s.
Proof. destruct s; try reflexivity. destruct b. reflexivity. Qed.
Lemma decl_set_untrack d l : decl_untrack (decl_set_loc d l) = decl_untrack d.
Proof. destruct d; reflexivity. Qed.
Lemma dtor_set_untrack d l : dtor_untrack (dtor_set_loc d l) = dtor_untrack d.
Proof. destruct d; reflexivity. Qed.

Lemma first_binding_iff t : first_binding t = true <-> begins_binding t.
Proof.
  unfold first_binding, begins_binding. destruct (tk_value t) as [r|p| | | |n]; split; intros H; try discriminate H;
    try (destruct H as [H|[H|(n' & H)]]; discriminate H).
  - destruct p; try discriminate H; auto.
  - destruct H as [H|[H|(n' & H)]]; try discriminate H; injection H as ->; reflexivity.
  - eauto.
  - reflexivity.
Qed.

(** ** Labels *)

Definition labelled (k : bool) (acc : list id) (g : place) : place :=
  fold_left (fun g x => in_label (id_name x) k g) acc g.
Fixpoint fresh (k : bool) (acc : list id) (g : place) : Prop :=
  match acc with
  | [] => True
  | x :: acc' => ~ In (id_name x) (map fst (pl_labels g)) /\ fresh k acc' (in_label (id_name x) k g)
  end.
Lemma fresh_app k acc g x : fresh k acc g -> ~ In (id_name x) (map fst (pl_labels (labelled k acc g))) ->
  fresh k (acc ++ [x]) g.
Proof. revert g. induction acc as [|y acc IH]; intros g; cbn; [auto|]. intros [H1 H2] H3. split; [exact H1|apply IH; assumption]. Qed.
Lemma labelled_app k acc g x : labelled k (acc ++ [x]) g = in_label (id_name x) k (labelled k acc g).
Proof. unfold labelled. rewrite fold_left_app. reflexivity. Qed.
Lemma labelled_labels k acc g :
  pl_labels (labelled k acc g) = rev (map (fun x => (id_name x, k)) acc) ++ pl_labels g.
Proof.
  revert g. induction acc as [|x acc IH]; intros g; [reflexivity|]. cbn [labelled fold_left].
  change (fold_left _ acc (in_label (id_name x) k g)) with (labelled k acc (in_label (id_name x) k g)).
  rewrite IH. cbn [in_label pl_labels map rev]. rewrite <- app_assoc. reflexivity.
Qed.
Lemma labelled_rest k acc g : let g' := labelled k acc g in
  pl_mode g' = pl_mode g /\ pl_fun g' = pl_fun g /\ pl_loop g' = pl_loop g /\ pl_switch g' = pl_switch g /\ pl_in g' = pl_in g.
Proof. revert g. induction acc as [|x acc IH]; intros g; [cbn; auto 6|]. exact (IH (in_label (id_name x) k g)). Qed.
Definition ltype (k : bool) : label_type := if k then LT_Iteration else LT_Statement.
Lemma remove_fresh n ls : ~ In n (map fst ls) -> labels_remove (map lt ls) n = map lt ls.
Proof.
  unfold labels_remove. induction ls as [|[m k] ls IH]; intros H; [reflexivity|]. cbn in *.
  destruct (name_eqb m n) eqn:E; [apply name_eqb_iff in E; exfalso; tauto|]. cbn. rewrite IH by tauto. reflexivity.
Qed.
Lemma insert_fresh k acc g : fresh k acc g ->
  insert_labels acc (ltype k) (map lt (pl_labels g)) = map lt (pl_labels (labelled k acc g)).
Proof.
  revert g. induction acc as [|x acc IH]; intros g; [reflexivity|]. intros [H1 H2]. cbn [insert_labels fold_left labelled].
  unfold labels_insert. rewrite remove_fresh by exact H1. exact (IH _ H2).
Qed.
Lemma fresh_weaken k acc g g' : (forall n, In n (map fst (pl_labels g')) -> In n (map fst (pl_labels g))) ->
  fresh k acc g -> fresh k acc g'.
Proof.
  revert g g'. induction acc as [|x acc IH]; intros g g' H; [auto|]. intros [H1 H2]. split; [intros Hx; apply H1, H, Hx|].
  eapply IH; [|exact H2]. cbn. intros n [Hn|Hn]; auto.
Qed.
Lemma fresh_not_in k acc g y : fresh k acc g -> In y acc -> ~ In (id_name y) (map fst (pl_labels g)).
Proof.
  revert g. induction acc as [|x acc IH]; intros g; [contradiction|]. intros [H1 H2] [->|Hy]; [exact H1|].
  specialize (IH _ H2 Hy). cbn in IH. tauto.
Qed.
Lemma remove_app n a b : labels_remove (a ++ b) n = labels_remove a n ++ labels_remove b n.
Proof. unfold labels_remove. apply filter_app. Qed.
Lemma remove_fresh_all k acc g : fresh k acc g ->
  remove_labels acc (map lt (pl_labels (labelled k acc g))) = map lt (pl_labels g).
Proof.
  revert g. induction acc as [|x acc IH]; intros g; [reflexivity|]. intros [H1 H2]. cbn [remove_labels fold_left].
  assert (Hw : fresh k acc g) by (eapply fresh_weaken; [|exact H2]; cbn; auto).
  rewrite <- (IH g Hw). unfold remove_labels. f_equal. change (labelled k (x :: acc) g) with (labelled k acc (in_label (id_name x) k g)).
  rewrite !labelled_labels, !map_app, remove_app. cbn [in_label pl_labels map]. f_equal.
  - apply remove_fresh. rewrite map_rev, map_map. cbn [fst]. intros Hi. apply in_rev in Hi. apply in_map_iff in Hi as (y & Ey & Hy).
    apply (fresh_not_in _ _ _ _ H2 Hy). rewrite Ey. left. reflexivity.
  - unfold labels_remove at 1. cbn [filter lt fst]. assert (E : name_eqb (id_name x) (id_name x) = true) by (apply name_eqb_iff; reflexivity).
    rewrite E. cbn [negb]. apply remove_fresh, H1.
Qed.
Lemma labels_get_in ls n k : label_in ls n k -> labels_get (map lt ls) n = Some (ltype k).
Proof.
  intros (inner & outer & -> & H). induction inner as [|[m j] inner IH]; cbn.
  - assert (E : name_eqb n n = true) by (apply name_eqb_iff; reflexivity). rewrite E. reflexivity.
  - cbn in H. destruct (name_eqb m n) eqn:E; [apply name_eqb_iff in E; tauto|]. apply IH. tauto.
Qed.

Section Claims.
Context (V : env) (src : str).
Context (HV : ucd_ok V).
Context (gl : goal) (tr : tri) (md : mode).
Context (Hmode : (md = Sloppy -> tr <> Yes /\ gl <> G_Module) /\ (md = Strict -> gl <> G_Module)).
Notation st := (CompBase.st V src gl tr md).
Notation gives := (CompBase.gives V src gl tr md).
Notation lexed := (lexed V src).
Notation R := (R V).
Notation cExpr := (cExpr V src gl tr md).
Notation gAssign := (gAssign V src gl tr md).
Notation cItems := (cItems V src gl tr md).
Notation cItem := (cItem V src gl tr md).
Notation cFunDecl := (cFunDecl V src gl tr md).

Definition eqs (x x' : stmt) : Prop := stmt_untrack x' = stmt_untrack x.
Definition cS (g : place) (i o : tokens) (x : stmt) : Prop :=
  forall d N s b, fu 3 i N -> follow o -> st b g i s ->
    runs (stmt_list_item V (R N) d) s (gives 0 g o (fun a => exists x', a = I_Stmt x' /\ eqs x x')).
Lemma r_statement g i o x N s b : cS g i o x -> fu 4 i N -> follow o -> st b g i s ->
  runs (statement (R N)) s (gives 0 g o (eqs x)).
Proof.
  intros H Hf Ho S. unfold fu in Hf. unfold statement. destruct N as [|N]; [lia|]. rewrite R_item.
  eapply k_call; [eapply H; [unfold fu; lia|exact Ho|exact S]|]. intros a b1 s1 (x' & -> & Hx) _ S1. apply runs_ret.
  split; [exact Hx|]. exists b1. split; [lia|exact S1].
Qed.
Lemma r_stmt (m : P stmt) g o x s : runs m s (gives 0 g o (eqs x)) ->
  runs (bind m (fun x => ret (I_Stmt x))) s (gives 0 g o (fun a => exists x', a = I_Stmt x' /\ eqs x x')).
Proof.
  intros H. eapply k_call; [exact H|]. intros x' b' s' Hx _ S'. apply runs_ret. split; [eauto|]. exists b'. split; [lia|exact S'].
Qed.
Lemma follow_fits o : follow o -> next (fits false) o.
Proof. apply next_imp. intros t (H & _). exact H. Qed.
Lemma ends_follow lax i o sm : ends lax i o sm -> follow o -> follow i.
Proof.
  intros [t o' E|t o' _ _]; [|auto]. intros _. exists t, o'. split; [reflexivity|]. unfold slash. rewrite E. cbn.
  split; [|split; discriminate]. intros [H|[H|[]]]; discriminate H.
Qed.
Lemma r_end (cons : semi -> stmt) nl lax start i o sm g b s x : (nl = NL_Optional <-> lax = true) -> ends lax i o sm ->
  1 <= b \/ follow o -> st b g i s -> eqs x (cons sm) ->
  runs (end_with_auto_semi V stmt_set_loc start nl cons) s (gives 0 g o (eqs x)).
Proof.
  intros Hn He Ho S Hx. apply runs_eta. eapply k_ends; [exact HV|exact Hn|exact He|exact S| |].
  { destruct Ho as [Ho|Ho]; [left; exact Ho|right; eapply follow_fits, ends_follow; eassumption]. }
  intros l b' s' S'. apply runs_ret. split; [unfold eqs; rewrite stmt_set_untrack; exact Hx|]. exists b'. split; [lia|exact S'].
Qed.
Lemma req : NL_Required = NL_Optional <-> false = true.
Proof. split; discriminate. Qed.
Lemma r_sspan (m : P stmt) g o x s : runs m s (gives 0 g o (eqs x)) -> runs (p_span stmt_set_loc m) s (gives 0 g o (eqs x)).
Proof. intros H. eapply r_span; [exact H|]. intros a l Ha. unfold eqs. rewrite stmt_set_untrack. exact Ha. Qed.

(** ** Blocks *)

Definition cBlock (g : place) (i o : tokens) (c : block) : Prop :=
  forall N s b, fu 3 i N -> st b g i s ->
    runs (block_ V (R N)) s (gives 0 g o (fun c' => block_untrack c' = block_untrack c)).
Lemma r_items g i o l N s b : cItems g i o l -> fu 4 i N -> st b g i s ->
  runs (statement_list V (R N)) s (gives 1 g o (fun l' => map item_untrack l' = map item_untrack l)).
Proof.
  intros H Hf S. unfold fu in Hf. eapply runs_conseq; [eapply (H N (r_fuel (R N)) []); [exact Hf|rewrite R_fuel; lia|exact S]|].
  intros l' s' ((l2 & -> & Hl) & HS). split; [exact Hl|exact HS].
Qed.
Lemma c_block_of g i i1 i2 o l is : op_ T_LBrace i i1 -> cItems g i1 i2 is -> op_ T_RBrace i2 o -> cBlock g i o (Block l is).
Proof.
  intros H1 H H2 N s b Hf S. pose proof (W_eat _ _ _ H1 ltac:(discriminate)) as Hw. unfold fu in Hf. op_eat. unfold block_.
  eapply r_span with (Q' := fun c' => block_untrack c' = block_untrack (Block l is)).
  - eapply k_expect; [exact HV|exact S|fit|ist|]. intros s1 S1.
    eapply k_call; [eapply r_items; [exact H|unfold fu; lia|exact S1]|]. intros l' b2 s2 Hl Hb S2.
    eapply k_expect; [exact HV|exact S2|left; exact Hb|ist|]. intros s3 S3. apply runs_ret.
    split; [cbn; rewrite Hl; reflexivity|]. eexists. split; [|exact S3]. lia.
  - intros [l1 is1] l' H'. exact H'.
Qed.
Ltac start S := unfold stmt_list_item; eapply k_peek; [exact HV|exact S|fit|];
  let s1 := fresh "s" in let S1 := fresh "S" in intros s1 S1; dec_t.
Lemma c_block g i o c : GX true g BlockOf i o c -> cBlock g i o c -> cS g i o (S_Block c).
Proof.
  intros D H d N s b Hf Ho S. destruct (G_first _ _ _ _ _ _ _ D) as (t & i' & -> & Ht).
  apply (is_t_true t (TPunc T_LBrace) Logic.I) in Ht. start S.
  eapply k_call; [eapply H; [exact Hf|exact S0]|]. intros c' b2 s2 Hc _ S2. apply runs_ret.
  split; [|exists b2; split; [lia|exact S2]]. eexists. split; [reflexivity|]. unfold eqs. cbn. rewrite Hc. reflexivity.
Qed.
Lemma c_empty g i o l : op_ T_Semi i o -> cS g i o (S_Empty l).
Proof.
  intros H d N s b Hf Ho S. op_eat. start S. apply r_stmt. unfold empty_statement. apply r_sspan.
  eapply k_expect; [exact HV|exact S0|fit|ist|]. intros s1 S1. apply runs_ret. split; [reflexivity|]. eexists. split; [|exact S1]. lia.
Qed.

(** ** Declarations *)

Definition eqd (d d' : dtor) : Prop := dtor_untrack d' = dtor_untrack d.
Definition cDtor (g : place) (i o : tokens) (d : dtor) : Prop :=
  (exists l x, d = Dt_Simple l x None /\ cName true g i o x /\ not_next (TPunc T_Assign) o)
  \/ (exists l x e i1 i2, d = Dt_Simple l x (Some e) /\ cName true g i i1 x /\ op_ T_Assign i1 i2 /\ gAssign g i2 o e).
Definition cCdtor (g : place) (i o : tokens) (d : const_dtor) : Prop :=
  exists l p e i1 i2, d = CDt l p e /\ cPattern g i i1 p /\ op_ T_Assign i1 i2 /\ gAssign g i2 o e.
Lemma dtor_W g i o d : cDtor g i o d -> W o < W i.
Proof.
  intros [(l & x & _ & H & _)|(l & x & e & i1 & i2 & _ & H & H2 & H3)]; pose proof (name_W _ _ _ _ _ H); [lia|].
  pose proof (W_eat _ _ _ H2 ltac:(discriminate)). pose proof (gAssign_W _ _ _ _ _ _ _ _ _ H3). lia.
Qed.
Lemma pattern_W g i o p : cPattern g i o p -> W i = Datatypes.S (W o).
Proof. intros (x & _ & H). exact (name_W _ _ _ _ _ H). Qed.
Lemma cdtor_W g i o d : cCdtor g i o d -> W o < W i.
Proof.
  intros (l & x & e & i1 & i2 & _ & H & H2 & H3); pose proof (pattern_W _ _ _ _ H).
  pose proof (W_eat _ _ _ H2 ltac:(discriminate)). pose proof (gAssign_W _ _ _ _ _ _ _ _ _ H3). lia.
Qed.
Lemma r_declarator g N i o d s b : cDtor g i o d /\ next (fits false) o -> fu 3 i N -> st b g i s ->
  runs (declarator V (R N)) s (gives 1 g o (eqd d)).
Proof.
  intros [H Ho] Hf S. unfold declarator. eapply r_span with (Q' := eqd d).
  2:{ intros a l Ha. unfold eqd. rewrite dtor_set_untrack. exact Ha. }
  destruct H as [(l & x & -> & Hx & Hn)|(l & x & e & i1 & i2 & -> & Hx & Ha & [_ He])].
  - pose proof Hx as (t & n & -> & E & _). eapply k_peek; [exact HV|exact S|fit|]. intros s1 S1. unfold as_ident. rewrite E.
    eapply k_id; [exact HV|exact Hmode|exact Hx|exact S1|]. intros b2 s2 S2.
    destruct Hn as (t2 & o2 & -> & Hn). destruct Ho as (t2' & o2' & Eo & Ho). assert (t2' = t2) by congruence. subst t2'.
    eapply k_matches_no; [exact HV|exact S2|right; exact Ho|apply is_t_ne; [exact Logic.I|exact Hn]|]. intros s3 S3.
    apply runs_ret_bind. apply runs_ret. split; [reflexivity|]. eexists. split; [|exact S3]. lia.
  - pose proof (name_W _ _ _ _ _ Hx) as Hw. pose proof (W_eat _ _ _ Ha ltac:(discriminate)) as Hw2. unfold fu in Hf.
    pose proof Hx as (t & n & -> & E & _). eapply k_peek; [exact HV|exact S|fit|]. intros s1 S1. unfold as_ident. rewrite E.
    eapply k_id; [exact HV|exact Hmode|exact Hx|exact S1|]. intros b2 s2 S2. op_eat.
    eapply k_matches_yes; [exact HV|exact S2|fit|ist|]. intros s3 S3. apply runs_assoc.
    eapply k_call; [eapply r_assign_of; [exact He|unfold fu; lia|exact S3]|]. intros e' b4 s4 He' Hb S4.
    apply runs_ret_bind. apply runs_ret. split; [|exists b4; split; [lia|exact S4]].
    unfold eqd, eqx in *. cbn. rewrite He'. reflexivity.
Qed.
Definition eqc (d d' : const_dtor) : Prop := const_dtor_untrack d' = const_dtor_untrack d.
Lemma r_const_declarator g N i o d s b : cCdtor g i o d -> fu 3 i N -> st b g i s ->
  runs (const_declarator V (R N)) s (gives 1 g o (eqc d)).
Proof.
  intros (l & p & e & i1 & i2 & -> & Hp & Ha & [_ He]) Hf S. pose proof (pattern_W _ _ _ _ Hp) as Hw.
  pose proof (W_eat _ _ _ Ha ltac:(discriminate)) as Hw2. unfold fu in Hf. unfold const_declarator.
  eapply k_pattern; [exact HV|exact Hmode|exact Hp|exact S|]. intros b2 s2 S2. op_eat.
  eapply k_expect; [exact HV|exact S2|fit|ist|]. intros s3 S3.
  eapply k_call; [eapply r_assign_of; [exact He|unfold fu; lia|exact S3]|]. intros e' b4 s4 He' Hb S4.
  apply runs_ret. split; [|exists b4; split; [lia|exact S4]]. unfold eqc, eqx in *. cbn. rewrite He'. reflexivity.
Qed.
Lemma follow_comma o : follow o -> not_next (TPunc T_Comma) o.
Proof. apply next_imp. intros t (_ & _ & H). exact H. Qed.
Lemma r_declarators g N i o ds s b : sep (cDtor g) i o ds -> next (fits false) o -> not_next (TPunc T_Comma) o ->
  fu 3 i N -> st b g i s ->
  runs (comma_separated V (R N) (declarator V (R N))) s (gives 1 g o (fun ds' => map dtor_untrack ds' = map dtor_untrack ds)).
Proof.
  intros H Hn Hc Hf S. eapply runs_conseq.
  - eapply (r_comma_separated V src HV gl tr md N g (fun i o d => cDtor g i o d /\ next (fits false) o) eqd); [| | |exact Hf|exact Hc|exact S].
    + intros. eapply r_declarator; eassumption.
    + intros i' o' a [Ha _]. eapply dtor_W, Ha.
    + apply sep_next; [exact H|exact Hn|]. intros t E. eapply fits_of; [exact E|discriminate..].
  - intros l' s' (Hl & HS). split; [|exact HS]. exact (Forall2_map_eq dtor_untrack _ _ Hl).
Qed.
Lemma r_const_declarators g N i o ds s b : sep (cCdtor g) i o ds -> not_next (TPunc T_Comma) o -> fu 3 i N -> st b g i s ->
  runs (comma_separated V (R N) (const_declarator V (R N))) s
    (gives 1 g o (fun ds' => map const_dtor_untrack ds' = map const_dtor_untrack ds)).
Proof.
  intros H Hc Hf S. eapply runs_conseq.
  - eapply (r_comma_separated V src HV gl tr md N g (cCdtor g) eqc); [| |exact H|exact Hf|exact Hc|exact S].
    + intros. eapply r_const_declarator; eassumption.
    + apply cdtor_W.
  - intros l' s' (Hl & HS). split; [|exact HS]. exact (Forall2_map_eq const_dtor_untrack _ _ Hl).
Qed.
Lemma c_var g i i1 i2 o l ds sm : kw R_Var i i1 -> sep (cDtor g) i1 i2 ds -> ends false i2 o sm -> cS g i o (S_Var l ds sm).
Proof.
  intros Hk H He d N s b Hf Ho S. pose proof (W_eat _ _ _ Hk ltac:(discriminate)) as Hw. unfold fu in Hf.
  pose proof (ends_follow _ _ _ _ He Ho) as Hi. op_eat. start S. apply r_stmt. unfold var_statement. apply runs_posn. intros p.
  eapply k_reread; [exact HV|exact S0|lia|ist|]. intros s1 _ S1.
  eapply k_call; [eapply r_declarators; [exact H|apply follow_fits, Hi|apply follow_comma, Hi|unfold fu; lia|exact S1]|].
  intros ds' b2 s2 Hd Hb S2. eapply r_end; [exact req|exact He|left; exact Hb|exact S2|]. unfold eqs. cbn. rewrite Hd. reflexivity.
Qed.

Definition cDecl (g : place) (i o : tokens) (x : decl) : Prop :=
  forall N s b, fu 3 i N -> follow o -> st b g i s ->
    runs (stmt_list_item V (R N) true) s (gives 0 g o (fun a => exists x', a = I_Decl x' /\ decl_untrack x' = decl_untrack x)).
Lemma r_decl (m : P decl) g o x s : runs m s (gives 0 g o (fun x' => decl_untrack x' = decl_untrack x)) ->
  runs (bind m (fun x => ret (I_Decl x))) s (gives 0 g o (fun a => exists x', a = I_Decl x' /\ decl_untrack x' = decl_untrack x)).
Proof.
  intros H. eapply k_call; [exact H|]. intros x' b' s' Hx _ S'. apply runs_ret. split; [eauto|]. exists b'. split; [lia|exact S'].
Qed.
Lemma r_dend (cons : semi -> decl) start i o sm g b s x : ends false i o sm ->
  1 <= b -> st b g i s -> decl_untrack (cons sm) = decl_untrack x ->
  runs (end_with_auto_semi V decl_set_loc start NL_Required cons) s (gives 0 g o (fun x' => decl_untrack x' = decl_untrack x)).
Proof.
  intros He Ho S Hx. apply runs_eta. eapply k_ends; [exact HV|exact req|exact He|exact S|left; exact Ho|].
  intros l b' s' S'. apply runs_ret. split; [rewrite decl_set_untrack; exact Hx|]. exists b'. split; [lia|exact S'].
Qed.
Lemma c_const g i i1 i2 o l ds sm : kw R_Const i i1 -> sep (cCdtor g) i1 i2 ds -> ends false i2 o sm ->
  cDecl g i o (D_Const l ds sm).
Proof.
  intros Hk H He N s b Hf Ho S. pose proof (W_eat _ _ _ Hk ltac:(discriminate)) as Hw. unfold fu in Hf.
  pose proof (ends_follow _ _ _ _ He Ho) as Hi. op_eat. start S. apply r_decl. unfold const_declaration. apply runs_posn. intros p.
  eapply k_reread; [exact HV|exact S0|lia|ist|]. intros s1 _ S1.
  eapply k_call; [eapply r_const_declarators; [exact H|apply follow_comma, Hi|unfold fu; lia|exact S1]|].
  intros ds' b2 s2 Hd Hb S2. eapply r_dend; [exact He|exact Hb|exact S2|]. cbn. rewrite Hd. reflexivity.
Qed.
Lemma binding_fits op t : begins_binding t -> fits op t /\ is_t t (TPunc T_Colon) = false /\ first_binding t = true.
Proof.
  intros H. split; [|split; [|apply first_binding_iff, H]].
  - destruct H as [E|[E|(n & E)]]; (eapply fits_of; [exact E|discriminate..]).
  - apply is_t_ne; [exact Logic.I|]. destruct H as [E|[E|(n & E)]]; congruence.
Qed.
Lemma c_let g i i1 i2 o l ds sm : eat (TIdent (NAtom A_Let)) i i1 -> next begins_binding i1 -> sep (cDtor g) i1 i2 ds ->
  ends false i2 o sm -> cDecl g i o (D_Let l ds sm).
Proof.
  intros Hk (t2 & i1' & Ei & Hb) H He N s b Hf Ho S. pose proof (W_eat _ _ _ Hk ltac:(discriminate)) as Hw. unfold fu in Hf.
  pose proof (ends_follow _ _ _ _ He Ho) as Hi. pose proof (st_le _ _ _ _ _ _ _ _ _ S). op_eat. start S.
  unfold as_ident. rewrite E. unfold ident_item.
  eapply k_reread_token; [exact HV|exact S0|lia|]. intros s1 _ S1. destruct (binding_fits true _ Hb) as (Hfit & Hc & Hfb). rewrite Ei in S1.
  eapply k_peek_op; [exact HV|exact S1|right; exact Hfit|]. intros s2 S2. rewrite Hc, Hfb. dec_t. rewrite <- Ei in S2.
  apply r_decl. unfold let_declaration.
  eapply k_call; [eapply r_declarators; [exact H|apply follow_fits, Hi|apply follow_comma, Hi|unfold fu; lia|exact S2]|].
  intros ds' b3 s3 Hd Hb3 S3. eapply r_dend; [exact He|exact Hb3|exact S3|]. cbn. rewrite Hd. reflexivity.
Qed.
Lemma c_fun_decl g i o f : GX true g FunctionDecl i o f -> cFunDecl g i o f -> cDecl g i o (D_Fun f).
Proof.
  intros D H N s b Hf Ho S. destruct (G_first _ _ _ _ _ _ _ D) as (t & i' & -> & Ht).
  apply (is_t_true t (TReserved R_Function) Logic.I) in Ht. start S. apply r_decl. unfold function_declaration. unfold fu in Hf.
  eapply r_span with (Q' := fun x' => decl_untrack x' = decl_untrack (D_Fun f)).
  - eapply k_call; [eapply H; [unfold fu; lia| |exact S0]; lia|]. intros f' b2 s2 Hf' _ S2. apply runs_ret.
    split; [cbn; rewrite Hf'; reflexivity|]. exists b2. split; [lia|exact S2].
  - intros a l Ha. rewrite decl_set_untrack. exact Ha.
Qed.

(** ** Expression statements *)

Lemma c_expr_stmt g i i1 o l e sm :
  next (fun t => tk_value t <> TPunc T_LBrace /\ tk_value t <> TReserved R_Function) i ->
  (forall i', eat (TIdent (NAtom A_Let)) i i' -> next (fun t => ~ begins_binding t) i') ->
  GX true (with_in true g) Expression i i1 e -> cExpr (with_in true g) i i1 e -> ends false i1 o sm ->
  cS g i o (S_Expr l e sm).
Proof.
  intros (t & i' & Ei & H1 & H2) Hl D H He d N s b Hf Ho S.
  assert (Hfin : forall b' s', st b' g i s' ->
    runs (bind (expression_statement V (R N)) (fun x => ret (I_Stmt x))) s' (gives 0 g o (fun a => exists x', a = I_Stmt x' /\ eqs (S_Expr l e sm) x'))).
  { intros b' s' S'. apply r_stmt. unfold expression_statement. apply runs_posn. intros p.
    eapply k_allow_in; [exact S'|intros s2 S2; eapply H; [exact Hf|exact S2]|]. intros e' b3 s3 He' Hb S3.
    eapply r_end; [exact req|exact He|left; exact Hb|exact S3|]. unfold eqs, eqx in *. cbn. rewrite He'. reflexivity. }
  assert (Hh : head_ok i (S_Expr l e sm)).
  { eapply head_expr; [exact D|exact He|]. revert Ho. apply next_imp. intros t0 (_ & Hc & _). exact Hc. }
  destruct (G_first _ _ _ _ _ _ _ D) as (t0 & i0 & Ei0 & Ht). cbn beta in Ht. assert (t0 = t) by congruence. subst t0. clear i0 Ei0.
  subst i. pose proof (st_le _ _ _ _ _ _ _ _ _ S) as Hle.
  unfold stmt_list_item. eapply k_peek; [exact HV|exact S|right; exact (fits_first expr_first t Ht eq_refl eq_refl)|]. intros s1 S1.
  rewrite (is_t_ne t (TReserved R_Function) Logic.I H2), (is_t_ne t (TPunc T_LBrace) Logic.I H1).
  repeat match goal with |- context [is_t t ?d] => rewrite (is_t_ne t d Logic.I) by (intros Ex; rewrite Ex in Ht; discriminate Ht) end.
  destruct (as_ident t) as [n|] eqn:En; [|eapply Hfin, S1].
  assert (Et : tk_value t = TIdent n) by (unfold as_ident in En; destruct (tk_value t); try discriminate En; congruence).
  unfold ident_item. eapply k_reread_token; [exact HV|exact S1|lia|]. intros s2 Hlx S2.
  destruct Hh as (t0 & i0 & Ei0 & _ & Hn). assert (t0 = t /\ i0 = i') as [-> ->] by (split; congruence).
  destruct (Hn n Et) as (t2 & i2 & -> & Hr & Hc).
  eapply k_peek_op; [exact HV|exact S2|right; exact Hr|]. intros s3 S3. rewrite (is_t_ne t2 (TPunc T_Colon) Logic.I Hc).
  replace (first_binding t2 && is_t t (TIdent (NAtom A_Let))) with false.
  2:{ symmetry. destruct (is_t t (TIdent (NAtom A_Let))) eqn:El; [|apply andb_false_r].
      apply is_t_true in El; [|exact Logic.I]. destruct (Hl (t2 :: i2)) as (t3 & i3 & E3 & Hb); [exists t; auto|].
      assert (t3 = t2) by congruence. subst t3. destruct (first_binding t2) eqn:Ef; [|reflexivity].
      apply first_binding_iff in Ef. contradiction. }
  eapply k_unread; [exact S3|lia|exact Hlx|]. intros s4 S4. eapply Hfin, S4.
Qed.

(** ** Statements made of other statements *)

Definition gE (g : place) (i o : tokens) (e : expr) : Prop := GX true g Expression i o e /\ cExpr g i o e.
Definition gS (g : place) (i o : tokens) (x : stmt) : Prop := GX true g Statement i o x /\ cS g i o x.
Lemma gE_W g i o e : gE g i o e -> W o < W i.
Proof. intros [D _]. exact (G_W _ _ _ _ _ _ _ D). Qed.
Lemma gS_W g i o x : gS g i o x -> W o < W i.
Proof. intros [D _]. exact (G_W _ _ _ _ _ _ _ D). Qed.
Lemma eat_follow d i o : eat d i o -> d <> TPunc T_Slash -> d <> TPunc T_SlashAssign -> d <> TPunc T_Colon -> d <> TPunc T_Comma -> follow i.
Proof.
  intros (t & -> & E) H1 H2 H3 H4. exists t, o. split; [reflexivity|]. unfold slash. rewrite E. split; [|split; congruence].
  intros [H|[H|[]]]; congruence.
Qed.
Ltac we := repeat match goal with
  | H : kw _ ?i ?o |- _ => lazymatch goal with H' : W i = Datatypes.S (W o) |- _ => fail | _ => pose proof (W_eat _ _ _ H ltac:(discriminate)) end
  | H : op_ _ ?i ?o |- _ => lazymatch goal with H' : W i = Datatypes.S (W o) |- _ => fail | _ => pose proof (W_eat _ _ _ H ltac:(discriminate)) end
  | H : gE _ ?i ?o _ |- _ => lazymatch goal with H' : W o < W i |- _ => fail | _ => pose proof (gE_W _ _ _ _ H) end
  | H : gS _ ?i ?o _ |- _ => lazymatch goal with H' : W o < W i |- _ => fail | _ => pose proof (gS_W _ _ _ _ H) end
  | H : gAssign _ ?i ?o _ |- _ => lazymatch goal with H' : W o < W i |- _ => fail | _ => pose proof (gAssign_W _ _ _ _ _ _ _ _ _ H) end
  end; unfold fu in *.

Lemma r_if_start g i i1 i2 i3 i4 e x o r N s b d : kw R_If i i1 -> op_ T_LParen i1 i2 -> gE (with_in true g) i2 i3 e ->
  op_ T_RParen i3 i4 -> gS g i4 o x -> follow o -> fu 3 i N -> st b g i s ->
  (forall e' x' b' s', eqx e e' -> eqs x x' -> st b' g o s' ->
     runs (bind (p_peek V) (fun t => bind (if is_t t (TReserved R_Else) then bind (p_reread (TReserved R_Else)) (fun _ =>
             bind (statement (R N)) (fun s => ret (Some s))) else ret None)
           (fun alt => ret (S_If None e' x' alt)))) s' (gives 0 g (fst r) (eqs (snd r)))) ->
  runs (stmt_list_item V (R N) d) s (gives 0 g (fst r) (fun a => exists x', a = I_Stmt x' /\ eqs (snd r) x')).
Proof.
  intros Hk Hl He Hr Hx Ho Hf S HK. we. destruct Hk as (t & -> & E). start S. apply r_stmt. unfold if_statement. apply r_sspan.
  eapply k_expect; [exact HV|exact S0|fit|ist|]. intros s1 S1.
  eapply k_call; [eapply r_paren; [exact HV|exact Hl|apply He|exact Hr|unfold fu; lia|exact S1]|]. intros e' b2 s2 He' _ S2.
  eapply k_call; [eapply r_statement; [apply Hx|unfold fu; lia|exact Ho|exact S2]|]. intros x' b3 s3 Hx' _ S3.
  eapply HK; eassumption.
Qed.
Lemma c_if g i i1 i2 i3 i4 o l e x : kw R_If i i1 -> op_ T_LParen i1 i2 -> gE (with_in true g) i2 i3 e ->
  op_ T_RParen i3 i4 -> gS g i4 o x -> not_next (TReserved R_Else) o -> cS g i o (S_If l e x None).
Proof.
  intros Hk Hl He Hr Hx Hn d N s b Hf Ho S. eapply (r_if_start g i i1 i2 i3 i4 e x o (o, S_If l e x None)); try eassumption.
  intros e' x' b' s' He' Hx' S'. destruct Hn as (t & o' & -> & Hn). destruct (follow_fits _ Ho) as (t' & o2 & E & Hft).
  assert (t' = t) by congruence. subst t'. eapply k_peek; [exact HV|exact S'|right; exact Hft|]. intros s2 S2.
  rewrite (is_t_ne t (TReserved R_Else) Logic.I Hn). apply runs_ret_bind. apply runs_ret. cbn [fst snd].
  split; [|eexists; split; [|exact S2]; lia]. unfold eqs, eqx in *. cbn. rewrite He', Hx'. reflexivity.
Qed.
Lemma c_if_else g i i1 i2 i3 i4 i5 i6 o l e x y : kw R_If i i1 -> op_ T_LParen i1 i2 -> gE (with_in true g) i2 i3 e ->
  op_ T_RParen i3 i4 -> gS g i4 i5 x -> kw R_Else i5 i6 -> cS g i6 o y -> cS g i o (S_If l e x (Some y)).
Proof.
  intros Hk Hl He Hr Hx Hn Hy d N s b Hf Ho S. eapply (r_if_start g i i1 i2 i3 i4 e x i5 (o, S_If l e x (Some y))); try eassumption.
  { eapply eat_follow; [exact Hn|discriminate..]. }
  intros e' x' b' s' He' Hx' S'. we. destruct Hn as (t & -> & E). eapply k_peek; [exact HV|exact S'|fit|]. intros s2 S2. dec_t.
  apply runs_assoc. eapply k_reread; [exact HV|exact S2|lia|ist|]. intros s3 _ S3. apply runs_assoc.
  eapply k_call; [eapply r_statement; [exact Hy|unfold fu; lia|exact Ho|exact S3]|]. intros y' b4 s4 Hy' _ S4.
  apply runs_ret_bind. apply runs_ret. cbn [fst snd]. split; [|exists b4; split; [lia|exact S4]].
  unfold eqs, eqx in *. cbn. rewrite He', Hx', Hy'. reflexivity.
Qed.
Lemma c_with g i i1 i2 i3 i4 o l e x : pl_mode g = Sloppy -> kw R_With i i1 -> op_ T_LParen i1 i2 ->
  gE (with_in true g) i2 i3 e -> op_ T_RParen i3 i4 -> cS g i4 o x -> cS g i o (S_With l e x).
Proof.
  intros Hm Hk Hl He Hr Hx d N s b Hf Ho S. we. destruct Hk as (t & -> & E). start S. apply r_stmt. unfold with_statement. apply r_sspan.
  eapply k_reread; [exact HV|exact S0|lia|ist|]. intros s1 _ S1.
  eapply runs_strict_check; [exact Hmode|exact S1| |].
  { right. eexists. split; [reflexivity|]. rewrite (st_mode _ _ _ _ _ _ _ _ _ S) in Hm. apply Hmode, Hm. }
  intros s2 S2.
  eapply k_call; [eapply r_paren; [exact HV|exact Hl|apply He|exact Hr|unfold fu; lia|exact S2]|]. intros e' b3 s3 He' _ S3.
  eapply k_call; [eapply r_statement; [apply Hx|unfold fu; lia|exact Ho|exact S3]|]. intros x' b4 s4 Hx' _ S4.
  apply runs_ret. split; [|exists b4; split; [lia|exact S4]]. unfold eqs, eqx in *. cbn. rewrite He', Hx'. reflexivity.
Qed.
Lemma k_iteration g i o x N s b T (K : stmt -> P T) Q : cS (in_loop g) i o x -> fu 4 i N -> follow o -> st b g i s ->
  (forall x' b' s', eqs x x' -> st b' g o s' -> runs (K x') s' Q) -> runs (bind (iteration_body (R N)) K) s Q.
Proof.
  intros H Hf Ho S HK. unfold iteration_body. apply runs_assoc. unfold get_context. apply runs_gets.
  unfold modify_context at 1. apply runs_assoc. apply runs_modify. apply runs_assoc.
  pose proof (st_ctx _ _ _ _ _ _ _ _ _ S) as Hc.
  eapply k_call; [eapply r_statement; [exact H|exact Hf|exact Ho|]|].
  { eapply st_set; [exact S|reflexivity|]. rewrite Hc. reflexivity. }
  intros x' b2 s2 Hx _ S2. apply runs_assoc. unfold modify_context. apply runs_modify. apply runs_ret_bind.
  eapply HK; [exact Hx|]. eapply st_set; [exact S2|reflexivity|]. rewrite Hc, (st_ctx _ _ _ _ _ _ _ _ _ S2). reflexivity.
Qed.
Lemma c_while g i i1 i2 i3 i4 o l e x : kw R_While i i1 -> op_ T_LParen i1 i2 ->
  gE (with_in true g) i2 i3 e -> op_ T_RParen i3 i4 -> cS (in_loop g) i4 o x -> cS g i o (S_While l e x).
Proof.
  intros Hk Hl He Hr Hx d N s b Hf Ho S. we. destruct Hk as (t & -> & E). start S. apply r_stmt. unfold while_statement. apply r_sspan.
  eapply k_reread; [exact HV|exact S0|lia|ist|]. intros s1 _ S1.
  eapply k_call; [eapply r_paren; [exact HV|exact Hl|apply He|exact Hr|unfold fu; lia|exact S1]|]. intros e' b3 s3 He' _ S3.
  eapply k_iteration; [exact Hx|unfold fu; lia|exact Ho|exact S3|]. intros x' b4 s4 Hx' S4.
  apply runs_ret. split; [|exists b4; split; [lia|exact S4]]. unfold eqs, eqx in *. cbn. rewrite He', Hx'. reflexivity.
Qed.
Lemma c_do g i i1 i2 i3 i4 i5 i6 o l x e sm : kw R_Do i i1 -> gS (in_loop g) i1 i2 x -> kw R_While i2 i3 -> op_ T_LParen i3 i4 ->
  gE (with_in true g) i4 i5 e -> op_ T_RParen i5 i6 -> ends true i6 o sm -> cS g i o (S_DoWhile l x e sm).
Proof.
  intros Hk Hx Hw Hl He Hr Hs d N s b Hf Ho S. we. destruct Hk as (t & -> & E). start S. apply r_stmt. unfold do_statement.
  apply runs_posn. intros p. eapply k_reread; [exact HV|exact S0|lia|ist|]. intros s1 _ S1.
  eapply k_iteration; [apply Hx|unfold fu; lia|eapply eat_follow; [exact Hw|discriminate..]|exact S1|]. intros x' b2 s2 Hx' S2.
  destruct Hw as (t2 & -> & E2).
  eapply k_expect; [exact HV|exact S2|fit|ist|]. intros s3 S3.
  eapply k_call; [eapply r_paren; [exact HV|exact Hl|apply He|exact Hr|unfold fu; lia|exact S3]|]. intros e' b4 s4 He' _ S4.
  eapply (r_end _ _ true); [split; reflexivity|exact Hs|right; exact Ho|exact S4|].
  unfold eqs, eqx in *. cbn. rewrite He', Hx'. reflexivity.
Qed.

(** ** Jumps *)

Lemma k_has_arg (h : bool) g i s b T (K : bool -> P T) Q : next (fun t => if h then ~ no_arg t else no_arg t) i ->
  next (fits false) i -> st b g i s -> (forall b' s', 1 <= b' -> st b' g i s' -> runs (K h) s' Q) ->
  runs (bind (p_has_arg_same_line V) K) s Q.
Proof.
  intros (t & i' & -> & Ha) (t' & i2 & E & Hft) S HK. assert (t' = t) by congruence. subst t'.
  unfold p_has_arg_same_line. apply runs_assoc. eapply k_peek; [exact HV|exact S|right; exact Hft|]. intros s1 S1.
  apply runs_ret_bind. replace (_ && _) with h; [eapply HK; [|exact S1]; lia|].
  unfold no_arg in Ha. destruct (tk_newline t); cbn [negb andb]; [destruct h; [tauto|reflexivity]|].
  destruct (is_t t (TPunc T_Semi)) eqn:E1; [apply is_t_true in E1; [|exact Logic.I]; destruct h; [tauto|reflexivity]|].
  destruct (is_t t (TPunc T_RBrace)) eqn:E2; [apply is_t_true in E2; [|exact Logic.I]; destruct h; [tauto|reflexivity]|].
  destruct h; [reflexivity|]. destruct Ha as [Ha|[Ha|Ha]]; [discriminate Ha|..]; exfalso.
  - apply (is_t_refl t (TPunc T_Semi) Logic.I) in Ha. congruence.
  - apply (is_t_refl t (TPunc T_RBrace) Logic.I) in Ha. congruence.
Qed.
Lemma name_fits bd g i o x : cName bd g i o x -> next (fits false) i.
Proof. intros (t & n & -> & E & _). exists t, o. split; [reflexivity|]. eapply fits_of; [exact E|discriminate..]. Qed.
Lemma c_break g i i1 o l sm : kw R_Break i i1 -> next no_arg i1 -> pl_loop g = true \/ pl_switch g = true -> ends false i1 o sm ->
  cS g i o (S_Break l None sm).
Proof.
  intros Hk Ha Hp He d N s b Hf Ho S. destruct Hk as (t & -> & E). start S. apply r_stmt. unfold break_statement.
  apply runs_posn. intros p. eapply k_reread; [exact HV|exact S0|lia|ist|]. intros s1 _ S1.
  eapply (k_has_arg false); [exact Ha|eapply follow_fits, ends_follow; eassumption|exact S1|]. intros b2 s2 Hb S2. apply runs_assoc.
  unfold get_context. apply runs_gets. rewrite (st_ctx _ _ _ _ _ _ _ _ _ S2). cbn [ctx cx_iteration cx_switch].
  replace (_ && _) with false by (destruct Hp as [-> | ->]; [|rewrite andb_false_r]; reflexivity). apply runs_ret_bind.
  eapply r_end; [exact req|exact He|left; exact Hb|exact S2|]. reflexivity.
Qed.
Lemma c_break_to g i i1 i2 o l x k sm : kw R_Break i i1 -> next (fun t => ~ no_arg t) i1 -> cName false g i1 i2 x ->
  label_in (pl_labels g) (id_name x) k -> ends false i2 o sm -> cS g i o (S_Break l (Some x) sm).
Proof.
  intros Hk Ha Hx Hp He d N s b Hf Ho S. destruct Hk as (t & -> & E). start S. apply r_stmt. unfold break_statement.
  apply runs_posn. intros p. eapply k_reread; [exact HV|exact S0|lia|ist|]. intros s1 _ S1.
  eapply (k_has_arg true); [exact Ha|eapply name_fits, Hx|exact S1|]. intros b2 s2 Hb S2. apply runs_assoc.
  eapply k_id; [exact HV|exact Hmode|exact Hx|exact S2|]. intros b3 s3 S3. apply runs_assoc.
  unfold get_context. apply runs_gets. rewrite (st_ctx _ _ _ _ _ _ _ _ _ S3). cbn [ctx cx_labels].
  rewrite (labels_get_in _ _ _ Hp). apply runs_ret_bind.
  eapply r_end; [exact req|exact He|right; exact Ho|exact S3|]. reflexivity.
Qed.
Lemma c_continue g i i1 o l sm : kw R_Continue i i1 -> next no_arg i1 -> pl_loop g = true -> ends false i1 o sm ->
  cS g i o (S_Cont l None sm).
Proof.
  intros Hk Ha Hp He d N s b Hf Ho S. destruct Hk as (t & -> & E). start S. apply r_stmt. unfold continue_statement.
  apply runs_posn. intros p. eapply k_reread; [exact HV|exact S0|lia|ist|]. intros s1 _ S1.
  eapply (k_has_arg false); [exact Ha|eapply follow_fits, ends_follow; eassumption|exact S1|]. intros b2 s2 Hb S2. apply runs_assoc.
  unfold get_context. apply runs_gets. rewrite (st_ctx _ _ _ _ _ _ _ _ _ S2). cbn [ctx cx_iteration].
  rewrite Hp. cbn [negb]. apply runs_ret_bind.
  eapply r_end; [exact req|exact He|left; exact Hb|exact S2|]. reflexivity.
Qed.
Lemma c_continue_to g i i1 i2 o l x sm : kw R_Continue i i1 -> next (fun t => ~ no_arg t) i1 -> cName false g i1 i2 x ->
  label_in (pl_labels g) (id_name x) true -> ends false i2 o sm -> cS g i o (S_Cont l (Some x) sm).
Proof.
  intros Hk Ha Hx Hp He d N s b Hf Ho S. destruct Hk as (t & -> & E). start S. apply r_stmt. unfold continue_statement.
  apply runs_posn. intros p. eapply k_reread; [exact HV|exact S0|lia|ist|]. intros s1 _ S1.
  eapply (k_has_arg true); [exact Ha|eapply name_fits, Hx|exact S1|]. intros b2 s2 Hb S2. apply runs_assoc.
  eapply k_id; [exact HV|exact Hmode|exact Hx|exact S2|]. intros b3 s3 S3. apply runs_assoc.
  unfold get_context. apply runs_gets. rewrite (st_ctx _ _ _ _ _ _ _ _ _ S3). cbn [ctx cx_labels].
  rewrite (labels_get_in _ _ _ Hp). cbn [ltype]. apply runs_ret_bind.
  eapply r_end; [exact req|exact He|right; exact Ho|exact S3|]. reflexivity.
Qed.
Lemma gE_fits g i o e : gE g i o e -> next (fits false) i.
Proof.
  intros [D _]. destruct (G_first _ _ _ _ _ _ _ D) as (t & i' & -> & Ht). exists t, i'. split; [reflexivity|].
  exact (fits_first expr_first t Ht eq_refl eq_refl).
Qed.
Lemma r_return_end start arg i o sm g b s x : ends false i o sm -> 1 <= b -> st b g i s -> pl_fun g = true ->
  (forall l, eqs x (S_Return (Some l) arg sm)) ->
  runs (bind (end_with_auto_semi V stmt_set_loc start NL_Required (fun semi => S_Return None arg semi))
     (fun result => bind get_context (fun c => if negb (cx_function c) then
        match stmt_loc result with Some l => err (TopLevelReturn l) | None => panic_at P_unwrap end
        else ret result))) s (gives 0 g o (eqs x)).
Proof.
  intros He Hb S Hp HK. eapply k_ends; [exact HV|exact req|exact He|exact S|left; exact Hb|]. intros l b' s' S'.
  unfold get_context. apply runs_gets. rewrite (st_ctx _ _ _ _ _ _ _ _ _ S'). cbn [ctx cx_function]. rewrite Hp. cbn [negb].
  apply runs_ret. split; [apply HK|]. exists b'. split; [lia|exact S'].
Qed.
Lemma c_return g i i1 o l sm : kw R_Return i i1 -> next no_arg i1 -> pl_fun g = true -> ends false i1 o sm ->
  cS g i o (S_Return l None sm).
Proof.
  intros Hk Ha Hp He d N s b Hf Ho S. destruct Hk as (t & -> & E). start S. apply r_stmt. unfold return_statement.
  apply runs_posn. intros p. eapply k_reread; [exact HV|exact S0|lia|ist|]. intros s1 _ S1.
  eapply (k_has_arg false); [exact Ha|eapply follow_fits, ends_follow; eassumption|exact S1|]. intros b2 s2 Hb S2.
  apply runs_ret_bind. eapply r_return_end; [exact He|exact Hb|exact S2|exact Hp|]. reflexivity.
Qed.
Lemma c_return_value g i i1 i2 o l e sm : kw R_Return i i1 -> next (fun t => ~ no_arg t) i1 -> pl_fun g = true ->
  gE (with_in true g) i1 i2 e -> ends false i2 o sm -> cS g i o (S_Return l (Some e) sm).
Proof.
  intros Hk Ha Hp Hx He d N s b Hf Ho S. we. destruct Hk as (t & -> & E). start S. apply r_stmt. unfold return_statement.
  apply runs_posn. intros p. eapply k_reread; [exact HV|exact S0|lia|ist|]. intros s1 _ S1.
  eapply (k_has_arg true); [exact Ha|eapply gE_fits, Hx|exact S1|]. intros b2 s2 Hb S2. apply runs_assoc.
  eapply k_allow_in; [exact S2|intros s3 S3; eapply (proj2 Hx); [unfold fu; lia|exact S3]|]. intros e' b3 s3 He' Hb3 S3.
  apply runs_ret_bind. eapply r_return_end; [exact He|exact Hb3|exact S3|exact Hp|]. intros l'. unfold eqs, eqx in *. cbn. rewrite He'. reflexivity.
Qed.
Lemma c_throw g i i1 i2 o l e sm : kw R_Throw i i1 -> next (fun t => ~ no_arg t) i1 ->
  gE (with_in true g) i1 i2 e -> ends false i2 o sm -> cS g i o (S_Throw l e sm).
Proof.
  intros Hk Ha Hx He d N s b Hf Ho S. we. destruct Hk as (t & -> & E). start S. apply r_stmt. unfold throw_statement.
  apply runs_posn. intros p. eapply k_reread; [exact HV|exact S0|lia|ist|]. intros s1 _ S1.
  eapply (k_has_arg true); [exact Ha|eapply gE_fits, Hx|exact S1|]. intros b2 s2 Hb S2. cbn [negb].
  eapply k_allow_in; [exact S2|intros s3 S3; eapply (proj2 Hx); [unfold fu; lia|exact S3]|]. intros e' b3 s3 He' Hb3 S3.
  eapply r_end; [exact req|exact He|left; exact Hb3|exact S3|]. unfold eqs, eqx in *. cbn. rewrite He'. reflexivity.
Qed.
Lemma c_debugger g i i1 o l sm : kw R_Debugger i i1 -> ends false i1 o sm -> cS g i o (S_Debugger l sm).
Proof.
  intros Hk He d N s b Hf Ho S. destruct Hk as (t & -> & E). start S. apply r_stmt. unfold debugger_statement.
  apply runs_posn. intros p. eapply k_reread; [exact HV|exact S0|lia|ist|]. intros s1 _ S1.
  eapply r_end; [exact req|exact He|right; exact Ho|exact S1|]. reflexivity.
Qed.

(** ** Try *)

Definition cCatch (g : place) (i o : tokens) (c : catch) : Prop :=
  forall N s b, fu 3 i N -> 1 <= b -> st b g i s ->
    runs (catch_opt V (R N)) s (gives 0 g o (fun c' => option_map catch_untrack c' = Some (catch_untrack c))).
Lemma c_catch g i i1 i2 i3 i4 o l p c : kw R_Catch i i1 -> op_ T_LParen i1 i2 -> cPattern g i2 i3 p -> op_ T_RParen i3 i4 ->
  cBlock g i4 o c -> cCatch g i o (Catch l p c).
Proof.
  intros Hk Hl Hp Hr Hc N s b Hf Hb S. we. pose proof (pattern_W _ _ _ _ Hp) as Hw.
  destruct Hk as (t & -> & E). unfold catch_opt. eapply k_peek; [exact HV|exact S|fit|]. intros s1 S1. dec_t.
  eapply (@k_call V src gl tr md _ _ _ 0 g o (fun c' => catch_untrack c' = catch_untrack (Catch l p c)));
    [eapply r_span with (Q' := fun c' => catch_untrack c' = catch_untrack (Catch l p c))|].
  - eapply k_reread; [exact HV|exact S1|lia|ist|]. intros s2 _ S2. destruct Hl as (t2 & -> & E2).
    eapply k_expect; [exact HV|exact S2|fit|ist|]. intros s3 S3.
    eapply k_pattern; [exact HV|exact Hmode|exact Hp|exact S3|]. intros b4 s4 S4. destruct Hr as (t4 & -> & E4).
    eapply k_expect; [exact HV|exact S4|fit|ist|]. intros s5 S5.
    eapply k_call; [eapply Hc; [unfold fu; lia|exact S5]|]. intros c' b6 s6 Hc' _ S6. apply runs_ret.
    split; [|exists b6; split; [lia|exact S6]]. cbn. rewrite Hc'. reflexivity.
  - intros [l1 p1 c1] l' Hx. exact Hx.
  - intros c' b2 s2 Hc' _ S2. apply runs_ret. split; [|exists b2; split; [lia|exact S2]]. cbn in *. rewrite Hc'. reflexivity.
Qed.
Lemma k_no_catch g i s b N T (K : option catch -> P T) Q : next (fun t => fits false t /\ tk_value t <> TReserved R_Catch) i -> st b g i s ->
  (forall b' s', 1 <= b' -> st b' g i s' -> runs (K None) s' Q) -> runs (bind (catch_opt V (R N)) K) s Q.
Proof.
  intros (t & i' & -> & Hft & Hn) S HK. unfold catch_opt. apply runs_assoc. eapply k_peek; [exact HV|exact S|right; exact Hft|].
  intros s1 S1. rewrite (is_t_ne t (TReserved R_Catch) Logic.I Hn). apply runs_ret_bind. eapply HK; [|exact S1]. lia.
Qed.
Lemma k_no_finally g i s b N T (K : option block -> P T) Q : next (fun t => fits false t /\ tk_value t <> TReserved R_Finally) i -> st b g i s ->
  (forall b' s', 1 <= b' -> st b' g i s' -> runs (K None) s' Q) -> runs (bind (finally_opt V (R N)) K) s Q.
Proof.
  intros (t & i' & -> & Hft & Hn) S HK. unfold finally_opt. apply runs_assoc. eapply k_peek; [exact HV|exact S|right; exact Hft|].
  intros s1 S1. rewrite (is_t_ne t (TReserved R_Finally) Logic.I Hn). apply runs_ret_bind. eapply HK; [|exact S1]. lia.
Qed.
Lemma k_finally g i i1 o c s b N T (K : option block -> P T) Q : kw R_Finally i i1 -> cBlock g i1 o c -> fu 3 i N -> st b g i s ->
  (forall c' b' s', block_untrack c' = block_untrack c -> st b' g o s' -> runs (K (Some c')) s' Q) ->
  runs (bind (finally_opt V (R N)) K) s Q.
Proof.
  intros Hk Hc Hf S HK. we. destruct Hk as (t & -> & E). unfold finally_opt. apply runs_assoc.
  eapply k_peek; [exact HV|exact S|fit|]. intros s1 S1. dec_t. apply runs_assoc.
  eapply k_reread; [exact HV|exact S1|lia|ist|]. intros s2 _ S2. apply runs_assoc.
  eapply k_call; [eapply Hc; [unfold fu; lia|exact S2]|]. intros c' b3 s3 Hc' _ S3. apply runs_ret_bind. eapply HK; eassumption.
Qed.
Lemma r_try g i i1 i2 t o x c N s b d : kw R_Try i i1 -> GX true g BlockOf i1 (t :: i2) c -> cBlock g i1 (t :: i2) c ->
  tk_value t = TReserved R_Catch \/ tk_value t = TReserved R_Finally -> fu 3 i N -> st b g i s ->
  (forall c' b' s', block_untrack c' = block_untrack c -> 1 <= b' -> st b' g (t :: i2) s' ->
     runs (bind (catch_opt V (R N)) (fun h => bind (finally_opt V (R N)) (fun f => ret (S_Try None c' h f)))) s' (gives 0 g o (eqs x))) ->
  runs (stmt_list_item V (R N) d) s (gives 0 g o (fun a => exists x', a = I_Stmt x' /\ eqs x x')).
Proof.
  intros Hk D Hc Ht Hf S HK. we. pose proof (G_W _ _ _ _ _ _ _ D) as Hw. destruct Hk as (t0 & -> & E). start S. apply r_stmt.
  unfold try_statement. apply r_sspan. eapply k_reread; [exact HV|exact S0|lia|ist|]. intros s1 _ S1.
  eapply k_call; [eapply Hc; [unfold fu; lia|exact S1]|]. intros c' b2 s2 Hc' _ S2.
  eapply k_peek; [exact HV|exact S2|right; destruct Ht as [Ht|Ht]; (eapply fits_of; [exact Ht|discriminate..])|]. intros s3 S3.
  replace (is_t t (TReserved R_Catch) || is_t t (TReserved R_Finally)) with true.
  - eapply HK; [exact Hc'| |exact S3]. lia.
  - symmetry. apply orb_true_iff. destruct Ht as [Ht|Ht]; [left|right]; (apply is_t_refl; [exact Logic.I|exact Ht]).
Qed.
Lemma next_and (Q1 Q2 : token -> Prop) i : next Q1 i -> next Q2 i -> next (fun t => Q1 t /\ Q2 t) i.
Proof. intros (t & i' & -> & H1) (t' & i2 & E & H2). exists t, i'. split; [reflexivity|]. split; [exact H1|congruence]. Qed.
Lemma catch_first g i o c : GX true g Catch_ i o c -> exists t i', i = t :: i' /\ tk_value t = TReserved R_Catch.
Proof.
  intros D. destruct (G_first _ _ _ _ _ _ _ D) as (t & i' & -> & Ht). exists t, i'. split; [reflexivity|].
  apply (is_t_true t (TReserved R_Catch) Logic.I). exact Ht.
Qed.
Lemma c_try_catch g i i1 i2 o l c h : kw R_Try i i1 -> GX true g BlockOf i1 i2 c -> cBlock g i1 i2 c -> GX true g Catch_ i2 o h ->
  cCatch g i2 o h -> not_next (TReserved R_Finally) o -> cS g i o (S_Try l c (Some h) None).
Proof.
  intros Hk D Hc Dh Hh Hn d N s b Hf Ho S. we. pose proof (G_W _ _ _ _ _ _ _ D) as Hw. destruct (catch_first _ _ _ _ Dh) as (t & i' & -> & E).
  eapply r_try; [exact Hk|exact D|exact Hc|left; exact E|unfold fu; lia|exact S|]. intros c' b2 s2 Hc' Hb S2.
  eapply k_call; [eapply Hh; [unfold fu; lia|exact Hb|exact S2]|]. intros h' b3 s3 Hh' _ S3.
  eapply k_no_finally; [exact (next_and _ _ _ (follow_fits _ Ho) Hn)|exact S3|]. intros b4 s4 _ S4. apply runs_ret.
  split; [|exists b4; split; [lia|exact S4]]. unfold eqs. cbn [stmt_untrack option_map]. destruct h'; [|discriminate Hh']. cbn [option_map] in Hh'. assert (Hh2 : catch_untrack c0 = catch_untrack h) by congruence.
  cbn [option_map]. rewrite Hc', Hh2. reflexivity.
Qed.
Lemma c_try_finally g i i1 i2 i3 o l c f : kw R_Try i i1 -> GX true g BlockOf i1 i2 c -> cBlock g i1 i2 c -> kw R_Finally i2 i3 ->
  cBlock g i3 o f -> cS g i o (S_Try l c None (Some f)).
Proof.
  intros Hk D Hc Hn Hh d N s b Hf Ho S. we. pose proof (G_W _ _ _ _ _ _ _ D) as Hw. pose proof Hn as (t & -> & E).
  eapply r_try; [exact Hk|exact D|exact Hc|right; exact E|unfold fu; lia|exact S|]. intros c' b2 s2 Hc' Hb S2.
  eapply k_no_catch; [|exact S2|]. { exists t, i3. split; [reflexivity|]. split; [eapply fits_of; [exact E|discriminate..]|congruence]. }
  intros b3 s3 _ S3. eapply k_finally; [exact Hn|exact Hh|unfold fu; lia|exact S3|]. intros f' b4 s4 Hf' S4. apply runs_ret.
  split; [|exists b4; split; [lia|exact S4]]. unfold eqs. cbn. rewrite Hc', Hf'. reflexivity.
Qed.
Lemma c_try_both g i i1 i2 i3 i4 o l c h f : kw R_Try i i1 -> GX true g BlockOf i1 i2 c -> cBlock g i1 i2 c -> GX true g Catch_ i2 i3 h ->
  cCatch g i2 i3 h -> kw R_Finally i3 i4 -> cBlock g i4 o f -> cS g i o (S_Try l c (Some h) (Some f)).
Proof.
  intros Hk D Hc Dh Hh Hn Hf' d N s b Hf Ho S. we. pose proof (G_W _ _ _ _ _ _ _ D) as Hw. pose proof (G_W _ _ _ _ _ _ _ Dh) as Hw2. unfold solid in Hw, Hw2. cbn [fst_ok] in Hw, Hw2.
  destruct (catch_first _ _ _ _ Dh) as (t & i' & -> & E).
  eapply r_try; [exact Hk|exact D|exact Hc|left; exact E|unfold fu; lia|exact S|]. intros c' b2 s2 Hc' Hb S2.
  eapply k_call; [eapply Hh; [unfold fu; lia|exact Hb|exact S2]|]. intros h' b3 s3 Hh' _ S3.
  eapply k_finally; [exact Hn|exact Hf'|unfold fu; lia|exact S3|]. intros f' b4 s4 Hf2 S4. apply runs_ret.
  split; [|exists b4; split; [lia|exact S4]]. unfold eqs. cbn [stmt_untrack option_map]. destruct h'; [|discriminate Hh']. cbn [option_map] in Hh'. assert (Hh2 : catch_untrack c0 = catch_untrack h) by congruence.
  cbn [option_map]. rewrite Hc', Hh2, Hf2. reflexivity.
Qed.

(** ** Switch *)

Definition cCase (g : place) (i o : tokens) (c : case) : Prop :=
  forall N s b, fu 3 i N -> 1 <= b -> st b g i s ->
    runs (if is_default c then default_ V (R N) else case_ V (R N)) s (gives 1 g o (fun c' => case_untrack c' = case_untrack c)).
Lemma case_set_untrack c l : case_untrack (case_set_loc c l) = case_untrack c.
Proof. destruct c. reflexivity. Qed.
Lemma c_case g i i1 i2 i3 o l e is : kw R_Case i i1 -> gE (with_in true g) i1 i2 e -> op_ T_Colon i2 i3 -> cItems g i3 o is ->
  cCase g i o (Case l (Some e) is).
Proof.
  intros Hk He Hc Hi N s b Hf Hb S. we. destruct Hk as (t & -> & E). cbn [is_default]. unfold case_.
  eapply r_span with (Q' := fun c' => case_untrack c' = case_untrack (Case l (Some e) is)).
  - eapply k_reread; [exact HV|exact S|exact Hb|ist|]. intros s1 _ S1.
    eapply k_allow_in; [exact S1|intros s2 S2; eapply (proj2 He); [unfold fu; lia|exact S2]|]. intros e' b3 s3 He' Hb3 S3.
    destruct Hc as (t2 & -> & E2). eapply k_expect; [exact HV|exact S3|left; exact Hb3|ist|]. intros s4 S4.
    eapply k_call; [eapply r_items; [exact Hi|unfold fu; lia|exact S4]|]. intros is' b5 s5 Hi' Hb5 S5. apply runs_ret.
    split; [|exists b5; split; [lia|exact S5]]. unfold eqx in He'. cbn. rewrite He', Hi'. reflexivity.
  - intros a l' Ha. rewrite case_set_untrack. exact Ha.
Qed.
Lemma c_default g i i1 i2 o l is : kw R_Default i i1 -> op_ T_Colon i1 i2 -> cItems g i2 o is ->
  cCase g i o (Case l None is).
Proof.
  intros Hk Hc Hi N s b Hf Hb S. we. destruct Hk as (t & -> & E). cbn [is_default]. unfold default_.
  eapply r_span with (Q' := fun c' => case_untrack c' = case_untrack (Case l None is)).
  - eapply k_reread; [exact HV|exact S|exact Hb|ist|]. intros s1 _ S1.
    destruct Hc as (t2 & -> & E2). eapply k_expect; [exact HV|exact S1|fit|ist|]. intros s4 S4.
    eapply k_call; [eapply r_items; [exact Hi|unfold fu; lia|exact S4]|]. intros is' b5 s5 Hi' Hb5 S5. apply runs_ret.
    split; [|exists b5; split; [lia|exact S5]]. cbn. rewrite Hi'. reflexivity.
  - intros a l' Ha. rewrite case_set_untrack. exact Ha.
Qed.
Definition csbody (N : nat) : list case * bool -> P ((list case * bool) + list case) :=
  fun '(cases, found_default) =>
    bind (p_peek V) (fun t =>
      if is_t t (TReserved R_Case) then
        bind (case_ V (R N)) (fun c => ret (inl (cases ++ [c], found_default)))
      else if is_t t (TReserved R_Default) then
        if found_default : bool then
          bind (p_reread (TReserved R_Default)) (fun t => err (DuplicateDefault t))
        else bind (default_ V (R N)) (fun c => ret (inl (cases ++ [c], true)))
      else ret (inr cases)).
Definition cCases (g : place) (i o : tokens) (cs : list case) : Prop :=
  next (fun t => fits false t /\ tk_value t <> TReserved R_Case /\ tk_value t <> TReserved R_Default) o ->
  forall N f acc (fd : bool) s b, fu 4 i N -> W i < f -> length (filter is_default cs) + (if fd then 1 else 0) <= 1 -> st b g i s ->
    runs (loopM f (csbody N) (acc, fd)) s (gives 1 g o (fun l' => exists l2, l' = acc ++ l2 /\ map case_untrack l2 = map case_untrack cs)).
Lemma c_cases_nil g i : cCases g i i [].
Proof.
  intros (t & o & -> & Hft & H1 & H2) N f acc fd s b Hf Hw Hd S. apply runs_loop; [lia|]. intros f' ->. unfold csbody at 1. apply runs_assoc.
  eapply k_peek; [exact HV|exact S|right; exact Hft|]. intros s1 S1.
  rewrite (is_t_ne t (TReserved R_Case) Logic.I H1), (is_t_ne t (TReserved R_Default) Logic.I H2). apply runs_ret_bind. apply runs_ret.
  split; [exists []; rewrite app_nil_r; auto|]. eexists. split; [|exact S1]. lia.
Qed.
Lemma case_first g i o c : GX true g Case_ i o c -> exists t i', i = t :: i' /\ tk_value t = TReserved (if is_default c then R_Default else R_Case).
Proof.
  intros D. change (match Case_ in nt T return T -> Prop with Case_ => fun c => exists t i', i = t :: i' /\ tk_value t = TReserved (if is_default c then R_Default else R_Case) | _ => fun _ => True end c).
  destruct D; try exact Logic.I; cbn [is_default].
  - destruct H as (t & -> & E). eauto.
  - destruct H as (t & -> & E). eauto.
Qed.
Lemma c_cases_cons g i i1 o c cs : GX true g Case_ i i1 c -> cCase g i i1 c -> cCases g i1 o cs -> cCases g i o (c :: cs).
Proof.
  intros D H Hs Ho N f acc fd s b Hf Hw Hd S. pose proof (G_W _ _ _ _ _ _ _ D) as Hw1. unfold solid in Hw1. cbn [fst_ok] in Hw1. unfold fu in Hf.
  destruct (case_first _ _ _ _ D) as (t & i' & -> & E).
  apply runs_loop; [lia|]. intros f' ->. unfold csbody at 1. apply runs_assoc.
  eapply k_peek; [exact HV|exact S|right; eapply fits_of; [exact E|destruct (is_default c); discriminate..]|]. intros s1 S1.
  cbn [filter] in Hd. specialize (H N s1 (Nat.max 1 b) ltac:(unfold fu; lia) ltac:(lia) S1).
  destruct (is_default c) eqn:Ec; dec_t.
  - cbn [length] in Hd. destruct fd; [lia|]. apply runs_assoc. eapply k_call; [exact H|]. intros c' b2 s2 Hc Hb S2.
    apply runs_ret_bind. eapply runs_conseq; [eapply (Hs Ho N f' (acc ++ [c']) true); [unfold fu; lia|lia|lia|exact S2]|].
    intros l' s' ((l2 & -> & Hl) & HS). split; [|exact HS]. exists (c' :: l2). split; [rewrite <- app_assoc; reflexivity|].
    cbn. rewrite Hc, Hl. reflexivity.
  - apply runs_assoc. eapply k_call; [exact H|]. intros c' b2 s2 Hc Hb S2.
    apply runs_ret_bind. eapply runs_conseq; [eapply (Hs Ho N f' (acc ++ [c']) fd); [unfold fu; lia|lia|exact Hd|exact S2]|].
    intros l' s' ((l2 & -> & Hl) & HS). split; [|exact HS]. exists (c' :: l2). split; [rewrite <- app_assoc; reflexivity|].
    cbn. rewrite Hc, Hl. reflexivity.
Qed.
Lemma c_switch g i i1 i2 i3 i4 i5 i6 o l e cs : kw R_Switch i i1 -> op_ T_LParen i1 i2 -> gE (with_in true g) i2 i3 e ->
  op_ T_RParen i3 i4 -> op_ T_LBrace i4 i5 -> cCases (in_switch g) i5 i6 cs -> op_ T_RBrace i6 o ->
  length (filter is_default cs) <= 1 -> cS g i o (S_Switch l e cs).
Proof.
  intros Hk Hl He Hr Hb Hc Hb2 Hd d N s b Hf Ho S. we. destruct Hk as (t & -> & E). start S. apply r_stmt. unfold switch_statement. apply r_sspan.
  eapply k_reread; [exact HV|exact S0|lia|ist|]. intros s1 _ S1.
  eapply k_call; [eapply r_paren; [exact HV|exact Hl|apply He|exact Hr|unfold fu; lia|exact S1]|]. intros e' b3 s3 He' _ S3.
  unfold get_context. apply runs_gets. unfold modify_context at 1. apply runs_modify.
  pose proof (st_ctx _ _ _ _ _ _ _ _ _ S3) as Hctx.
  assert (S4 : st b3 (in_switch g) i4 (set_context (set_switch true (p_context s3)) s3)).
  { eapply st_set; [exact S3|reflexivity|]. rewrite Hctx. reflexivity. }
  unfold switch_cases. apply runs_assoc. destruct Hb as (t4 & -> & E4).
  eapply k_expect; [exact HV|exact S4|fit|ist|]. intros s5 S5. apply runs_assoc.
  destruct Hb2 as (t6 & -> & E6).
  eapply k_call; [eapply (Hc ltac:(exists t6, o; split; [reflexivity|]; split; [eapply fits_of; [exact E6|discriminate..]|split; congruence]) N (r_fuel (R N)) [] false);
                  [unfold fu; lia|rewrite R_fuel; lia|lia|exact S5]|].
  intros cs' b6 s6 (l2 & -> & Hcs) Hb6 S6. apply runs_assoc. eapply k_expect; [exact HV|exact S6|left; exact Hb6|ist|]. intros s7 S7.
  apply runs_ret_bind. unfold modify_context. apply runs_modify. apply runs_ret.
  split; [unfold eqs, eqx in *; cbn; rewrite He', Hcs; reflexivity|].
  eexists. split; [|eapply st_set; [exact S7|reflexivity|rewrite Hctx, (st_ctx _ _ _ _ _ _ _ _ _ S7); reflexivity]]. lia.
Qed.

(** ** Labels *)

Definition labody (labels : list id) : P (list id + list id) :=
  bind (p_peek V) (fun t =>
    match as_ident t with
    | Some _ =>
        bind p_reread_token (fun t =>
        bind (p_matches_op V (TPunc T_Colon)) (fun b : bool =>
          if b then bind (new_id_from_token false t) (fun i => ret (inl (labels ++ [i])))
          else bind (p_unread t) (fun _ => ret (inr labels))))
    | None => ret (inr labels)
    end).
Definition ltail (N f : nat) (acc : list id) : P stmt :=
  bind (loopM f labody acc) (fun labels => bind (p_peek V) (fun t => with_labels labels (token_label_type t) (statement (R N)))).
Lemma labelled_eq N x : labelled_statement V (R N) x = bind (p_reread (TPunc T_Colon)) (fun _ => ltail N (r_fuel (R N)) [x]).
Proof. reflexivity. Qed.
Lemma wrap_eqs acc x x' : eqs x x' -> eqs (wrap_labels acc x) (wrap_labels acc x').
Proof.
  unfold wrap_labels. generalize (rev acc). intros l. revert x x'. induction l as [|y l IH]; intros x x' H; [exact H|].
  cbn [fold_left]. apply IH. unfold eqs in *. cbn. rewrite H. reflexivity.
Qed.
Lemma eqs_trans x y z : eqs x y -> eqs y z -> eqs x z.
Proof. unfold eqs. congruence. Qed.
Definition cL (g : place) (i o : tokens) (x : stmt) : Prop :=
  forall acc g0 N f s b, g = labelled (is_loop x) acc g0 -> fresh (is_loop x) acc g0 ->
    fu 4 i N -> W i < f -> follow o -> st b g0 i s ->
    runs (ltail N f acc) s (gives 0 g0 o (fun x' => eqs (wrap_labels acc x) x')).
Lemma k_new_token g t n bd i b s T (K : id -> P T) Q : tk_value t = TIdent n -> name_ok (pl_mode g) bd n -> st b g i s ->
  (forall s', st b g i s' -> runs (K (Id (Some (tk_loc t)) n)) s' Q) -> runs (bind (new_id_from_token bd t) K) s Q.
Proof.
  intros E Hn S HK. unfold new_id_from_token, as_ident. rewrite E. eapply k_new_id; [exact Hmode|exact S|exact Hn|exact HK].
Qed.
Lemma place_eq g g' : pl_mode g = pl_mode g' -> pl_fun g = pl_fun g' -> pl_loop g = pl_loop g' -> pl_switch g = pl_switch g' ->
  pl_in g = pl_in g' -> pl_labels g = pl_labels g' -> g = g'.
Proof. destruct g, g'. cbn. congruence. Qed.
Lemma c_plain g i o x : GX true g Statement i o x -> (forall l y z, x <> S_Label l y z) -> cS g i o x -> cL g i o x.
Proof.
  intros D Hx H acc g0 N f s b Eg Hfr Hf Hw Ho S.
  assert (Hh : head_ok i x). { eapply stmt_head; [exact D|]. revert Ho. apply next_imp. intros t (_ & Hc & _). exact Hc. }
  assert (Hh' : exists t i', i = t :: i' /\ token_label_type t = ltype (is_loop x)
    /\ (forall n, tk_value t = TIdent n -> next (fun t' => ~ regexp t' /\ tk_value t' <> TPunc T_Colon) i')).
  { destruct x; try exact Hh. exfalso. eapply Hx. reflexivity. }
  clear Hh. destruct Hh' as (t & i' & -> & Ht & Hi). destruct (G_first _ _ _ _ _ _ _ D) as (t0 & i0 & E0 & Hft). cbn beta in Hft.
  assert (t0 = t) by congruence. subst t0. clear i0 E0.
  unfold ltail. apply runs_loop_bind; [lia|]. intros f' ->. unfold labody at 1. apply runs_assoc.
  eapply k_peek; [exact HV|exact S|right; exact (fits_first item_first t Hft eq_refl eq_refl)|]. intros s1 S1.
  pose proof (st_le _ _ _ _ _ _ _ _ _ S) as Hle.
  assert (HK : forall b' s', 1 <= b' -> st b' g0 (t :: i') s' ->
    runs (bind (p_peek V) (fun t => with_labels acc (token_label_type t) (statement (R N)))) s' (gives 0 g0 o (fun x' => eqs (wrap_labels acc x) x'))).
  { intros b' s' Hb' S'. eapply k_peek; [exact HV|exact S'|left; exact Hb'|]. intros s2 S2. rewrite Ht. unfold with_labels.
    unfold modify_context at 1. apply runs_modify. pose proof (st_ctx _ _ _ _ _ _ _ _ _ S2) as Hc.
    destruct (labelled_rest (is_loop x) acc g0) as (R1 & R2 & R3 & R4 & R5).
    assert (S3 : st (Nat.max 1 b') g (t :: i') (set_context (set_labels (insert_labels acc (ltype (is_loop x)) (cx_labels (p_context s2))) (p_context s2)) s2)).
    { subst g. eapply st_set; [exact S2|exact R1|]. rewrite Hc. cbn [ctx cx_labels]. rewrite insert_fresh by exact Hfr.
      unfold ctx, set_labels. cbn. rewrite R2, R3, R4, R5. reflexivity. }
    eapply k_call; [eapply r_statement; [exact H|exact Hf|exact Ho|exact S3]|]. intros x' b4 s4 Hx' _ S4.
    unfold modify_context. apply runs_modify. apply runs_ret. split; [apply wrap_eqs, Hx'|].
    exists b4. split; [lia|]. subst g. eapply st_set; [exact S4|symmetry; exact R1|]. rewrite (st_ctx _ _ _ _ _ _ _ _ _ S4). cbn [ctx cx_labels].
    rewrite remove_fresh_all by exact Hfr. unfold ctx, set_labels. cbn. rewrite R2, R3, R4, R5. reflexivity. }
  destruct (as_ident t) as [n|] eqn:En.
  - assert (Et : tk_value t = TIdent n) by (unfold as_ident in En; destruct (tk_value t); try discriminate En; congruence).
    apply runs_assoc. eapply k_reread_token; [exact HV|exact S1|lia|]. intros s2 Hlx S2. destruct (Hi n Et) as (t2 & i2 & -> & Hr & Hc).
    apply runs_assoc. eapply k_matches_op_no; [exact HV|exact S2|right; exact Hr|exact (is_t_ne t2 (TPunc T_Colon) Logic.I Hc)|].
    intros s3 S3. apply runs_assoc. eapply k_unread; [exact S3|lia|exact Hlx|]. intros s4 S4. apply runs_ret_bind.
    eapply HK; [|exact S4]. lia.
  - apply runs_ret_bind. eapply HK; [|exact S1]. lia.
Qed.
Lemma c_label_s g i i1 i2 o l x c : cName false g i i1 x -> op_ T_Colon i1 i2 -> ~ In (id_name x) (map fst (pl_labels g)) ->
  cL (in_label (id_name x) (is_loop c) g) i2 o c -> cS g i o (S_Label l x c).
Proof.
  intros Hn Hc Hin H d N s b Hf Ho S. we. pose proof (name_W _ _ _ _ _ Hn) as Hw. pose proof (st_le _ _ _ _ _ _ _ _ _ S) as Hle.
  destruct Hn as (t & n & -> & E & Hn & ->). start S. unfold as_ident. rewrite E. unfold ident_item.
  eapply k_reread_token; [exact HV|exact S0|lia|]. intros s1 _ S1. destruct Hc as (t2 & -> & E2).
  eapply k_peek_op; [exact HV|exact S1|right; eapply fits_of; [exact E2|discriminate..]|]. intros s2 S2.
  rewrite (is_t_refl t2 (TPunc T_Colon) Logic.I E2). eapply k_new_token; [exact E|exact Hn|exact S2|]. intros s3 S3.
  apply r_stmt. rewrite labelled_eq. eapply k_reread; [exact HV|exact S3|lia|ist|]. intros s4 _ S4.
  eapply (H [Id (Some (tk_loc t)) n] g); [reflexivity|split; [exact Hin|exact Logic.I]|unfold fu; lia|rewrite R_fuel; lia|exact Ho|exact S4].
Qed.
Lemma c_label_l g i i1 i2 o l x c : cName false g i i1 x -> op_ T_Colon i1 i2 -> ~ In (id_name x) (map fst (pl_labels g)) ->
  cL (in_label (id_name x) (is_loop c) g) i2 o c -> cL g i o (S_Label l x c).
Proof.
  intros Hn Hc Hin H acc g0 N f s b Eg Hfr Hf Hwf Ho S. cbn [is_loop] in *. we. pose proof (name_W _ _ _ _ _ Hn) as Hw.
  destruct Hn as (t & n & -> & E & Hn & ->). unfold ltail. apply runs_loop_bind; [lia|]. intros f' ->. unfold labody at 1. apply runs_assoc.
  eapply k_peek; [exact HV|exact S|fit|]. intros s1 S1. unfold as_ident at 1. rewrite E.
  apply runs_assoc. eapply k_reread_token; [exact HV|exact S1|lia|]. intros s2 _ S2. destruct Hc as (t2 & -> & E2). apply runs_assoc.
  eapply k_matches_op_yes; [exact HV|exact S2|right; eapply fits_of; [exact E2|discriminate..]|ist|]. intros s3 S3. apply runs_assoc.
  eapply k_new_token; [exact E| |exact S3|].
  { destruct (labelled_rest (is_loop c) acc g0) as (R1 & _). rewrite <- R1, <- Eg. exact Hn. }
  intros s4 S4. apply runs_ret_bind.
  eapply runs_conseq; [eapply (H (acc ++ [Id (Some (tk_loc t)) n]) g0 N f'); [|apply fresh_app; [exact Hfr|]|unfold fu; lia|lia|exact Ho|exact S4]|].
  - rewrite labelled_app, <- Eg. reflexivity.
  - rewrite <- Eg. exact Hin.
  - intros x' s' (Hx & HS). split; [|exact HS]. eapply eqs_trans; [|exact Hx]. unfold wrap_labels. rewrite rev_app_distr. cbn [rev app fold_left].
    apply (wrap_eqs acc). reflexivity.
Qed.

(** ** For loops *)

Lemma gE_start g i o e : gE g i o e -> exists t i', i = t :: i' /\ fits false t /\ expr_first (tk_value t) = true.
Proof.
  intros [D _]. destruct (G_first _ _ _ _ _ _ _ D) as (t & i' & -> & Ht). exists t, i'. split; [reflexivity|].
  split; [exact (fits_first expr_first t Ht eq_refl eq_refl)|exact Ht].
Qed.
Definition eqo (e e' : option expr) : Prop := option_map expr_untrack e' = option_map expr_untrack e.
Definition for_eq (h : option for_head) (a : option expr * option expr * stmt) (x' : stmt) : Prop :=
  exists t' u' c', x' = S_For None h t' u' c' /\ eqo (fst (fst a)) t' /\ eqo (snd (fst a)) u' /\ eqs (snd a) c'.
Definition cForRest (g : place) (i o : tokens) (a : option expr * option expr * stmt) : Prop :=
  forall h N s b, fu 3 i N -> follow o -> st b g i s -> runs (more_for V (R N) h) s (gives 0 g o (for_eq h a)).
Lemma k_opt_semi_none g i o N s b T (K : option expr -> P T) Q : op_ T_Semi i o -> st b g i s ->
  (forall b' s', st b' g o s' -> runs (K None) s' Q) -> runs (bind (expression_opt_semi V (R N)) K) s Q.
Proof.
  intros (t & -> & E) S HK. unfold expression_opt_semi. apply runs_assoc. eapply k_matches_yes; [exact HV|exact S|fit|ist|].
  intros s1 S1. apply runs_ret_bind. eapply HK, S1.
Qed.
Lemma k_opt_semi_some g i i1 o e N s b T (K : option expr -> P T) Q : gE (with_in true g) i i1 e -> op_ T_Semi i1 o -> fu 3 i N -> st b g i s ->
  (forall e' b' s', eqo (Some e) e' -> st b' g o s' -> runs (K e') s' Q) -> runs (bind (expression_opt_semi V (R N)) K) s Q.
Proof.
  intros He Hs Hf S HK. destruct (gE_start _ _ _ _ He) as (t & i' & -> & Hft & Ht). unfold expression_opt_semi. apply runs_assoc.
  eapply k_matches_no; [exact HV|exact S|right; exact Hft|apply is_t_ne; [exact Logic.I|intros Ex; rewrite Ex in Ht; discriminate Ht]|].
  intros s1 S1. apply runs_assoc. eapply k_allow_in; [exact S1|intros s2 S2; eapply (proj2 He); [exact Hf|exact S2]|].
  intros e' b3 s3 He' Hb S3. apply runs_assoc. destruct Hs as (t2 & -> & E2). eapply k_expect; [exact HV|exact S3|left; exact Hb|ist|].
  intros s4 S4. apply runs_ret_bind. eapply HK; [|exact S4]. unfold eqo, eqx in *. cbn. rewrite He'. reflexivity.
Qed.
Definition update_ (N : nat) : P (option expr) :=
  bind (p_matches V (TPunc T_RParen)) (fun b : bool => if b then ret None
    else bind (p_allow_in true (expression V (R N))) (fun node => bind (p_expect V (TPunc T_RParen)) (fun _ => ret (Some node)))).
Lemma k_update_none g i o N s b T (K : option expr -> P T) Q : op_ T_RParen i o -> st b g i s ->
  (forall b' s', st b' g o s' -> runs (K None) s' Q) -> runs (bind (update_ N) K) s Q.
Proof.
  intros (t & -> & E) S HK. unfold update_. apply runs_assoc. eapply k_matches_yes; [exact HV|exact S|fit|ist|].
  intros s1 S1. apply runs_ret_bind. eapply HK, S1.
Qed.
Lemma k_update_some g i i1 o e N s b T (K : option expr -> P T) Q : gE (with_in true g) i i1 e -> op_ T_RParen i1 o -> fu 3 i N -> st b g i s ->
  (forall e' b' s', eqo (Some e) e' -> st b' g o s' -> runs (K e') s' Q) -> runs (bind (update_ N) K) s Q.
Proof.
  intros He Hs Hf S HK. destruct (gE_start _ _ _ _ He) as (t & i' & -> & Hft & Ht). unfold update_. apply runs_assoc.
  eapply k_matches_no; [exact HV|exact S|right; exact Hft|apply is_t_ne; [exact Logic.I|intros Ex; rewrite Ex in Ht; discriminate Ht]|].
  intros s1 S1. apply runs_assoc. eapply k_allow_in; [exact S1|intros s2 S2; eapply (proj2 He); [exact Hf|exact S2]|].
  intros e' b3 s3 He' Hb S3. apply runs_assoc. destruct Hs as (t2 & -> & E2). eapply k_expect; [exact HV|exact S3|left; exact Hb|ist|].
  intros s4 S4. apply runs_ret_bind. eapply HK; [|exact S4]. unfold eqo, eqx in *. cbn. rewrite He'. reflexivity.
Qed.
Lemma more_for_eq N h : more_for V (R N) h = bind (expression_opt_semi V (R N)) (fun test =>
  bind (p_matches V (TPunc T_RParen)) (fun b : bool => bind (if b then ret None
    else bind (p_allow_in true (expression V (R N))) (fun node => bind (p_expect V (TPunc T_RParen)) (fun _ => ret (Some node))))
   (fun update => bind (iteration_body (R N)) (fun b => ret (S_For None h test update b))))).
Proof. reflexivity. Qed.
Lemma k_for_body g i o c h t u t' u' N s b : cS (in_loop g) i o c -> fu 4 i N -> follow o -> st b g i s -> eqo t t' -> eqo u u' ->
  runs (bind (iteration_body (R N)) (fun b => ret (S_For None h t' u' b))) s (gives 0 g o (for_eq h (t, u, c))).
Proof.
  intros Hc Hf Ho S Ht Hu. eapply k_iteration; [exact Hc|exact Hf|exact Ho|exact S|]. intros c' b2 s2 Hc' S2. apply runs_ret.
  split; [exists t', u', c'; auto|]. exists b2. split; [lia|exact S2].
Qed.
Lemma runs_unassoc {A B C} (m : P A) (f : A -> P B) (k : B -> P C) s (Q : C -> pst -> Prop) :
  runs (bind (bind m f) k) s Q -> runs (bind m (fun a => bind (f a) k)) s Q.
Proof. unfold runs. rewrite bind_bind. auto. Qed.
Ltac up N := apply runs_unassoc; change (bind (bind (p_matches V (TPunc T_RParen)) _) ?k) with (bind (update_ N) k).
Lemma c_for_rest_00 g i i1 i2 o c : op_ T_Semi i i1 -> op_ T_RParen i1 i2 -> cS (in_loop g) i2 o c -> cForRest g i o (None, None, c).
Proof.
  intros Hs Hr Hc h N s b Hf Ho S. we. rewrite more_for_eq. eapply k_opt_semi_none; [exact Hs|exact S|]. intros b1 s1 S1.
  up N. eapply k_update_none; [exact Hr|exact S1|]. intros b2 s2 S2.
  eapply k_for_body; [exact Hc|unfold fu; lia|exact Ho|exact S2|reflexivity|reflexivity].
Qed.
Lemma c_for_rest_10 g i i1 i2 i3 o t c : gE (with_in true g) i i1 t -> op_ T_Semi i1 i2 -> op_ T_RParen i2 i3 ->
  cS (in_loop g) i3 o c -> cForRest g i o (Some t, None, c).
Proof.
  intros Ht Hs Hr Hc h N s b Hf Ho S. we. rewrite more_for_eq.
  eapply k_opt_semi_some; [exact Ht|exact Hs|unfold fu; lia|exact S|]. intros t' b1 s1 Ht' S1.
  up N. eapply k_update_none; [exact Hr|exact S1|]. intros b2 s2 S2.
  eapply k_for_body; [exact Hc|unfold fu; lia|exact Ho|exact S2|exact Ht'|reflexivity].
Qed.
Lemma c_for_rest_01 g i i1 i2 i3 o u c : op_ T_Semi i i1 -> gE (with_in true g) i1 i2 u -> op_ T_RParen i2 i3 ->
  cS (in_loop g) i3 o c -> cForRest g i o (None, Some u, c).
Proof.
  intros Hs Hu Hr Hc h N s b Hf Ho S. we. rewrite more_for_eq. eapply k_opt_semi_none; [exact Hs|exact S|]. intros b1 s1 S1.
  up N. eapply k_update_some; [exact Hu|exact Hr|unfold fu; lia|exact S1|]. intros u' b2 s2 Hu' S2.
  eapply k_for_body; [exact Hc|unfold fu; lia|exact Ho|exact S2|reflexivity|exact Hu'].
Qed.
Lemma c_for_rest_11 g i i1 i2 i3 i4 o t u c : gE (with_in true g) i i1 t -> op_ T_Semi i1 i2 -> gE (with_in true g) i2 i3 u ->
  op_ T_RParen i3 i4 -> cS (in_loop g) i4 o c -> cForRest g i o (Some t, Some u, c).
Proof.
  intros Ht Hs Hu Hr Hc h N s b Hf Ho S. we. rewrite more_for_eq.
  eapply k_opt_semi_some; [exact Ht|exact Hs|unfold fu; lia|exact S|]. intros t' b1 s1 Ht' S1.
  up N. eapply k_update_some; [exact Hu|exact Hr|unfold fu; lia|exact S1|]. intros u' b2 s2 Hu' S2.
  eapply k_for_body; [exact Hc|unfold fu; lia|exact Ho|exact S2|exact Ht'|exact Hu'].
Qed.

Definition forbody (N : nat) (t : token) : P stmt :=
  if is_t t (TReserved R_Var) then for_var V (R N)
  else if is_t t (TIdent (NAtom A_Let)) then for_let V (R N)
  else if is_t t (TReserved R_Const) then for_const V (R N)
  else if is_t t (TPunc T_Semi) then bind (p_reread (TPunc T_Semi)) (fun _ => more_for V (R N) None)
  else for_expr V (R N).
Lemma r_for g i i1 t i2 o x N s b d : kw R_For i i1 -> op_ T_LParen i1 (t :: i2) -> fits false t -> st b g i s ->
  (forall b' s', 1 <= b' -> st b' g (t :: i2) s' -> runs (forbody N t) s' (gives 0 g o (eqs x))) ->
  runs (stmt_list_item V (R N) d) s (gives 0 g o (fun a => exists x', a = I_Stmt x' /\ eqs x x')).
Proof.
  intros Hk Hl Hft S HK. destruct Hk as (t0 & -> & E). start S. apply r_stmt. unfold for_statement. apply r_sspan.
  eapply k_reread; [exact HV|exact S0|lia|ist|]. intros s1 _ S1. destruct Hl as (t1 & -> & E1).
  eapply k_expect; [exact HV|exact S1|fit|ist|]. intros s2 S2. eapply k_peek; [exact HV|exact S2|right; exact Hft|]. intros s3 S3.
  eapply HK; [|exact S3]. lia.
Qed.
Lemma for_eqs l h h' t u c x' : for_eq (Some h') (t, u, c) x' -> for_head_untrack h' = for_head_untrack h -> eqs (S_For l (Some h) t u c) x'.
Proof.
  intros (t' & u' & c' & -> & Ht & Hu & Hc) Hh. unfold eqs, eqo in *. cbn [fst snd] in *. cbn [stmt_untrack option_map].
  rewrite Ht, Hu, Hc, Hh. reflexivity.
Qed.
Lemma c_for g i i1 i2 i3 o l t u c : kw R_For i i1 -> op_ T_LParen i1 i2 -> op_ T_Semi i2 i3 -> cForRest g i3 o (t, u, c) ->
  cS g i o (S_For l None t u c).
Proof.
  intros Hk Hl Hs H d N s b Hf Ho S. we. destruct Hs as (t2 & -> & E2).
  eapply r_for; [exact Hk|exact Hl|eapply fits_of; [exact E2|discriminate..]|exact S|]. intros b1 s1 Hb1 S1. unfold forbody. dec_t.
  eapply k_reread; [exact HV|exact S1|lia|ist|]. intros s2 _ S2.
  eapply runs_conseq; [eapply H; [unfold fu; lia|exact Ho|exact S2]|]. intros x' s' ((t' & u' & c' & -> & Ht & Hu & Hc) & HS). split; [|exact HS].
  unfold eqs, eqo in *. cbn [fst snd] in *. cbn [stmt_untrack option_map]. rewrite Ht, Hu, Hc. reflexivity.
Qed.
Lemma r_for_expr g i o e N t i' s b (Q : stmt -> pst -> Prop) : i = t :: i' ->
  (forall i', eat (TIdent (NAtom A_Let)) i i' -> next (fun t => ~ begins_binding t /\ (true = true -> ~ slash t)) i') ->
  gE (with_in false g) i o e -> 1 <= b -> st b g i s -> (forall b' s', st b' g i s' -> runs (for_expr V (R N)) s' Q) ->
  runs (forbody N t) s Q.
Proof.
  intros -> Hl He Hb S HK. pose proof (st_le _ _ _ _ _ _ _ _ _ S) as Hle.
  destruct (gE_start _ _ _ _ He) as (t0 & i0 & E0 & _ & Ht). assert (t0 = t) by congruence. subst t0. clear i0 E0.
  unfold forbody. destruct (is_t t (TIdent (NAtom A_Let))) eqn:El.
  - apply is_t_true in El; [|exact Logic.I]. rewrite (is_t_ne t (TReserved R_Var) Logic.I) by congruence. unfold for_let.
    eapply k_reread; [exact HV|exact S|exact Hb|ist|]. intros s1 Hlx S1. destruct (Hl i') as (t2 & i2 & -> & H1 & H2); [exists t; auto|].
    eapply k_peek; [exact HV|exact S1|right; exact (H2 eq_refl)|]. intros s2 S2.
    replace (first_binding t2) with false. 2:{ symmetry. destruct (first_binding t2) eqn:Ef; [|reflexivity]. apply first_binding_iff in Ef. contradiction. }
    cbn [negb]. eapply k_unread; [exact S2|lia|exact Hlx|]. intros s3 S3. eapply HK, S3.
  - repeat match goal with |- context [is_t t ?d] => rewrite (is_t_ne t d Logic.I) by (intros Ex; rewrite Ex in Ht; discriminate Ht) end.
    eapply HK, S.
Qed.
Lemma c_for_expr g i i1 i2 i3 i4 o l l' e t u c : kw R_For i i1 -> op_ T_LParen i1 i2 ->
  (forall i', eat (TIdent (NAtom A_Let)) i2 i' -> next (fun t => ~ begins_binding t /\ (true = true -> ~ slash t)) i') ->
  gE (with_in false g) i2 i3 e -> op_ T_Semi i3 i4 -> cForRest g i4 o (t, u, c) -> cS g i o (S_For l (Some (FH_Expr l' e)) t u c).
Proof.
  intros Hk Hl Hlet He Hs H d N s b Hf Ho S. we. destruct (gE_start _ _ _ _ He) as (t2 & i2' & -> & Hft & Ht).
  eapply r_for; [exact Hk|exact Hl|exact Hft|exact S|]. intros b1 s1 Hb1 S1.
  eapply r_for_expr; [reflexivity|exact Hlet|exact He|exact Hb1|exact S1|]. intros b2 s2 S2. unfold for_expr.
  eapply k_allow_in; [exact S2|intros s3 S3; eapply (proj2 He); [unfold fu; lia|exact S3]|]. intros e' b3 s3 He' Hb3 S3.
  destruct Hs as (t3 & -> & E3). eapply k_peek; [exact HV|exact S3|left; exact Hb3|]. intros s4 S4. dec_t.
  eapply k_reread; [exact HV|exact S4|lia|ist|]. intros s5 _ S5.
  eapply runs_conseq; [eapply H; [unfold fu; lia|exact Ho|exact S5]|]. intros x' s' (Hx & HS). split; [|exact HS].
  eapply for_eqs; [exact Hx|]. unfold eqx in He'. cbn [for_head_untrack]. rewrite He'. reflexivity.
Qed.
Lemma r_more_for_in g i i1 i2 o e c h N s b : gAssign (with_in true g) i i1 e -> op_ T_RParen i1 i2 -> cS (in_loop g) i2 o c ->
  fu 3 i N -> follow o -> st b g i s ->
  runs (more_for_in V (R N) h) s (gives 0 g o (fun x' => exists e' c', x' = S_ForIn None h e' c' /\ eqx e e' /\ eqs c c')).
Proof.
  intros He Hr Hc Hf Ho S. we. unfold more_for_in.
  eapply k_allow_in; [exact S|intros s1 S1; eapply r_assign_of; [apply He|exact Hf|exact S1]|]. intros e' b2 s2 He' Hb2 S2.
  destruct Hr as (t & -> & E). eapply k_expect; [exact HV|exact S2|left; exact Hb2|ist|]. intros s3 S3.
  eapply k_iteration; [exact Hc|unfold fu; lia|exact Ho|exact S3|]. intros c' b4 s4 Hc' S4. apply runs_ret.
  split; [exists e', c'; auto|]. exists b4. split; [lia|exact S4].
Qed.
Lemma r_more_for_of g i i1 i2 o e c h N s b : gAssign (with_in true g) i i1 e -> op_ T_RParen i1 i2 -> cS (in_loop g) i2 o c ->
  fu 3 i N -> follow o -> st b g i s ->
  runs (more_for_of V (R N) h) s (gives 0 g o (fun x' => exists e' c', x' = S_ForOf None h e' c' /\ eqx e e' /\ eqs c c')).
Proof.
  intros He Hr Hc Hf Ho S. we. unfold more_for_of.
  eapply k_allow_in; [exact S|intros s1 S1; eapply r_assign_of; [apply He|exact Hf|exact S1]|]. intros e' b2 s2 He' Hb2 S2.
  destruct Hr as (t & -> & E). eapply k_expect; [exact HV|exact S2|left; exact Hb2|ist|]. intros s3 S3.
  eapply k_iteration; [exact Hc|unfold fu; lia|exact Ho|exact S3|]. intros c' b4 s4 Hc' S4. apply runs_ret.
  split; [exists e', c'; auto|]. exists b4. split; [lia|exact S4].
Qed.
Lemma end_in g o l h h' e c s' : for_in_head_untrack h' = for_in_head_untrack h -> forall x',
  gives 0 g o (fun x' => exists e' c', x' = S_ForIn None h' e' c' /\ eqx e e' /\ eqs c c') x' s' ->
  gives 0 g o (eqs (S_ForIn l h e c)) x' s'.
Proof.
  intros Hh x' ((e' & c' & -> & He & Hc) & HS). split; [|exact HS]. unfold eqs, eqx in *. cbn [stmt_untrack]. rewrite He, Hc, Hh. reflexivity.
Qed.
Lemma end_of g o l h h' e c s' : for_of_head_untrack h' = for_of_head_untrack h -> forall x',
  gives 0 g o (fun x' => exists e' c', x' = S_ForOf None h' e' c' /\ eqx e e' /\ eqs c c') x' s' ->
  gives 0 g o (eqs (S_ForOf l h e c)) x' s'.
Proof.
  intros Hh x' ((e' & c' & -> & He & Hc) & HS). split; [|exact HS]. unfold eqs, eqx in *. cbn [stmt_untrack]. rewrite He, Hc, Hh. reflexivity.
Qed.
Lemma c_for_in g i i1 i2 i3 i4 i5 i6 o l p e c : kw R_For i i1 -> op_ T_LParen i1 i2 ->
  (forall i', eat (TIdent (NAtom A_Let)) i2 i' -> next (fun t => ~ begins_binding t /\ (true = true -> ~ slash t)) i') ->
  gE (with_in false g) i2 i3 (patt_expr p) -> rests_unlocated p -> kw R_In i3 i4 -> gAssign (with_in true g) i4 i5 e ->
  op_ T_RParen i5 i6 -> cS (in_loop g) i6 o c -> cS g i o (S_ForIn l (FI_Patt p) e c).
Proof.
  intros Hk Hl Hlet Hp Hru Hin He Hr Hc d N s b Hf Ho S. we. destruct (gE_start _ _ _ _ Hp) as (t2 & i2' & -> & Hft & Ht).
  eapply r_for; [exact Hk|exact Hl|exact Hft|exact S|]. intros b1 s1 Hb1 S1.
  eapply r_for_expr; [reflexivity|exact Hlet|exact Hp|exact Hb1|exact S1|]. intros b2 s2 S2. unfold for_expr.
  eapply k_allow_in; [exact S2|intros s3 S3; eapply (proj2 Hp); [unfold fu; lia|exact S3]|]. intros e' b3 s3 He' Hb3 S3.
  destruct Hin as (t3 & -> & E3). eapply k_peek; [exact HV|exact S3|left; exact Hb3|]. intros s4 S4. dec_t.
  eapply k_reread; [exact HV|exact S4|lia|ist|]. intros s5 _ S5.
  destruct (cover_patt true _ _ Expression _ _ p e' _ (proj1 Hp) eq_refl Hru He') as (p' & Ep & Hp'). unfold to_patt. rewrite Ep. apply runs_ret_bind.
  eapply runs_conseq; [eapply r_more_for_in; [exact He|exact Hr|exact Hc|unfold fu; lia|exact Ho|exact S5]|].
  intros x' s'. apply end_in. cbn [for_in_head_untrack]. unfold putrack, patt_untrack in Hp'. rewrite Hp'. reflexivity.
Qed.
Lemma c_for_of g i i1 i2 i3 i4 i5 i6 o l p e c : kw R_For i i1 -> op_ T_LParen i1 i2 ->
  (forall i', eat (TIdent (NAtom A_Let)) i2 i' -> next (fun t => ~ begins_binding t /\ (true = true -> ~ slash t)) i') ->
  gE (with_in false g) i2 i3 (patt_expr p) -> rests_unlocated p -> eat (TIdent (NAtom A_Of)) i3 i4 -> gAssign (with_in true g) i4 i5 e ->
  op_ T_RParen i5 i6 -> cS (in_loop g) i6 o c -> cS g i o (S_ForOf l (FO_Patt p) e c).
Proof.
  intros Hk Hl Hlet Hp Hru Hin He Hr Hc d N s b Hf Ho S. we. pose proof (W_eat _ _ _ Hin ltac:(discriminate)).
  destruct (gE_start _ _ _ _ Hp) as (t2 & i2' & -> & Hft & Ht).
  eapply r_for; [exact Hk|exact Hl|exact Hft|exact S|]. intros b1 s1 Hb1 S1.
  eapply r_for_expr; [reflexivity|exact Hlet|exact Hp|exact Hb1|exact S1|]. intros b2 s2 S2. unfold for_expr.
  eapply k_allow_in; [exact S2|intros s3 S3; eapply (proj2 Hp); [unfold fu; lia|exact S3]|]. intros e' b3 s3 He' Hb3 S3.
  destruct Hin as (t3 & -> & E3). eapply k_peek; [exact HV|exact S3|left; exact Hb3|]. intros s4 S4. dec_t.
  eapply k_reread; [exact HV|exact S4|lia|ist|]. intros s5 _ S5.
  destruct (cover_patt true _ _ Expression _ _ p e' _ (proj1 Hp) eq_refl Hru He') as (p' & Ep & Hp'). unfold to_patt. rewrite Ep. apply runs_ret_bind.
  eapply runs_conseq; [eapply r_more_for_of; [exact He|exact Hr|exact Hc|unfold fu; lia|exact Ho|exact S5]|].
  intros x' s'. apply end_of. cbn [for_of_head_untrack]. unfold putrack, patt_untrack in Hp'. rewrite Hp'. reflexivity.
Qed.

(** *** For loops that declare variables *)

Lemma ctail_next {A} (E : tokens -> tokens -> A -> Prop) (Q : token -> Prop) i o l : ctail E i o l -> next Q o ->
  (forall t, tk_value t = TPunc T_Comma -> Q t) -> ctail (fun i o a => E i o a /\ next Q o) i o l.
Proof. intros [[-> ->]|(i1 & Hc & Hs)] Ho HQ; [left; auto|right]. exists i1. split; [exact Hc|apply sep_next; assumption]. Qed.
Lemma ctail_head {A} (E : tokens -> tokens -> A -> Prop) i o o' l : ctail E i o l -> op_ T_Semi o o' ->
  exists t i', i = t :: i' /\ fits false t /\ is_t t (TPunc T_Assign) = false /\ (is_t t (TPunc T_Comma) || is_t t (TPunc T_Semi)) = true.
Proof.
  intros [[-> ->]|(i1 & (t & -> & Et) & Hs)] (t2 & Ho & E2).
  - exists t2, o'. split; [exact Ho|]. split; [eapply fits_of; [exact E2|discriminate..]|].
    rewrite (is_t_ne t2 (TPunc T_Assign) Logic.I) by congruence. rewrite (is_t_refl t2 (TPunc T_Semi) Logic.I E2), orb_true_r. auto.
  - exists t, i1. split; [reflexivity|]. split; [eapply fits_of; [exact Et|discriminate..]|].
    rewrite (is_t_ne t (TPunc T_Assign) Logic.I) by congruence. rewrite (is_t_refl t (TPunc T_Comma) Logic.I Et). auto.
Qed.
Lemma sep_W {A} (E : tokens -> tokens -> A -> Prop) i o l : (forall i o a, E i o a -> W o < W i) -> sep E i o l -> W o < W i.
Proof. intros HE. induction 1; [eauto|]. pose proof (HE _ _ _ H). pose proof (W_eat _ _ _ H0 ltac:(discriminate)). lia. Qed.
Lemma ctail_W {A} (E : tokens -> tokens -> A -> Prop) i o l : (forall i o a, E i o a -> W o < W i) -> ctail E i o l -> W o <= W i.
Proof.
  intros HE [[-> _]|(i1 & Hc & Hs)]; [lia|]. pose proof (sep_W _ _ _ _ HE Hs). pose proof (W_eat _ _ _ Hc ltac:(discriminate)). lia.
Qed.
Lemma r_more_for_head g i i1 i2 o l d d' ds t u c lc (op : loc -> list dtor -> for_head) h N s b : ctail (cDtor (with_in false g)) i i1 ds -> op_ T_Semi i1 i2 ->
  cForRest g i2 o (t, u, c) -> eqd d d' ->
  (forall l' ds', map dtor_untrack ds' = map dtor_untrack (d :: ds) -> for_head_untrack (op l' ds') = for_head_untrack h) ->
  fu 3 i N -> follow o -> 1 <= b -> st b g i s ->
  runs (more_for_head V (R N) lc d' op) s (gives 0 g o (eqs (S_For l (Some h) t u c))).
Proof.
  intros Hd Hs H Hdd Hop Hf Ho Hb S. we. pose proof (ctail_W _ _ _ _ (dtor_W _) Hd) as Hw. unfold more_for_head. destruct Hs as (t1 & -> & E1).
  eapply k_allow_in; [exact S| |].
  { intros s1 S1. eapply (r_more_comma V src HV gl tr md N (with_in false g) (fun i o d => cDtor (with_in false g) i o d /\ next (fits false) o) eqd);
      [| | |exact Hf| |exact Hb|exact S1].
    - intros. eapply r_declarator; eassumption.
    - intros i' o' a [Ha _]. eapply dtor_W, Ha.
    - apply ctail_next; [exact Hd| |].
      + exists t1, i2. split; [reflexivity|]. eapply fits_of; [exact E1|discriminate..].
      + intros t0 E. eapply fits_of; [exact E|discriminate..].
    - exists t1, i2. split; [reflexivity|]. congruence. }
  intros ds' b2 s2 (l2 & -> & Hl) Hb2 S2. eapply k_expect; [exact HV|exact S2|left; exact Hb2|ist|]. intros s3 S3.
  eapply runs_conseq; [eapply H; [unfold fu; lia|exact Ho|exact S3]|]. intros x' s' (Hx & HS). split; [|exact HS].
  eapply for_eqs; [exact Hx|]. apply Hop. cbn. rewrite Hdd. f_equal. exact (Forall2_map_eq dtor_untrack _ _ Hl).
Qed.
Lemma c_for_var g i i1 i2 i3 i4 i5 o l l' ds t u c : kw R_For i i1 -> op_ T_LParen i1 i2 -> kw R_Var i2 i3 ->
  sep (cDtor (with_in false g)) i3 i4 ds -> op_ T_Semi i4 i5 -> cForRest g i5 o (t, u, c) ->
  cS g i o (S_For l (Some (FH_Var l' ds)) t u c).
Proof.
  intros Hk Hl Hv Hd Hs H d N s b Hf Ho S. we. destruct (sep_uncons _ _ _ _ Hd) as (i3' & d0 & ds' & -> & Hd0 & Hds). clear Hd.
  pose proof (ctail_W _ _ _ _ (dtor_W _) Hds) as Hw. pose proof (dtor_W _ _ _ _ Hd0) as Hw0. pose proof (ctail_head _ _ _ _ _ Hds Hs) as (ta & ia & Ea & Hfa & Na & Ca).
  destruct Hv as (t2 & -> & E2).
  eapply r_for; [exact Hk|exact Hl|eapply fits_of; [exact E2|discriminate..]|exact S|]. intros b1 s1 Hb1 S1. unfold forbody. dec_t. unfold for_var.
  eapply k_reread; [exact HV|exact S1|lia|ist|]. intros s2 _ S2.
  destruct Hd0 as [(l0 & x & -> & Hx & _)|(l0 & x & e & j1 & j2 & -> & Hx & Ha & He)].
  - eapply k_pattern; [exact HV|exact Hmode|exact (ex_intro _ x (conj eq_refl (Hx : cName true g _ _ x)) : cPattern g _ _ _)|exact S2|]. intros b3 s3 S3. subst i3'.
    eapply k_peek; [exact HV|exact S3|right; exact Hfa|]. intros s4 S4. rewrite Na, Ca. cbn [dtor_from_init_opt].
    eapply r_more_for_head; [exact Hds|exact Hs|exact H|reflexivity| |unfold fu; lia|exact Ho| |exact S4]; [|lia].
    intros l2 ds2 E. cbn [for_head_untrack]. rewrite E. reflexivity.
  - pose proof (name_W _ _ _ _ _ Hx) as Hw1. pose proof (W_eat _ _ _ Ha ltac:(discriminate)) as Hw2. pose proof (gAssign_W _ _ _ _ _ _ _ _ _ He) as Hw3.
    eapply k_pattern; [exact HV|exact Hmode|exact (ex_intro _ x (conj eq_refl (Hx : cName true g _ _ x)) : cPattern g _ _ _)|exact S2|]. intros b3 s3 S3.
    destruct Ha as (t3 & -> & E3). eapply k_peek; [exact HV|exact S3|fit|]. intros s4 S4. dec_t.
    eapply k_reread; [exact HV|exact S4|lia|ist|]. intros s5 _ S5.
    eapply k_allow_in; [exact S5|intros s6 S6; eapply r_assign_of; [apply He|unfold fu; lia|exact S6]|]. intros e' b6 s6 He' Hb6 S6. subst i3'.
    eapply k_peek; [exact HV|exact S6|left; exact Hb6|]. intros s7 S7. rewrite Ca.
    eapply (r_more_for_head g _ _ _ o l (Dt_Simple l0 x (Some e))); [exact Hds|exact Hs|exact H| | |unfold fu; lia|exact Ho| |exact S7]; [| |lia].
    + unfold eqd, eqx in *. cbn. rewrite He'. reflexivity.
    + intros l2 ds2 E. cbn [for_head_untrack]. rewrite E. reflexivity.
Qed.
Lemma c_for_let g i i1 i2 i3 i4 i5 o l l' ds t u c : kw R_For i i1 -> op_ T_LParen i1 i2 -> eat (TIdent (NAtom A_Let)) i2 i3 ->
  next begins_binding i3 -> sep (cDtor (with_in false g)) i3 i4 ds -> op_ T_Semi i4 i5 -> cForRest g i5 o (t, u, c) ->
  cS g i o (S_For l (Some (FH_Let l' ds)) t u c).
Proof.
  intros Hk Hl Hv Hbb Hd Hs H d N s b Hf Ho S. we. pose proof (W_eat _ _ _ Hv ltac:(discriminate)) as HwL.
  destruct (sep_uncons _ _ _ _ Hd) as (i3' & d0 & ds' & -> & Hd0 & Hds). clear Hd.
  pose proof (ctail_W _ _ _ _ (dtor_W _) Hds) as Hw. pose proof (dtor_W _ _ _ _ Hd0) as Hw0. pose proof (ctail_head _ _ _ _ _ Hds Hs) as (ta & ia & Ea & Hfa & Na & Ca).
  destruct Hv as (t2 & -> & E2).
  eapply r_for; [exact Hk|exact Hl|eapply fits_of; [exact E2|discriminate..]|exact S|]. intros b1 s1 Hb1 S1. unfold forbody. dec_t. unfold for_let.
  eapply k_reread; [exact HV|exact S1|lia|ist|]. intros s2 _ S2. destruct Hbb as (tb & ib & Eb & Hbb). destruct (binding_fits false _ Hbb) as (Hfb & _ & Hbf).
  rewrite Eb in S2. eapply k_peek; [exact HV|exact S2|right; exact Hfb|]. intros s2' S2'. rewrite <- Eb in S2'. rewrite Hbf. cbn [negb].
  destruct Hd0 as [(l0 & x & -> & Hx & _)|(l0 & x & e & j1 & j2 & -> & Hx & Ha & He)].
  - eapply k_pattern; [exact HV|exact Hmode|exact (ex_intro _ x (conj eq_refl (Hx : cName true g _ _ x)) : cPattern g _ _ _)|exact S2'|]. intros b3 s3 S3. subst i3'.
    eapply k_peek; [exact HV|exact S3|right; exact Hfa|]. intros s4 S4. rewrite Na, Ca. cbn [dtor_from_init_opt].
    eapply r_more_for_head; [exact Hds|exact Hs|exact H|reflexivity| |unfold fu; lia|exact Ho| |exact S4]; [|lia].
    intros l2 ds2 E. cbn [for_head_untrack]. rewrite E. reflexivity.
  - pose proof (name_W _ _ _ _ _ Hx) as Hw1. pose proof (W_eat _ _ _ Ha ltac:(discriminate)) as Hw2. pose proof (gAssign_W _ _ _ _ _ _ _ _ _ He) as Hw3.
    eapply k_pattern; [exact HV|exact Hmode|exact (ex_intro _ x (conj eq_refl (Hx : cName true g _ _ x)) : cPattern g _ _ _)|exact S2'|]. intros b3 s3 S3.
    destruct Ha as (t3 & -> & E3). eapply k_peek; [exact HV|exact S3|fit|]. intros s4 S4. dec_t.
    eapply k_reread; [exact HV|exact S4|lia|ist|]. intros s5 _ S5.
    eapply k_allow_in; [exact S5|intros s6 S6; eapply r_assign_of; [apply He|unfold fu; lia|exact S6]|]. intros e' b6 s6 He' Hb6 S6.
    eapply (r_more_for_head g _ _ _ o l (Dt_Simple l0 x (Some e))); [exact Hds|exact Hs|exact H| | |unfold fu; lia|exact Ho| |exact S6]; [| |lia].
    + unfold eqd, eqx in *. cbn. rewrite He'. reflexivity.
    + intros l2 ds2 E. cbn [for_head_untrack]. rewrite E. reflexivity.
Qed.
Lemma pattern_binding g i o p : cPattern g i o p -> exists t, i = t :: o /\ fits false t /\ first_binding t = true.
Proof.
  intros (x & -> & t & n & -> & E & _). exists t. split; [reflexivity|]. split; [eapply fits_of; [exact E|discriminate..]|].
  apply first_binding_iff. right. right. eauto.
Qed.
Lemma c_for_const g i i1 i2 i3 i4 i5 o l l' ds t u c : kw R_For i i1 -> op_ T_LParen i1 i2 -> kw R_Const i2 i3 ->
  sep (cCdtor (with_in false g)) i3 i4 ds -> op_ T_Semi i4 i5 -> cForRest g i5 o (t, u, c) ->
  cS g i o (S_For l (Some (FH_Const l' ds)) t u c).
Proof.
  intros Hk Hl Hv Hd Hs H d N s b Hf Ho S. we. destruct (sep_uncons _ _ _ _ Hd) as (i3' & d0 & ds' & -> & Hd0 & Hds). clear Hd.
  pose proof (ctail_W _ _ _ _ (cdtor_W _) Hds) as Hw. pose proof (cdtor_W _ _ _ _ Hd0) as Hw0.
  destruct Hd0 as (l0 & p & e & j1 & j2 & -> & Hp & Ha & He).
  pose proof (pattern_W _ _ _ _ Hp) as Hw1. pose proof (W_eat _ _ _ Ha ltac:(discriminate)) as Hw2. pose proof (gAssign_W _ _ _ _ _ _ _ _ _ He) as Hw3.
  destruct Hv as (t2 & -> & E2).
  eapply r_for; [exact Hk|exact Hl|eapply fits_of; [exact E2|discriminate..]|exact S|]. intros b1 s1 Hb1 S1. unfold forbody. dec_t. unfold for_const.
  eapply k_reread; [exact HV|exact S1|lia|ist|]. intros s2 _ S2. destruct (pattern_binding _ _ _ _ Hp) as (tb & -> & Hfb & Hbf).
  eapply k_peek; [exact HV|exact S2|right; exact Hfb|]. intros s2' S2'. rewrite Hbf. cbn [negb].
  eapply k_pattern; [exact HV|exact Hmode|exact (Hp : cPattern g _ _ _)|exact S2'|]. intros b3 s3 S3.
  destruct Ha as (t3 & -> & E3). eapply k_peek; [exact HV|exact S3|fit|]. intros s4 S4. dec_t.
  eapply k_reread; [exact HV|exact S4|lia|ist|]. intros s5 _ S5. destruct Hs as (ts & -> & Es).
  eapply (@k_allow_in V src gl tr md _ _ false _ _ 1 g j2 (ts :: i5) (fun ds2 => map const_dtor_untrack ds2 = map const_dtor_untrack (CDt l0 p e :: ds')));
    [exact S5| |].
  { intros s6 S6. eapply k_call; [eapply r_assign_of; [apply He|unfold fu; lia|exact S6]|]. intros e' b7 s7 He' Hb7 S7.
    eapply runs_conseq.
    - eapply (r_more_comma V src HV gl tr md N (with_in false g) (cCdtor (with_in false g)) eqc); [| |exact Hds| | |exact Hb7|exact S7].
      + intros. eapply r_const_declarator; eassumption.
      + apply cdtor_W.
      + unfold fu. lia.
      + exists ts, i5. split; [reflexivity|]. congruence.
    - intros ds2 s' ((l2 & -> & Hl2) & HS). split; [|exact HS]. cbn [map]. rewrite (Forall2_map_eq const_dtor_untrack _ _ Hl2).
      unfold eqx in He'. cbn. rewrite He'. reflexivity. }
  intros ds2 b8 s8 Hds2 Hb8 S8. eapply k_expect; [exact HV|exact S8|left; exact Hb8|ist|]. intros s9 S9.
  eapply runs_conseq; [eapply H; [unfold fu; lia|exact Ho|exact S9]|]. intros x' s' (Hx & HS). split; [|exact HS].
  eapply for_eqs; [exact Hx|]. cbn [for_head_untrack]. rewrite Hds2. reflexivity.
Qed.
Lemma c_for_in_init g i i1 i2 i3 i4 i5 i6 i7 i8 i9 o l l' x e0 e c : kw R_For i i1 -> op_ T_LParen i1 i2 -> kw R_Var i2 i3 ->
  cName true g i3 i4 x -> op_ T_Assign i4 i5 -> gAssign (with_in false g) i5 i6 e0 -> kw R_In i6 i7 ->
  gAssign (with_in true g) i7 i8 e -> op_ T_RParen i8 i9 -> cS (in_loop g) i9 o c -> cS g i o (S_ForIn l (FI_VarInit l' x e0) e c).
Proof.
  intros Hk Hl Hv Hx Ha He0 Hin He Hr Hc d N s b Hf Ho S. we. pose proof (name_W _ _ _ _ _ Hx) as Hw1. destruct Hv as (t2 & -> & E2).
  eapply r_for; [exact Hk|exact Hl|eapply fits_of; [exact E2|discriminate..]|exact S|]. intros b1 s1 Hb1 S1. unfold forbody. dec_t. unfold for_var.
  eapply k_reread; [exact HV|exact S1|lia|ist|]. intros s2 _ S2.
  eapply k_pattern; [exact HV|exact Hmode|exact (ex_intro _ x (conj eq_refl (Hx : cName true g _ _ x)) : cPattern g _ _ _)|exact S2|]. intros b3 s3 S3.
  destruct Ha as (t3 & -> & E3). eapply k_peek; [exact HV|exact S3|fit|]. intros s4 S4. dec_t.
  eapply k_reread; [exact HV|exact S4|lia|ist|]. intros s5 _ S5.
  eapply k_allow_in; [exact S5|intros s6 S6; eapply r_assign_of; [apply He0|unfold fu; lia|exact S6]|]. intros e' b6 s6 He' Hb6 S6.
  destruct Hin as (t6 & -> & E6). eapply k_peek; [exact HV|exact S6|left; exact Hb6|]. intros s7 S7. dec_t. cbn [orb].
  eapply k_reread; [exact HV|exact S7|lia|ist|]. intros s8 _ S8.
  eapply runs_conseq; [eapply r_more_for_in; [exact He|exact Hr|exact Hc|unfold fu; lia|exact Ho|exact S8]|].
  intros x' s'. apply end_in. unfold eqx in He'. cbn [for_in_head_untrack]. rewrite He'. reflexivity.
Qed.
Lemma c_for_in_var g i i1 i2 i3 i4 i5 i6 i7 o l h d0 e c p : kw R_For i i1 -> op_ T_LParen i1 i2 ->
  eat d0 i2 i3 -> cPattern g i3 i4 p -> kw R_In i4 i5 -> gAssign (with_in true g) i5 i6 e -> op_ T_RParen i6 i7 -> cS (in_loop g) i7 o c ->
  (exists l', (d0 = TReserved R_Var /\ h = FI_Var l' p) \/ (d0 = TIdent (NAtom A_Let) /\ h = FI_Let l' p)
              \/ (d0 = TReserved R_Const /\ h = FI_Const l' p)) -> cS g i o (S_ForIn l h e c).
Proof.
  intros Hk Hl Hv Hp Hin He Hr Hc Hh d N s b Hf Ho S. we. pose proof (pattern_W _ _ _ _ Hp) as Hw1. 
  assert (Hw2 : W i2 = Datatypes.S (W i3)) by (apply (W_eat _ _ _ Hv); destruct Hh as (l' & [[-> _]|[[-> _]|[-> _]]]); discriminate).
  destruct Hv as (t2 & -> & E2). pose proof (pattern_binding _ _ _ _ Hp) as (tb & -> & Hfb & Hbf).
  eapply r_for; [exact Hk|exact Hl| |exact S|].
  { eapply fits_of; [exact E2|destruct Hh as (l' & [[-> _]|[[-> _]|[-> _]]]); discriminate..]. }
  intros b1 s1 Hb1 S1. unfold forbody. destruct Hin as (t4 & -> & E4).
  destruct Hh as (l' & [[-> ->]|[[-> ->]|[-> ->]]]); dec_t.
  - unfold for_var. eapply k_reread; [exact HV|exact S1|lia|ist|]. intros s2 _ S2.
    eapply k_pattern; [exact HV|exact Hmode|exact Hp|exact S2|]. intros b3 s3 S3.
    eapply k_peek; [exact HV|exact S3|fit|]. intros s4 S4. dec_t. cbn [orb].
    eapply k_reread; [exact HV|exact S4|lia|ist|]. intros s5 _ S5.
    eapply runs_conseq; [eapply r_more_for_in; [exact He|exact Hr|exact Hc|unfold fu; lia|exact Ho|exact S5]|].
    intros x' s'. apply end_in. reflexivity.
  - unfold for_let. eapply k_reread; [exact HV|exact S1|lia|ist|]. intros s2 _ S2.
    eapply k_peek; [exact HV|exact S2|right; exact Hfb|]. intros s2' S2'. rewrite Hbf. cbn [negb].
    eapply k_pattern; [exact HV|exact Hmode|exact Hp|exact S2'|]. intros b3 s3 S3.
    eapply k_peek; [exact HV|exact S3|fit|]. intros s4 S4. dec_t. cbn [orb].
    eapply k_reread; [exact HV|exact S4|lia|ist|]. intros s5 _ S5.
    eapply runs_conseq; [eapply r_more_for_in; [exact He|exact Hr|exact Hc|unfold fu; lia|exact Ho|exact S5]|].
    intros x' s'. apply end_in. reflexivity.
  - unfold for_const. eapply k_reread; [exact HV|exact S1|lia|ist|]. intros s2 _ S2.
    eapply k_peek; [exact HV|exact S2|right; exact Hfb|]. intros s2' S2'. rewrite Hbf. cbn [negb].
    eapply k_pattern; [exact HV|exact Hmode|exact Hp|exact S2'|]. intros b3 s3 S3.
    eapply k_peek; [exact HV|exact S3|fit|]. intros s4 S4. dec_t. cbn [orb].
    eapply k_reread; [exact HV|exact S4|lia|ist|]. intros s5 _ S5.
    eapply runs_conseq; [eapply r_more_for_in; [exact He|exact Hr|exact Hc|unfold fu; lia|exact Ho|exact S5]|].
    intros x' s'. apply end_in. reflexivity.
Qed.
Lemma c_for_of_var g i i1 i2 i3 i4 i5 i6 i7 o l h d0 e c p : kw R_For i i1 -> op_ T_LParen i1 i2 ->
  eat d0 i2 i3 -> cPattern g i3 i4 p -> eat (TIdent (NAtom A_Of)) i4 i5 -> gAssign (with_in true g) i5 i6 e -> op_ T_RParen i6 i7 -> cS (in_loop g) i7 o c ->
  (exists l', (d0 = TReserved R_Var /\ h = FO_Var l' p) \/ (d0 = TIdent (NAtom A_Let) /\ h = FO_Let l' p)
              \/ (d0 = TReserved R_Const /\ h = FO_Const l' p)) -> cS g i o (S_ForOf l h e c).
Proof.
  intros Hk Hl Hv Hp Hin He Hr Hc Hh d N s b Hf Ho S. we. pose proof (pattern_W _ _ _ _ Hp) as Hw1. pose proof (W_eat _ _ _ Hin ltac:(discriminate)).
  assert (Hw2 : W i2 = Datatypes.S (W i3)) by (apply (W_eat _ _ _ Hv); destruct Hh as (l' & [[-> _]|[[-> _]|[-> _]]]); discriminate).
  destruct Hv as (t2 & -> & E2). pose proof (pattern_binding _ _ _ _ Hp) as (tb & -> & Hfb & Hbf).
  eapply r_for; [exact Hk|exact Hl| |exact S|].
  { eapply fits_of; [exact E2|destruct Hh as (l' & [[-> _]|[[-> _]|[-> _]]]); discriminate..]. }
  intros b1 s1 Hb1 S1. unfold forbody. destruct Hin as (t4 & -> & E4).
  destruct Hh as (l' & [[-> ->]|[[-> ->]|[-> ->]]]); dec_t.
  - unfold for_var. eapply k_reread; [exact HV|exact S1|lia|ist|]. intros s2 _ S2.
    eapply k_pattern; [exact HV|exact Hmode|exact Hp|exact S2|]. intros b3 s3 S3.
    eapply k_peek; [exact HV|exact S3|fit|]. intros s4 S4. dec_t. cbn [orb].
    eapply k_reread; [exact HV|exact S4|lia|ist|]. intros s5 _ S5.
    eapply runs_conseq; [eapply r_more_for_of; [exact He|exact Hr|exact Hc|unfold fu; lia|exact Ho|exact S5]|].
    intros x' s'. apply end_of. reflexivity.
  - unfold for_let. eapply k_reread; [exact HV|exact S1|lia|ist|]. intros s2 _ S2.
    eapply k_peek; [exact HV|exact S2|right; exact Hfb|]. intros s2' S2'. rewrite Hbf. cbn [negb].
    eapply k_pattern; [exact HV|exact Hmode|exact Hp|exact S2'|]. intros b3 s3 S3.
    eapply k_peek; [exact HV|exact S3|fit|]. intros s4 S4. dec_t. cbn [orb].
    eapply k_reread; [exact HV|exact S4|lia|ist|]. intros s5 _ S5.
    eapply runs_conseq; [eapply r_more_for_of; [exact He|exact Hr|exact Hc|unfold fu; lia|exact Ho|exact S5]|].
    intros x' s'. apply end_of. reflexivity.
  - unfold for_const. eapply k_reread; [exact HV|exact S1|lia|ist|]. intros s2 _ S2.
    eapply k_peek; [exact HV|exact S2|right; exact Hfb|]. intros s2' S2'. rewrite Hbf. cbn [negb].
    eapply k_pattern; [exact HV|exact Hmode|exact Hp|exact S2'|]. intros b3 s3 S3.
    eapply k_peek; [exact HV|exact S3|fit|]. intros s4 S4. dec_t. cbn [orb].
    eapply k_reread; [exact HV|exact S4|lia|ist|]. intros s5 _ S5.
    eapply runs_conseq; [eapply r_more_for_of; [exact He|exact Hr|exact Hc|unfold fu; lia|exact Ho|exact S5]|].
    intros x' s'. apply end_of. reflexivity.
Qed.

(** ** Items *)

Lemma c_item_stmt g d i o x : cS g i o x -> cItem d g i o (I_Stmt x).
Proof.
  intros H N s b Hf Ho S. eapply runs_conseq; [eapply H; eassumption|]. intros a s' ((x' & -> & Hx) & HS). split; [|exact HS].
  unfold eqs in Hx. cbn. rewrite Hx. reflexivity.
Qed.
Lemma c_item_decl g i o x : cDecl g i o x -> cItem true g i o (I_Decl x).
Proof.
  intros H N s b Hf Ho S. eapply runs_conseq; [eapply H; eassumption|]. intros a s' ((x' & -> & Hx) & HS). split; [|exact HS].
  cbn. rewrite Hx. reflexivity.
Qed.
End Claims.
