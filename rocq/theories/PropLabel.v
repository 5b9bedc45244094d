(** Repeated labels (C62, C37): behind a nested statement with the same label, a label
    is forgotten. *)
From Coq Require Import String Ascii List NArith Arith Bool Lia.
From Verif Require Import Base Chars F64 Word Token Reader Lexer Punc Ast Track Cover Stack Node PState Parser Api Wp
  SpecReader SpecLexer SpecStack SpecTree StackProofs CoverProofs LexClient SpecClient SpecGrammar SpecParser SpecPlace SpecEntry
  ReaderProofs LexWp LexTheorems ParserWp ParserOps ParserStmt ParserTop GrammarProps CompBase CompTok CompExpr CompFun CompStmt
  CompTop CompEntry SpecExact ExactProofs PropLayout PropParser PortProofs Refuse PropPorts.
Import ListNotations.
Local Open Scope nat_scope.

(** ** Specification *)

(** The tokens [n: { n: c break n], with any statement [c] that has no label of its own;
    [x] is the last [n]. *)
Definition repeats (m : mode) (ts : tokens) (c : stmt) (x : id) : Prop :=
  exists i1 i2 i3 i4 i5 i6 t r n, eat (TIdent n) ts i1 /\ op_ T_Colon i1 i2 /\ op_ T_LBrace i2 i3
    /\ eat (TIdent n) i3 i4 /\ op_ T_Colon i4 i5 /\ name_ok m false n
    /\ G (in_label n (is_loop c) (top m)) Statement i5 i6 c /\ (forall l y z, c <> S_Label l y z)
    /\ kw R_Break i6 (t :: r) /\ tk_value t = TIdent n /\ tk_newline t = false /\ x = Id (Some (tk_loc t)) n.

(** In the text, they stand behind directives and items; apart from [n], nested labels
    differ, and slashes cannot be misread, as in C72. *)
Definition label_repeated (V : env) (src : str) (m : mode) (x : id) : Prop :=
  exists ts rest k ds is c, reads V src (ts ++ rest) k /\ calm (ts ++ rest)
    /\ labels_differ (N_body (Body None ds is)) /\ labels_differ (N_stmt (S_Label None x c))
    /\ top_level m ds is (ts ++ rest) rest /\ repeats m rest c x.

(** ** Proof *)

Section Label.
Context (V : env) (src : str) (HV : ucd_ok V).
Context (gl : goal) (tri_ : tri) (md : mode).
Context (Hmode : (md = Sloppy -> tri_ <> Yes /\ gl <> G_Module) /\ (md = Strict -> gl <> G_Module)).
Local Notation st := (st V src gl tri_ md).
Local Notation R := (parse_rec V).
Local Notation ltail := (ltail V).
Local Notation labody := (labody V).

(** The inner statement: its label takes the place of the outer one and is removed. *)
Lemma relabel g k0 i o c N f s b lc n : pl_labels g = [] -> GX true (in_label n (is_loop c) g) Statement i o c ->
  (forall l y z, c <> S_Label l y z) -> fu 4 i N -> W i < f -> follow o -> st b (in_label n k0 g) i s ->
  runs (ltail N f [Id lc n]) s (gives V src gl tri_ md 0 g o (fun _ => True)).
Proof.
  intros Hg D Hx Hf Hw Ho S. pose proof (found V src HV gl tri_ md Hmode _ _ _ _ _ _ D) as [H _].
  assert (Hh : head_ok i c). { eapply stmt_head; [exact D|]. revert Ho. apply next_imp. intros t (_ & Hc & _). exact Hc. }
  assert (Hh' : exists t i', i = t :: i' /\ token_label_type t = ltype (is_loop c)
    /\ (forall n, tk_value t = TIdent n -> next (fun t' => ~ regexp t' /\ tk_value t' <> TPunc T_Colon) i')).
  { destruct c; try exact Hh. exfalso. eapply Hx. reflexivity. }
  clear Hh. destruct Hh' as (t & i' & -> & Ht & Hi). destruct (G_first _ _ _ _ _ _ _ D) as (t0 & i0 & E0 & Hft). cbn beta in Hft.
  assert (t0 = t) by congruence. subst t0. clear i0 E0.
  unfold CompStmt.ltail. apply runs_loop_bind; [lia|]. intros f' ->. unfold CompStmt.labody at 1. apply runs_assoc.
  eapply k_peek; [exact HV|exact S|right; exact (fits_first item_first t Hft eq_refl eq_refl)|]. intros s1 S1.
  pose proof (st_le _ _ _ _ _ _ _ _ _ S) as Hle.
  assert (En_ : name_eqb n n = true) by (apply name_eqb_iff; reflexivity).
  assert (HK : forall b' s', 1 <= b' -> st b' (in_label n k0 g) (t :: i') s' ->
    runs (bind (p_peek V) (fun t => with_labels [Id lc n] (token_label_type t) (statement (R N)))) s' (gives V src gl tri_ md 0 g o (fun _ => True))).
  { intros b' s' Hb' S'. eapply k_peek; [exact HV|exact S'|left; exact Hb'|]. intros s2 S2. rewrite Ht. unfold with_labels.
    unfold modify_context at 1. apply runs_modify. pose proof (st_ctx _ _ _ _ _ _ _ _ _ S2) as Hc.
    assert (S3 : st (Nat.max 1 b') (in_label n (is_loop c) g) (t :: i')
      (set_context (set_labels (insert_labels [Id lc n] (ltype (is_loop c)) (cx_labels (p_context s2))) (p_context s2)) s2)).
    { eapply st_set; [exact S2|reflexivity|]. rewrite Hc. unfold ctx, set_labels, insert_labels, labels_insert, labels_remove. cbn.
      rewrite Hg. cbn. rewrite En_. cbn. unfold lt. destruct (is_loop c); reflexivity. }
    eapply k_call; [eapply r_statement; [exact H|exact Hf|exact Ho|exact S3]|]. intros x' b4 s4 Hx' _ S4.
    unfold modify_context. apply runs_modify. apply runs_ret. split; [exact Logic.I|].
    exists b4. split; [lia|]. eapply st_set; [exact S4|reflexivity|]. rewrite (st_ctx _ _ _ _ _ _ _ _ _ S4).
    unfold ctx, set_labels, remove_labels, labels_remove. cbn. rewrite Hg. cbn. rewrite En_. reflexivity. }
  destruct (as_ident t) as [n'|] eqn:En.
  - assert (Et : tk_value t = TIdent n') by (unfold as_ident in En; destruct (tk_value t); try discriminate En; congruence).
    apply runs_assoc. eapply k_reread_token; [exact HV|exact S1|lia|]. intros s2 Hlx S2. destruct (Hi n' Et) as (t2 & i2 & -> & Hr & Hc).
    apply runs_assoc. eapply k_matches_op_no; [exact HV|exact S2|right; exact Hr|exact (is_t_ne t2 (TPunc T_Colon) Logic.I Hc)|].
    intros s3 S3. apply runs_assoc. eapply k_unread; [exact S3|lia|exact Hlx|]. intros s4 S4. apply runs_ret_bind.
    eapply HK; [|exact S4]. lia.
  - apply runs_ret_bind. eapply HK; [|exact S1]. lia.
Qed.

(** A statement that starts with a label, up to what follows the colon. *)
Lemma at_label g i i1 i2 n N d s b Q : eat (TIdent n) i i1 -> op_ T_Colon i1 i2 -> name_ok (pl_mode g) false n -> st b g i s ->
  (forall lc b' s', st b' g i2 s' -> runs (bind (ltail N (r_fuel (R N)) [Id lc n]) (fun x => ret (I_Stmt x))) s' Q) ->
  runs (stmt_list_item V (R N) d) s Q.
Proof.
  intros (t & -> & E) (t2 & -> & E2) Hn S HK. pose proof (st_le _ _ _ _ _ _ _ _ _ S) as Hle.
  unfold stmt_list_item. eapply k_peek; [exact HV|exact S|fit|]. intros s0 S0.
  repeat match goal with |- context [is_t t ?d] => rewrite (is_t_ne t d Logic.I) by (rewrite E; discriminate) end.
  unfold as_ident. rewrite E. unfold ident_item.
  eapply k_reread_token; [exact HV|exact S0|lia|]. intros s1 _ S1.
  eapply k_peek_op; [exact HV|exact S1|right; eapply fits_of; [exact E2|discriminate..]|]. intros s2 S2.
  rewrite (is_t_refl t2 (TPunc T_Colon) Logic.I E2). eapply (k_new_token V src gl tri_ md Hmode); [exact E|exact Hn|exact S2|]. intros s3 S3.
  rewrite labelled_eq. apply runs_assoc. eapply k_reread; [exact HV|exact S3|lia|ist|]. intros s4 _ S4. eapply HK, S4.
Qed.
Lemma at_label_refused g i i1 i2 n N d s b x : eat (TIdent n) i i1 -> op_ T_Colon i1 i2 -> name_ok (pl_mode g) false n -> st b g i s ->
  (forall lc b' s', st b' g i2 s' -> refused x (ltail N (r_fuel (R N)) [Id lc n]) s') ->
  refused x (stmt_list_item V (R N) d) s.
Proof.
  intros (t & -> & E) (t2 & -> & E2) Hn S HK. pose proof (st_le _ _ _ _ _ _ _ _ _ S) as Hle.
  unfold stmt_list_item. apply step. eapply k_peek; [exact HV|exact S|fit|]. intros s0 S0. apply leaf.
  repeat match goal with |- context [is_t t ?d] => rewrite (is_t_ne t d Logic.I) by (rewrite E; discriminate) end.
  unfold as_ident. rewrite E. unfold ident_item. apply step.
  eapply k_reread_token; [exact HV|exact S0|lia|]. intros s1 _ S1. apply leaf, step.
  eapply k_peek_op; [exact HV|exact S1|right; eapply fits_of; [exact E2|discriminate..]|]. intros s2 S2. apply leaf.
  rewrite (is_t_refl t2 (TPunc T_Colon) Logic.I E2). apply step. eapply (k_new_token V src gl tri_ md Hmode); [exact E|exact Hn|exact S2|]. intros s3 S3.
  apply leaf, first_. rewrite labelled_eq. apply step. eapply k_reread; [exact HV|exact S3|lia|ist|]. intros s4 _ S4. apply leaf. eapply HK, S4.
Qed.

(** [break n], where no label is known. *)
Lemma refuse_break g i t r n N s b : pl_labels g = [] -> kw R_Break i (t :: r) -> tk_value t = TIdent n -> tk_newline t = false ->
  name_ok (pl_mode g) false n -> st b g i s -> refused (InvalidLabel (Id (Some (tk_loc t)) n)) (stmt_list_item V (R N) true) s.
Proof.
  intros Hg (t0 & -> & E0) Et Hnl Hn S. unfold stmt_list_item. apply step. eapply k_peek; [exact HV|exact S|fit|]. intros s1 S1. dec_t.
  apply leaf, first_. unfold break_statement. apply step. apply runs_posn. intros p. apply leaf, step.
  eapply k_reread; [exact HV|exact S1|lia|ist|]. intros s2 _ S2. apply leaf, step.
  eapply (k_has_arg V src HV gl tri_ md Hmode true); [| |exact S2|].
  - exists t, r. split; [reflexivity|]. unfold no_arg. rewrite Hnl, Et. intros [K|[K|K]]; discriminate K.
  - exists t, r. split; [reflexivity|]. eapply fits_of; [exact Et|discriminate..].
  - intros b3 s3 Hb3 S3. apply leaf, first_. apply step.
    eapply k_id with (x := Id (Some (tk_loc t)) n); [exact HV|exact Hmode| |exact S3|].
    + exists t, n. split; [reflexivity|]. split; [exact Et|]. split; [exact Hn|reflexivity].
    + intros b4 s4 S4. apply leaf, step. unfold get_context. apply runs_gets. rewrite (st_ctx _ _ _ _ _ _ _ _ _ S4). unfold ctx. cbn [cx_labels].
      rewrite Hg. apply leaf. reflexivity.
Qed.

Lemma refuse_label g i i1 i2 i3 i4 i5 i6 c t r n N s b : pl_labels g = [] ->
  eat (TIdent n) i i1 -> op_ T_Colon i1 i2 -> op_ T_LBrace i2 i3 -> eat (TIdent n) i3 i4 -> op_ T_Colon i4 i5 ->
  name_ok (pl_mode g) false n -> GX true (in_label n (is_loop c) g) Statement i5 i6 c -> (forall l y z, c <> S_Label l y z) ->
  kw R_Break i6 (t :: r) -> tk_value t = TIdent n -> tk_newline t = false -> fu 4 i N -> st b g i s ->
  refused (InvalidLabel (Id (Some (tk_loc t)) n)) (r_item (R N) true) s.
Proof.
  intros Hg H1 H2 H3 H4 H5 Hn D Hc Hk Et Hnl Hf S.
  pose proof (W_eat _ _ _ H1 ltac:(discriminate)) as W1. pose proof (W_eat _ _ _ H2 ltac:(discriminate)) as W2.
  pose proof (W_eat _ _ _ H3 ltac:(discriminate)) as W3. pose proof (W_eat _ _ _ H4 ltac:(discriminate)) as W4.
  pose proof (W_eat _ _ _ H5 ltac:(discriminate)) as W5. pose proof (G_W _ _ _ _ _ _ _ D) as W6. unfold solid in W6. cbn [fst_ok] in W6.
  unfold fu in Hf. destruct N as [|N]; [lia|]. rewrite R_item.
  eapply at_label_refused; [exact H1|exact H2|exact Hn|exact S|]. intros lc b1 s1 S1.
  destruct H3 as (t3 & -> & E3). unfold CompStmt.ltail. apply step.
  apply runs_loop_bind; [pose proof (R_fuel V N) as Ef; unfold CompExpr.R in Ef; rewrite Ef; lia|]. intros f' _. unfold CompStmt.labody at 1. apply runs_assoc.
  eapply k_peek; [exact HV|exact S1|fit|]. intros s2 S2. unfold as_ident. rewrite E3. apply runs_ret_bind. apply leaf, step.
  eapply k_peek; [exact HV|exact S2|left; lia|]. intros s3 S3. apply leaf.
  replace (token_label_type t3) with LT_Statement by (unfold token_label_type; rewrite E3; reflexivity).
  unfold with_labels. apply step. unfold modify_context at 1. apply runs_modify. apply leaf, first_.
  set (s4 := set_context _ _).
  assert (S4 : st (Nat.max 1 (Nat.max 1 b1)) (in_label n false g) (t3 :: i3) s4).
  { subst s4. eapply st_set; [exact S3|reflexivity|]. rewrite (st_ctx _ _ _ _ _ _ _ _ _ S3).
    unfold ctx, set_labels, insert_labels, labels_insert, labels_remove. cbn. rewrite Hg. reflexivity. }
  clearbody s4. unfold statement. apply first_. destruct N as [|N]; [lia|]. change (r_item (CompExpr.R V (Datatypes.S N))) with (stmt_list_item V (R N)).
  unfold stmt_list_item. apply step. eapply k_peek; [exact HV|exact S4|fit|]. intros s5 S5. dec_t. apply leaf, first_.
  unfold block_. apply span_, step. eapply k_expect; [exact HV|exact S5|left; lia|ist|]. intros s6 S6. apply leaf, first_.
  assert (Ho : follow i6).
  { destruct Hk as (t6 & -> & E6). exists t6, (t :: r). split; [reflexivity|]. apply item_start_follow. left. rewrite E6. reflexivity. }
  unfold statement_list. destruct N as [|N]; [lia|]. change (r_fuel (R (Datatypes.S N))) with N. destruct N as [|N]; [lia|]. cbn [loopM].
  pose proof H4 as (t4 & Ei3 & E4). rewrite Ei3 in S6. apply assoc_, step.
  eapply k_peek; [exact HV|exact S6|fit|]. intros s7 S7. apply leaf. rewrite <- Ei3 in S7.
  rewrite (not_ends_list t4) by (rewrite E4; reflexivity). apply assoc_, step.
  eapply (k_call V src gl tri_ md) with (n := 0) (g := g) (o := i6) (P := fun _ => True).
  { change (r_item (R (Datatypes.S (Datatypes.S N)))) with (stmt_list_item V (R (Datatypes.S N))). eapply (at_label (in_label n false g)); [exact H4|exact H5|exact Hn|exact S7|]. intros lc' b' s' S'.
    eapply k_call; [eapply relabel; [exact Hg|exact D|exact Hc|unfold fu; lia| |exact Ho|exact S']|].
    - pose proof (R_fuel V (Datatypes.S N)) as Ef. unfold CompExpr.R in Ef. rewrite Ef. cbn. lia.
    - intros a b'' s'' _ Hb'' S''. apply runs_ret. split; [exact Logic.I|]. exists b''. split; [lia|exact S'']. }
  intros a b8 s8 _ _ S8. apply leaf. apply step, runs_ret_bind, leaf. destruct N as [|N]; [lia|]. cbn [loopM].
  pose proof Hk as (t6 & Ei6 & E6). rewrite Ei6 in S8. apply assoc_, step.
  eapply k_peek; [exact HV|exact S8|fit|]. intros s9 S9. apply leaf. rewrite <- Ei6 in S9.
  rewrite (not_ends_list t6) by (rewrite E6; reflexivity). apply assoc_, first_. change (r_item (R (Datatypes.S (Datatypes.S (Datatypes.S N))))) with (stmt_list_item V (R (Datatypes.S (Datatypes.S N)))).
  eapply refuse_break; [exact Hg|exact Hk|exact Et|exact Hnl|exact Hn|exact S9].
Qed.
End Label.

(** ** The property *)

(** C62, C37: such a text is refused by all entry points: the last [break] is said to
    have no label, although a statement with that label is around it. *)
Theorem C62_outer_label_forgotten : forall V src x, ucd_ok V ->
  (label_repeated V src Sloppy x -> script_of V src = Err (InvalidLabel x) /\ program_of V src = Err (InvalidLabel x))
  /\ (label_repeated V src Strict x -> strict_of V src = Err (InvalidLabel x))
  /\ (label_repeated V src Module_ x -> module_of V src = Err (InvalidLabel x)).
Proof.
  intros V src x HV.
  assert (K : forall m, label_repeated V src m x ->
    (m = Sloppy -> script_of V src = Err (InvalidLabel x) /\ program_of V src = Err (InvalidLabel x))
    /\ (m = Strict -> strict_of V src = Err (InvalidLabel x)) /\ (m = Module_ -> module_of V src = Err (InvalidLabel x))).
  { intros m (ts & rest & k & ds & is & c & Hr & Hc & Hl & Hlc & Htop & i1 & i2 & i3 & i4 & i5 & i6 & t & r & n &
      H1 & H2 & H3 & H4 & H5 & Hn & D & Hcl & Hk & Et & Hnl & ->).
    assert (C5 : calm i5).
    { repeat match goal with
             | H : eat _ _ i5 |- _ => eapply calm_suffix; [|exact (suffix_eat _ _ _ H)]
             | H : op_ _ _ i5 |- _ => eapply calm_suffix; [|exact (suffix_eat _ _ _ H)] end.
      eapply calm_suffix; [|exact (suffix_eat _ _ _ H4)]. eapply calm_suffix; [|exact (suffix_eat _ _ _ H3)].
      eapply calm_suffix; [|exact (suffix_eat _ _ _ H2)]. eapply calm_suffix; [|exact (suffix_eat _ _ _ H1)].
      eapply calm_suffix; [exact Hc|]. exists ts. reflexivity. }
    assert (D' : GX true (in_label n (is_loop c) (top m)) Statement i5 i6 c).
    { apply sure_of; [exact D|exact C5|]. assert (Q : L nothing (N_stmt (S_Label None (Id (Some (tk_loc t)) n) c))) by (constructor; exact Hlc).
      apply L_children in Q. cbn in Q. inversion Q as [|? ? _ Q2]; subst. inversion Q2 as [|? ? Q3 _]; subst. exact Q3. }
    eapply refuse_entries; [exact HV|exact Hr|exact Hc|exact Hl|exact Htop| |].
    - destruct H1 as (t1 & -> & E1). destruct H2 as (t2 & -> & _). exists t1, t2, i2. split; [reflexivity|]. rewrite E1. reflexivity.
    - intros gl tr Hm N s b Hf S.
      eapply (refuse_label V src HV gl tr m Hm (top m)); [reflexivity|exact H1|exact H2|exact H3|exact H4|exact H5|exact Hn|exact D'|exact Hcl|exact Hk|exact Et|exact Hnl|exact Hf|exact S]. }
  split; [|split]; intros H; apply K in H as (A1 & A2 & A3); auto.
Qed.
Print Assumptions C62_outer_label_forgotten.

(** [; a: { a: ; break a; }] is such a text in each mode. *)
Example C62_example : exists x, id_name x = NString (lit "a")
  /\ label_repeated env_ascii (lit "; a: { a: ; break a; }") Sloppy x
  /\ label_repeated env_ascii (lit "; a: { a: ; break a; }") Strict x
  /\ label_repeated env_ascii (lit "; a: { a: ; break a; }") Module_ x.
Proof.
  destruct (read_reads env_ascii (lit "; a: { a: ; break a; }") (repeat false 12) _ _ ucd_ok_ascii ltac:(vm_compute; reflexivity)) as (k & Hr).
  match type of Hr with reads _ _ (?t0 :: ?r) _ =>
    assert (K : forall m, label_repeated env_ascii (lit "; a: { a: ; break a; }") m (Id (Some (tk_loc (nth 7 r t0))) (NString (lit "a"))));
    [intros m; exists [t0], r, k, [], [I_Stmt (S_Empty (Some (tk_loc t0)))], (S_Empty None)
    |exists (Id (Some (tk_loc (nth 7 r t0))) (NString (lit "a"))); split; [reflexivity|]; split; [apply K|split; apply K]] end.
  split; [exact Hr|]. split; [eapply no_slash_calm; [exact Hr|cbn; intuition discriminate]|].
  split; [|split; [|split]].
  - assert (Q : L nothing (N_body (Body None [] [I_Stmt (S_Empty None)]))).
    { repeat (apply L_intro; [exact Logic.I|cbn; repeat first [apply Forall_nil|apply Forall_cons]]). }
    eapply labels_untrack; [|destruct Q as [Q]; exact Q]. reflexivity.
  - match goal with |- labels_differ ?n => assert (Q : L nothing n) end.
    { apply L_intro; [intros []|]. cbn. repeat first [apply Forall_nil|apply Forall_cons];
        repeat (apply L_intro; [exact Logic.I|cbn; repeat first [apply Forall_nil|apply Forall_cons]]). }
    destruct Q as [Q]. exact Q.
  - eexists. split; [apply g_dirs_nil|]. split.
    + intros t t' r s E Kt. injection E as <- _ _. discriminate Kt.
    + eexists. split; [|reflexivity]. apply g_item_stmt, g_empty. eexists. split; reflexivity.
  - eexists _, _, _, _, _, _, _, _, _.
    split; [eexists; split; reflexivity|]. split; [eexists; split; reflexivity|]. split; [eexists; split; reflexivity|].
    split; [eexists; split; reflexivity|]. split; [eexists; split; reflexivity|].
    split; [right; split; [|split]; intros Q; cbn in Q; try (decompose sum Q; discriminate); discriminate|].
    split; [apply g_empty; eexists; split; reflexivity|]. split; [intros; discriminate|].
    split; [eexists; split; reflexivity|]. split; [reflexivity|]. split; reflexivity.
Qed.
