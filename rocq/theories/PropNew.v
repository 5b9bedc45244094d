(** Nested [new] (C60): how every [new new f(..).x] is grouped. *)
From Coq Require Import String Ascii List NArith Arith Bool Lia.
From Verif Require Import Base Chars F64 Word Token Reader Lexer Punc Ast Track Cover Stack SpecStack Node PState Parser Api
  SpecReader SpecLexer SpecTree LexClient SpecClient SpecGrammar SpecParser GrammarProps LexTheorems PropLayout PropParser PropComplete PropPorts.
Import ListNotations.
Local Open Scope nat_scope.

(** ** Specification *)

(** The tokens [new new f(es).n;] up to the end of the text, with any member expression
    [f] that takes all the accesses it can, and any arguments [es]. *)
Definition new_new (m : mode) (ts : tokens) (f : expr) (es : list eli) (n : name) : Prop :=
  exists i1 i2 i3 i4 i5 t i6 e r, kw R_New ts i1 /\ kw R_New i1 i2
    /\ GX true (with_in true (top m)) Member i2 i3 f
    /\ next (fun t => tk_value t <> TPunc T_Dot /\ tk_value t <> TPunc T_LBrack) i3
    /\ GX true (with_in true (top m)) Arguments i3 i4 es /\ op_ T_Dot i4 (t :: i5) /\ tk_value t = TIdent n
    /\ op_ T_Semi i5 i6 /\ i6 = e :: r /\ at_eof e.

(** The statement read: the access is outside both [new]s. *)
Definition outside (f : expr) (es : list eli) (n : name) : expr :=
  E_Dot None (E_New None (E_New None f (Some es)) None) (DotKey None (name_string n)).
(** What ECMAScript says: the access belongs to the inner [new]. *)
Definition inside_ (f : expr) (es : list eli) (n : name) : expr :=
  E_New None (E_Dot None (E_New None f (Some es)) (DotKey None (name_string n))) None.
Definition one (e : expr) : body item := Body None [] [I_Stmt (S_Expr None e (Explicit None))].

(** ** Proof *)

Lemma lhs_semi g i t o e : GX true g Lhs i (t :: o) e -> tk_value t = TPunc T_Semi -> GX true g Expression i (t :: o) e.
Proof.
  intros D Ht.
  assert (Hs : forall w, spelled t w -> w = lit ";").
  { intros w [(p & E & Hw & _)|(r & E & Hr)]; [|congruence]. assert (p = T_Semi) as -> by congruence. rewrite <- Hw. reflexivity. }
  assert (Hx : forall P : token -> Prop, P t -> next P (t :: o)) by (intros P HP; exists t, o; split; [reflexivity|exact HP]).
  assert (Hr : ~ regexp t) by (intros (r & K); congruence).
  apply g_expr; [apply g_assign_none; [apply g_cond_none|]|].
  - assert (D' : GX true g (Infix (length levels)) i (t :: o) e).
    { apply g_infix_unary, g_unary_none, g_postfix_none; [exact D| |intros _; apply Hx, Hr].
      apply Hx. rewrite Ht. split; [intros [_ [K|[K|[]]]]; congruence|]. repeat split; discriminate. }
    assert (Hn : forall n, n <= length levels -> GX true g (Infix (length levels - n)) i (t :: o) e).
    { induction n as [|n IH]; intros Hn; [rewrite Nat.sub_0_r; exact D'|]. apply g_infix_up; [lia|].
      replace (S (length levels - S n)) with (length levels - n) by lia. apply IH. lia. }
    specialize (Hn (length levels) (le_n _)). rewrite Nat.sub_diag in Hn. exact Hn.
  - apply Hx. split; [|congruence]. intros op [K _]. apply Hs in K. destruct op as [[? []]|[? []]]; discriminate K.
  - intros _. apply Hx, Hr.
  - apply Hx. intros [K|(a & K)]; [congruence|]. apply Hs in K. destruct a; discriminate K.
  - apply Hx. congruence.
Qed.
Lemma new_new_derived m ts f es n : new_new m ts f es n -> exists pre e r t, ts = pre ++ e :: r /\ at_eof e
  /\ GX true (top m) Script ts (e :: r) t /\ bo_dirs t = [] /\ script_untrack t = script_untrack (one (outside f es n)).
Proof.
  intros (i1 & i2 & i3 & i4 & i5 & t & i6 & e & r & H1 & H2 & Hm & Hn & Ha & Hd & Ht & Hs & -> & He).
  destruct Hs as (ts' & -> & Es). destruct H1 as (t1 & -> & E1).
  assert (D : GX true (top m) Script (t1 :: i1) (e :: r)
    (Body None [] [I_Stmt (S_Expr None (E_Dot None (E_New None (E_New None f (Some es)) None) (DotKey (Some (tk_loc t)) (name_string n)))
       (Explicit (Some (sp_start (tk_loc ts')))))])).
  { eapply g_script; [apply g_dirs_nil| | |].
    - intros a b r' s E K. injection E as <- _. congruence.
    - intros _ a b r' s E K. injection E as <- _. congruence.
    - eapply g_items_cons; [|apply g_items_nil; exists e, r; split; [reflexivity|unfold ends_list; rewrite He; cbn; auto]].
      apply g_item_stmt. eapply g_expr_stmt; [| | |apply en_explicit; exact Es].
      + exists t1, i1. split; [reflexivity|]. rewrite E1. split; discriminate.
      + intros i' (u & E & K). injection E as <- <-. congruence.
      + apply lhs_semi; [|exact Es]. eapply g_lhs_dot; [|exact Hd|apply g_dot_ident; exact Ht].
        eapply g_lhs_new; [exists t1; split; [reflexivity|exact E1]|].
        eapply g_new_bare; [exists t1; split; [reflexivity|exact E1]| |].
        * apply g_new_some. eapply g_new_args; [exact H2|apply g_new_base; [exact Hm|exact Hn]|exact Ha].
        * destruct Hd as (u & -> & Eu). exists u, (t :: ts' :: e :: r). split; [reflexivity|]. rewrite Eu. discriminate. }
  pose proof (G_suffix _ _ _ _ _ _ D) as (pre & Hp).
  exists pre, e, r. eexists. split; [exact Hp|]. split; [exact He|]. split; [exact D|]. split; [reflexivity|].
  reflexivity.
Qed.

(** ** The property *)

(** C60: every such text is accepted by all entry points, with the access outside both
    [new]s; that is never the tree of ECMAScript. *)
Theorem C60_access_outside : forall V src ts k f es n, ucd_ok V -> reads V src ts k ->
  (new_new Sloppy ts f es n ->
     (exists t, script_of V src = Ok t /\ script_untrack t = script_untrack (one (outside f es n)))
     /\ exists cs t, program_of V src = Ok (Pg_Ambiguous cs t) /\ script_untrack t = script_untrack (one (outside f es n)))
  /\ (new_new Strict ts f es n ->
       exists t, strict_of V src = Ok t /\ script_untrack t = script_untrack (one (outside f es n)))
  /\ (new_new Module_ ts f es n ->
       exists t i, module_of V src = Ok t /\ bo_items t = [MI_Item i]
         /\ [item_untrack i] = bo_items (script_untrack (one (outside f es n))))
  /\ script_untrack (one (outside f es n)) <> script_untrack (one (inside_ f es n)).
Proof.
  intros V src ts k f es n HV Hr. split; [|split; [|split]].
  - intros H. apply new_new_derived in H as (pre & e & r & t & -> & He & D & _ & Ht). split.
    + destruct (C67_script _ _ _ _ _ _ HV Hr D) as (t' & E & Ht'). exists t'. split; [exact E|congruence].
    + destruct (C67_program _ _ _ _ _ _ _ HV Hr He D) as (cs & t' & E & Ht'). exists cs, t'. split; [exact E|congruence].
  - intros H. apply new_new_derived in H as (pre & e & r & t & -> & He & D & _ & Ht).
    destruct (C67_strict _ _ _ _ _ _ HV Hr D) as (t' & E & Ht'). exists t'. split; [exact E|congruence].
  - intros H. apply new_new_derived in H as (pre & e & r & [l ds is] & -> & He & D & Hd & Ht).
    destruct (C67_module _ _ _ _ _ _ _ _ _ HV Hr He D) as (t' & E & Ht').
    assert (Ei : map item_untrack is = bo_items (script_untrack (one (outside f es n)))) by (rewrite <- Ht; reflexivity).
    assert (Em : map mod_item_untrack (bo_items t') = map MI_Item (map item_untrack is)).
    { apply (f_equal (@bo_items _)) in Ht'. unfold module_untrack, body_untrack in Ht'. cbn [bo_items] in Ht'. rewrite Ht', !map_map. reflexivity. }
    rewrite Ei in Em. cbn in Em. destruct (bo_items t') as [|[i|i|i] [|]] eqn:Eb; cbn in Em; try discriminate Em.
    eexists _, _. split; [exact E|]. split; [exact Eb|]. injection Em as Em. exact (f_equal (fun x => [x]) Em).
  - cbn. intros E. discriminate E.
Qed.
Print Assumptions C60_access_outside.

(** [new new a().b;] is such a text in each mode. *)
Example C60_example : exists ts k f es n, reads env_ascii (lit "new new a().b;") ts k /\ length ts = 9
  /\ new_new Sloppy ts f es n /\ new_new Strict ts f es n /\ new_new Module_ ts f es n.
Proof.
  destruct (read_reads env_ascii (lit "new new a().b;") (repeat false 9) _ _ ucd_ok_ascii ltac:(vm_compute; reflexivity)) as (k & Hr).
  match type of Hr with reads _ _ ?ts _ =>
    assert (K : exists f es n, forall m, new_new m ts f es n);
    [|destruct K as (f & es & n & K); exists ts, k, f, es, n; split; [exact Hr|]; split; [reflexivity|]; split; [apply K|split; apply K]] end.
  eexists _, _, _. intros m. eexists _, _, _, _, _, _, _, _, _.
  split; [eexists; split; reflexivity|]. split; [eexists; split; reflexivity|].
  split; [apply g_member, g_base, g_id, g_name; [reflexivity|right; split; [|split]; intros K; cbn in K; try (decompose sum K; discriminate); discriminate]|].
  split; [eexists _, _; split; [reflexivity|]; split; discriminate|].
  split; [eapply g_args_nil; eexists; split; reflexivity|].
  split; [eexists; split; reflexivity|]. split; [reflexivity|]. split; [eexists; split; reflexivity|]. split; reflexivity.
Qed.
