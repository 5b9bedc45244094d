(** Texts that are refused at one of their items, with a known error: a tool for C61 and C62. *)
From Coq Require Import String Ascii List NArith Arith Bool Lia.
From Verif Require Import Base Chars F64 Word Token Reader Lexer Punc Ast Track Cover Stack Node PState Parser Api Wp
  SpecReader SpecLexer SpecStack SpecTree StackProofs CoverProofs LexClient SpecClient SpecGrammar SpecParser SpecPlace SpecEntry
  ReaderProofs LexWp LexTheorems ParserWp ParserOps ParserStmt ParserTop GrammarProps CompBase CompTok CompExpr CompFun CompStmt
  CompTop CompEntry SpecExact ExactProofs PortProofs.
Import ListNotations.
Local Open Scope nat_scope.

Definition starts (o : tokens) : Prop := exists t t' r, o = t :: t' :: r /\ item_first (tk_value t) = true.
Definition refused {A} (e : perror) (m : P A) (s : pst) : Prop := m s = Err e.
Definition tr {A} (m : P A) : P (option perror) := fun s =>
  match m s with Ok (_, s') => Ok (None, s') | Err e => Ok (Some e, s) | Panic k => Panic k | NoFuel => NoFuel end.
Definition isE (e : perror) (r : option perror) (_ : pst) : Prop := r = Some e.
Lemma step {A B} e (m : P A) (k : A -> P B) s : runs (bind m (fun a => tr (k a))) s (isE e) -> refused e (bind m k) s.
Proof.
  intros (a & s' & E & H). unfold isE in H. subst a. unfold refused, bind in *. destruct (m s) as [[a s1]|e1|p|]; try discriminate E.
  unfold tr in E. destruct (k a s1) as [[b s2]|e1|p|]; try discriminate E. congruence.
Qed.
Lemma leaf {A} e (m : P A) s : refused e m s -> runs (tr m) s (isE e).
Proof. intros H. unfold refused in H. exists (Some e), s. unfold tr. rewrite H. split; reflexivity. Qed.
Lemma first_ {A B} e (m : P A) (k : A -> P B) s : refused e m s -> refused e (bind m k) s.
Proof. unfold refused, bind. intros ->. reflexivity. Qed.
Lemma assoc_ {A B C} e (m : P A) (f : A -> P B) (k : B -> P C) s :
  refused e (bind m (fun a => bind (f a) k)) s -> refused e (bind (bind m f) k) s.
Proof. unfold refused. rewrite bind_bind. auto. Qed.
Lemma span_ {A} e (set : A -> loc -> A) (m : P A) s : refused e m s -> refused e (p_span set m) s.
Proof.
  intros H. unfold p_span. apply step. apply runs_bind. eexists _, s. split; [reflexivity|]. apply leaf, first_, H.
Qed.

Section Refuse.
Context (V : env) (src : str) (HV : ucd_ok V).
Context (gl : goal) (tri_ : tri) (md : mode).
Context (Hmode : (md = Sloppy -> tri_ <> Yes /\ gl <> G_Module) /\ (md = Strict -> gl <> G_Module)).
Local Notation st := (st V src gl tri_ md).
Local Notation R := (parse_rec V).

(** What is read at [o] as an item is refused with [x]. *)
Definition item_refused (g : place) (o : tokens) (x : perror) : Prop :=
  forall N s b, fu 4 o N -> st b g o s -> refused x (r_item (R N) true) s.

(** Items are read one by one, up to the one that is refused. *)
Lemma refuse_loop {A B} (body : A -> P (A + B)) (N : nat) (push : A -> item -> A) g x
  (Hitem : forall acc t T (K : A + B -> P T) i s b, item_first (tk_value t) = true -> st b g (t :: i) s ->
     (forall s', st (Nat.max 1 b) g (t :: i) s' -> refused x (bind (r_item (R N) true) (fun a => K (inl (push acc a)))) s') ->
     refused x (bind (body acc) K) s) :
  forall l i o f acc s b, sure_seq g l i o -> starts o -> item_refused g o x ->
    fu 4 i N -> W i < f -> st b g i s -> refused x (loopM f body acc) s.
Proof.
  induction l as [|a l IH]; intros i o f acc s b D Hs Ho Hf Hw S; cbn [sure_seq] in D;
    (destruct f as [|f]; [lia|]); cbn [loopM].
  - subst i. destruct Hs as (t0 & t1 & r & -> & E0).
    eapply Hitem; [exact E0|exact S|]. intros s' S'. apply first_. eapply Ho; eassumption.
  - destruct D as (m & D1 & D2). destruct (G_first _ _ _ _ _ _ _ D1) as (t0 & i' & -> & Ht). cbn beta in Ht.
    pose proof (G_W _ _ _ _ _ _ _ D1) as Hw1. unfold solid in Hw1. cbn [fst_ok] in Hw1.
    assert (Hm : follow m).
    { destruct l as [|a2 l]; cbn [sure_seq] in D2.
      - subst m. destruct Hs as (t1 & t2 & r & -> & E1). exists t1, (t2 :: r). split; [reflexivity|].
        apply item_start_follow. left. exact E1.
      - destruct D2 as (m2 & D2 & _). destruct (G_first _ _ _ _ _ _ _ D2) as (t1 & i1 & -> & Ht1). cbn beta in Ht1.
        exists t1, i1. split; [reflexivity|]. exact (item_start_follow t1 (or_introl Ht1)). }
    eapply Hitem; [exact Ht|exact S|]. intros s' S'. apply step.
    eapply k_call; [eapply r_item_of; [exact (found V src HV gl tri_ md Hmode _ _ _ _ _ _ D1)|exact Hf|exact Hm|exact S']|].
    intros a' b2 s2 _ _ S2. apply leaf. unfold fu in *. eapply IH; [exact D2|exact Hs|exact Ho|unfold fu; lia|lia|exact S2].
Qed.

Lemma refuse_script l g i o x N s b : sure_seq g l i o -> starts o -> item_refused g o x -> fu 4 i N -> st b g i s ->
  refused x (statement_list V (R N)) s.
Proof.
  intros D Hs Ho Hf S. unfold fu in Hf. unfold statement_list.
  eapply (refuse_loop _ N (fun acc a => acc ++ [a])); [|exact D|exact Hs|exact Ho|exact Hf|unfold R; rewrite R_fuel; lia|exact S].
  clear - HV. intros acc t0 T K i s b Ht S H. apply assoc_, step.
  eapply k_peek; [exact HV|exact S|right; exact (proj1 (item_start_follow t0 (or_introl Ht)))|]. intros s' S'.
  rewrite (not_ends_list t0 Ht). apply leaf, assoc_. exact (H s' S').
Qed.
Lemma refuse_module l g i o x N s b : sure_seq g l i o -> starts o -> item_refused g o x -> fu 4 i N -> st b g i s ->
  refused x (module_items V (R N)) s.
Proof.
  intros D Hs Ho Hf S. unfold fu in Hf. change (module_items V (R N)) with (loopM (r_fuel (R N)) (mibody V N) []).
  eapply (refuse_loop _ N (fun acc a => acc ++ [MI_Item a])); [|exact D|exact Hs|exact Ho|exact Hf|unfold R; rewrite R_fuel; lia|exact S].
  clear - HV. intros acc t0 T K i s b Ht S H. apply assoc_, step.
  eapply k_peek; [exact HV|exact S|right; exact (proj1 (item_start_follow t0 (or_introl Ht)))|]. intros s' S'.
  rewrite (first_not_eof t0 Ht), (first_not_port t0 Ht). apply leaf, assoc_. exact (H s' S').
Qed.
Lemma refuse_program l g i o x N s b : sure_seq g l i o -> starts o -> item_refused g o x -> fu 4 i N -> st b g i s ->
  refused x (program_items_ V (R N)) s.
Proof.
  intros D Hs Ho Hf S. unfold fu in Hf. change (program_items_ V (R N)) with (loopM (r_fuel (R N)) (pibody V N) []).
  eapply (refuse_loop _ N (fun acc a => acc ++ [a])); [|exact D|exact Hs|exact Ho|exact Hf|unfold R; rewrite R_fuel; lia|exact S].
  clear - HV. intros acc t0 T K i s b Ht S H. apply assoc_, step.
  eapply k_peek; [exact HV|exact S|right; exact (proj1 (item_start_follow t0 (or_introl Ht)))|]. intros s' S'.
  rewrite (first_not_eof t0 Ht), (first_not_port t0 Ht). apply leaf, assoc_. exact (H s' S').
Qed.

(** All that stands before the items. *)
Lemma refuse_body {A B} (items : P A) (k : list dir -> A -> P B) set ts ds j x kk :
  reads V src ts kk -> GX true (top md) Directives ts j ds -> no_dir j ->
  (forall s b, fu 4 j (fuel_for src) -> st b (top md) j s -> refused x items s) ->
  refused x (p_span set (bind (body_directives V (R (fuel_for src))) (fun d => bind items (k d)))) (start src gl tri_).
Proof.
  intros Hr D1 Hn HK. apply span_, step. pose proof (start_fu V src _ kk 4 ltac:(lia) Hr) as Hf.
  eapply k_call; [eapply (dirs_run V src HV); [exact Hmode|exact D1|exact Hn|exact Hf|eapply start_st, Hr]|].
  intros d b1 s1 _ _ S1. pose proof (G_W _ _ _ _ _ _ _ D1) as Hw. unfold solid in Hw. cbn [fst_ok] in Hw.
  apply leaf, first_. eapply HK; [unfold fu in *; lia|exact S1].
Qed.
End Refuse.

Definition mode_ok (gl : goal) (tr : tri) (md : mode) : Prop :=
  (md = Sloppy -> tr <> Yes /\ gl <> G_Module) /\ (md = Strict -> gl <> G_Module).

Lemma refuse_entries V src m ts rest k ds is x : ucd_ok V -> reads V src (ts ++ rest) k -> calm (ts ++ rest) ->
  labels_differ (N_body (Body None ds is)) -> top_level m ds is (ts ++ rest) rest -> starts rest ->
  (forall gl tr, mode_ok gl tr m -> item_refused V src gl tr m (top m) rest x) ->
  (m = Sloppy -> script_of V src = Err x /\ program_of V src = Err x)
  /\ (m = Strict -> strict_of V src = Err x) /\ (m = Module_ -> module_of V src = Err x).
Proof.
  intros HV Hr Hc Hl (j & D & Hs & Hi) Hst HR.
  assert (Hj : calm j) by exact (calm_suffix _ _ Hc (G_suffix _ _ _ _ _ _ D)).
  assert (S : sure_seq (top m) is j rest).
  { apply sure_seq_of; [exact Hi|exact Hj|]. apply Forall_forall. intros a Ha.
    assert (K : L nothing (N_body (Body None ds is))) by (constructor; exact Hl).
    apply L_children in K. cbn [children bo_dirs bo_items] in K. apply Forall_app in K as [_ K].
    eapply (L_list _ nothing) in K; [|intros; reflexivity]. rewrite Forall_forall in K. exact (K a Ha). }
  assert (D1 : GX true (top m) Directives (ts ++ rest) j ds) by (apply sure_of; [exact D|exact Hc|exact Logic.I]).
  assert (Hn : no_dir j).
  { assert (N : exists t0 i', j = t0 :: i' /\ ~ slash t0).
    { destruct is as [|a l]; cbn [sure_seq] in S.
      - subst j. destruct Hst as (t1 & t2 & r & -> & E1). exists t1, (t2 :: r). split; [reflexivity|].
        apply (item_start_follow t1). left. exact E1.
      - destruct S as (m2 & D2 & _). destruct (G_first _ _ _ _ _ _ _ D2) as (t1 & i1 & -> & Ht1). cbn beta in Ht1.
        exists t1, i1. split; [reflexivity|]. exact (proj1 (item_start_follow t1 (or_introl Ht1))). }
    destruct N as (t0 & i' & -> & Hf). exists t0, i'. split; [reflexivity|]. split; [exact Hf|]. intros s E.
    destruct i' as [|t' r].
    - exfalso. apply seq_suffix in S as (p & S). destruct Hst as (t1 & t2 & r & -> & _).
      destruct p as [|y [|y2 p]]; discriminate S.
    - exists t', r. split; [reflexivity|]. split; [exact (Hs t0 t' r s eq_refl E)|].
      intros K. destruct (Hj [] t0 t' r eq_refl) as [_ H]. exact (proj2 (H K) s E). }
  assert (RR : forall A (p : P A) s e, refused e p s -> run p s = Err e).
  { intros A p s e H. unfold run. rewrite H. reflexivity. }
  split; [|split]; intros ->.
  - split.
    + assert (Hm : mode_ok G_Script No Sloppy) by (split; [split|]; discriminate).
      apply RR. refine (refuse_body V src HV G_Script No Sloppy Hm (statement_list V (parse_rec V (fuel_for src))) (fun d its => ret (Body None d its)) body_set_loc _ _ _ _ _ Hr D1 Hn _).
      intros s b Hf S'. exact (refuse_script V src HV G_Script No Sloppy Hm _ _ _ _ _ _ _ _ S Hst (HR _ _ Hm) Hf S').
    + assert (Hm : mode_ok G_Unknown Unknown Sloppy) by (split; [split|]; discriminate).
      apply RR. refine (refuse_body V src HV G_Unknown Unknown Sloppy Hm (program_items_ V (parse_rec V (fuel_for src))) _ program_set_loc _ _ _ _ _ Hr D1 Hn _).
      intros s b Hf S'. exact (refuse_program V src HV G_Unknown Unknown Sloppy Hm _ _ _ _ _ _ _ _ S Hst (HR _ _ Hm) Hf S').
  - assert (Hm : mode_ok G_Script Yes Strict) by (split; discriminate).
    apply RR. refine (refuse_body V src HV G_Script Yes Strict Hm (statement_list V (parse_rec V (fuel_for src))) (fun d its => ret (Body None d its)) body_set_loc _ _ _ _ _ Hr D1 Hn _).
    intros s b Hf S'. exact (refuse_script V src HV G_Script Yes Strict Hm _ _ _ _ _ _ _ _ S Hst (HR _ _ Hm) Hf S').
  - assert (Hm : mode_ok G_Module Yes Module_) by (split; discriminate).
    apply RR. refine (refuse_body V src HV G_Module Yes Module_ Hm (module_items V (parse_rec V (fuel_for src))) (fun d its => ret (Body None d its)) body_set_loc _ _ _ _ _ Hr D1 Hn _).
    intros s b Hf S'. exact (refuse_module V src HV G_Module Yes Module_ Hm _ _ _ _ _ _ _ _ S Hst (HR _ _ Hm) Hf S').
Qed.
