(** What [module] and [program] do with [import] and [export] (C29). *)
From Coq Require Import String Ascii List NArith Arith Bool Lia.
From Verif Require Import Base Chars F64 Word Token Reader Lexer Punc Ast Track Cover Stack Node PState Parser Api Wp
  SpecReader SpecLexer SpecStack SpecTree StackProofs CoverProofs SpecGrammar SpecParser SpecPlace ReaderProofs LexWp LexTheorems
  ParserWp ParserOps ParserStmt ParserTop GrammarProps CompBase CompTok CompExpr CompFun CompStmt CompTop CompEntry SpecExact ExactProofs.
Import ListNotations.
Local Open Scope nat_scope.

(** ** Computations that end without a result *)

Definition fails {A} (m : P A) (s : pst) (Q : res perror unit -> Prop) : Prop :=
  match m s with Ok _ | NoFuel => False | Err e => Q (Err e) | Panic k => Q (Panic k) end.
Lemma fails_bind {A B} (m : P A) (k : A -> P B) s R Q : runs m s R ->
  (forall a s', R a s' -> fails (k a) s' Q) -> fails (bind m k) s Q.
Proof. intros (a & s' & E & H) K. unfold fails, bind. rewrite E. exact (K a s' H). Qed.
Lemma fails_first {A B} (m : P A) (k : A -> P B) s Q : fails m s Q -> fails (bind m k) s Q.
Proof. unfold fails, bind. destruct (m s); tauto. Qed.
Lemma fails_assoc {A B C} (m : P A) (f : A -> P B) (k : B -> P C) s Q :
  fails (bind m (fun a => bind (f a) k)) s Q -> fails (bind (bind m f) k) s Q.
Proof. unfold fails. rewrite bind_bind. auto. Qed.
Lemma fails_span {A} (set : A -> loc -> A) (m : P A) s Q : fails m s Q -> fails (p_span set m) s Q.
Proof.
  intros H. unfold p_span. eapply fails_bind with (R := fun _ s' => s' = s); [|].
  - eexists _, s. split; reflexivity.
  - intros p s' ->. apply fails_first, H.
Qed.

(** A port is no slash, and goes on with nothing. *)
Lemma port_follow t : is_port t -> ~ slash t /\ tk_value t <> TPunc T_Colon /\ tk_value t <> TPunc T_Comma.
Proof. intros [H|H]; unfold slash; rewrite H; (split; [intros [K|[K|[]]]; discriminate K|split; discriminate]). Qed.
Lemma port_is t : is_port t -> is_t t (TReserved R_Import) || is_t t (TReserved R_Export) = true.
Proof. intros [H|H]; apply orb_true_iff; [left|right]; apply is_t_refl; try exact H; exact Logic.I. Qed.
Lemma port_not_eof t : is_port t -> is_t t (TPunc T_EOF) = false.
Proof. intros H. apply is_t_ne; [exact Logic.I|]. intros E. destruct H as [H|H]; rewrite H in E; discriminate E. Qed.

Section Port.
Context (V : env) (src : str) (HV : ucd_ok V).
Context (gl : goal) (tr : tri) (md : mode).
Context (Hmode : (md = Sloppy -> tr <> Yes /\ gl <> G_Module) /\ (md = Strict -> gl <> G_Module)).
Local Notation st := (st V src gl tr md).
Local Notation R := (parse_rec V).

(** The items, each in the sure reading. *)
Fixpoint sure_seq (g : place) (is : list item) (i o : tokens) : Prop :=
  match is with
  | [] => i = o
  | it :: is' => exists m, GX true g (Item true) i m it /\ sure_seq g is' m o
  end.
Lemma seq_follow g is i o : sure_seq g is i o -> next is_port o -> follow i.
Proof.
  destruct is as [|a is]; cbn [sure_seq].
  - intros -> (t & r & -> & H). exists t, r. split; [reflexivity|exact (port_follow t H)].
  - intros (m & D & _) _. destruct (G_first _ _ _ _ _ _ _ D) as (t & i' & -> & Ht). cbn beta in Ht.
    exists t, i'. split; [reflexivity|]. exact (item_start_follow t (or_introl Ht)).
Qed.
Lemma seq_suffix g is i o : sure_seq g is i o -> suffix o i.
Proof.
  revert i. induction is as [|a is IH]; intros i H; cbn [sure_seq] in H.
  - subst i. exists []. reflexivity.
  - destruct H as (m & D & H). apply G_suffix in D as (p & ->). apply IH in H as (q & ->). exists (p ++ q). apply app_assoc.
Qed.

(** Both loops: items are read one by one, up to the port. *)
Lemma port_loop {A B} (body : A -> P (A + B)) (N : nat) (push : A -> item -> A) F
  (Hend : forall acc t g o s b, is_port t -> fu 4 (t :: o) N -> st b g (t :: o) s -> fails (body acc) s F)
  (Hitem : forall acc t T (K : A + B -> P T) g i o s b (E : item -> Prop) Q, item_first (tk_value t) = true ->
     st b g (t :: i) s ->
     (forall s' b', st b' g (t :: i) s' -> runs (r_item (R N) true) s' (gives V src gl tr md 0 g o E)) ->
     (forall a s' b', E a -> st b' g o s' -> fails (K (inl (push acc a))) s' Q) -> fails (bind (body acc) K) s Q) :
  forall l g i o f acc s b, sure_seq g l i o -> next is_port o ->
    fu 4 i N -> W i < f -> st b g i s -> fails (loopM f body acc) s F.
Proof.
  induction l as [|x l IH]; intros g i o f acc s b D Ho Hf Hw S; cbn [sure_seq] in D;
    (destruct f as [|f]; [lia|]); cbn [loopM].
  - subst i. destruct Ho as (t & r & -> & Ht). apply fails_first. eapply Hend; eassumption.
  - destruct D as (m & D1 & D2). destruct (G_first _ _ _ _ _ _ _ D1) as (t & i' & -> & Ht). cbn beta in Ht.
    pose proof (G_W _ _ _ _ _ _ _ D1) as Hw1. unfold solid in Hw1. cbn [fst_ok] in Hw1.
    eapply (Hitem acc t _ _ g i' m s b); [exact Ht|exact S| |].
    + intros s' b' S'. eapply r_item_of; [exact (found V src HV gl tr md Hmode _ _ _ _ _ _ D1)|exact Hf|
        exact (seq_follow _ _ _ _ D2 Ho)|exact S'].
    + intros a' s' b' Ha S'. unfold fu in *. eapply IH; [exact D2|exact Ho|unfold fu; lia|lia|exact S'].
Qed.

Lemma fails_peek b g t i s {B} (k : token -> P B) Q : st b g (t :: i) s -> 1 <= b \/ fits false t ->
  (forall s', st (Nat.max 1 b) g (t :: i) s' -> fails (k t) s' Q) -> fails (bind (p_peek V) k) s Q.
Proof.
  intros H1 H2 H3. eapply fails_bind; [eapply (r_peek_gen V src HV gl tr md false b g t i s H1 H2)|].
  intros t' s' (-> & S). apply H3; assumption.
Qed.

Definition unimpl (r : res perror unit) : Prop := r = Panic P_unimplemented.
Definition refused (r : res perror unit) : Prop := match r with Ok _ | NoFuel => False | Err _ => True | Panic k => k = P_unimplemented end.

Lemma more_port l g i o N acc s b : sure_seq g l i o -> next is_port o -> fu 4 i N -> st b g i s ->
  fails (more_module_items V (R N) acc) s unimpl.
Proof.
  intros D Ho Hf S. unfold fu in Hf. change (more_module_items V (R N) acc) with (loopM (r_fuel (R N)) (mibody V N) acc).
  eapply (port_loop (mibody V N) N (fun acc a => acc ++ [MI_Item a])); [| |exact D|exact Ho|exact Hf|unfold R; rewrite R_fuel; lia|exact S].
  - clear - HV. intros a t g o s b Ht _ S. unfold mibody.
    eapply fails_peek; [exact S|right; exact (proj1 (port_follow t Ht))|]. intros s' S'.
    rewrite (port_not_eof t Ht), (port_is t Ht). reflexivity.
  - clear - HV. intros a t T K g i o s b E Q Ht S H1 H2. unfold mibody. apply fails_assoc.
    eapply fails_peek; [exact S|right; exact (proj1 (item_start_follow t (or_introl Ht)))|]. intros s' S'.
    rewrite (first_not_eof t Ht), (first_not_port t Ht). apply fails_assoc.
    eapply fails_bind; [eapply H1, S'|]. intros a' s2 (Ha & b2 & _ & S2). eapply (H2 a' s2 b2 Ha S2).
Qed.
Lemma program_port l g i o N s b : sure_seq g l i o -> next is_port o -> fu 4 i N -> st b g i s ->
  fails (program_items_ V (R N)) s refused.
Proof.
  intros D Ho Hf S. unfold fu in Hf. change (program_items_ V (R N)) with (loopM (r_fuel (R N)) (pibody V N) []).
  eapply (port_loop (pibody V N) N (fun acc a => acc ++ [a])); [| |exact D|exact Ho|exact Hf|unfold R; rewrite R_fuel; lia|exact S].
  - intros a t g' o' s' b' Ht Hf' S'. unfold pibody.
    eapply fails_peek; [exact S'|right; exact (proj1 (port_follow t Ht))|]. intros s2 S2.
    rewrite (port_not_eof t Ht), (port_is t Ht). unfold force_deferred_module_validation, take_deferred.
    unfold fails at 1, bind at 1 2 3 4, gets, modify, ret at 1 2. cbn [Base.ret].
    destruct (perform_all true (p_deferred s2)) as [e|]; [exact Logic.I|]. cbv beta iota.
    assert (K : fails (more_module_items V (R N) (map item_into_mod_item a)) (set_deferred [] s2) unimpl).
    { eapply (more_port [] g' (t :: o')); [reflexivity|exists t, o'; split; [reflexivity|exact Ht]|exact Hf'|exact S2]. }
    unfold fails, ret, bind in *. destruct (more_module_items V (R N) (map item_into_mod_item a) (set_deferred [] s2));
      try contradiction; [discriminate K|]. injection K as ->. reflexivity.
  - clear - HV. intros a t T K g i o s b E Q Ht S H1 H2. unfold pibody. apply fails_assoc.
    eapply fails_peek; [exact S|right; exact (proj1 (item_start_follow t (or_introl Ht)))|]. intros s' S'.
    rewrite (first_not_eof t Ht), (first_not_port t Ht). apply fails_assoc.
    eapply fails_bind; [eapply H1, S'|]. intros a' s2 (Ha & b2 & _ & S2). eapply (H2 a' s2 b2 Ha S2).
Qed.

(** Directives and items, in the sure reading. *)
Lemma seq_no_dir g is j o : sure_seq g is j o -> next is_port o -> calm j ->
  (forall t t' r s, j = t :: t' :: r -> tk_value t = TString s -> continues t') -> CompFun.no_dir j.
Proof.
  intros D Ho Hc H1. destruct (seq_follow _ _ _ _ D Ho) as (t & i' & -> & Hf & _). exists t, i'. split; [reflexivity|].
  split; [exact Hf|]. intros s E. destruct i' as [|t' r].
  - exfalso. apply seq_suffix in D as (p & D). destruct Ho as (t2 & r & -> & Ht). destruct p as [|x p]; [|destruct p; discriminate D].
    injection D as <- _. destruct Ht as [Ht|Ht]; congruence.
  - exists t', r. split; [reflexivity|]. split; [exact (H1 t t' r s eq_refl E)|].
    intros K. destruct (Hc [] t t' r eq_refl) as [_ H]. exact (proj2 (H K) s E).
Qed.
Lemma sure_seq_of g is i o : item_seq g is i o -> calm i -> Forall (fun a => parts (Item true) (ar g) a) is -> sure_seq g is i o.
Proof.
  revert i. induction is as [|a is IH]; intros i H Hc Hp; cbn [item_seq sure_seq] in *; [exact H|].
  destruct H as (m & D & H). exists m. split.
  - apply sure_of; [exact D|exact Hc|exact (Forall_inv Hp)].
  - apply IH; [exact H| |exact (Forall_inv_tail Hp)]. exact (calm_suffix _ _ Hc (G_suffix _ _ _ _ _ _ D)).
Qed.
End Port.

Lemma top_sure m ds is i o : top_level m ds is i o -> next is_port o -> calm i -> labels_differ (N_body (Body None ds is)) ->
  exists j, GX true (top m) Directives i j ds /\ CompFun.no_dir j /\ sure_seq (top m) is j o.
Proof.
  intros (j & D & Hs & Hi) Ho Hc Hl. exists j.
  assert (Hj : calm j) by exact (calm_suffix _ _ Hc (G_suffix _ _ _ _ _ _ D)).
  assert (S : sure_seq (top m) is j o).
  { apply sure_seq_of; [exact Hi|exact Hj|]. apply Forall_forall. intros a Ha.
    assert (K : L nothing (N_body (Body None ds is))) by (constructor; exact Hl).
    apply L_children in K. cbn [children bo_dirs bo_items] in K. apply Forall_app in K as [_ K].
    eapply (L_list _ nothing) in K; [|intros; reflexivity]. rewrite Forall_forall in K. exact (K a Ha). }
  split; [|split; [|exact S]].
  - apply sure_of; [exact D|exact Hc|]. exact Logic.I.
  - eapply seq_no_dir; eassumption.
Qed.

Lemma run_fails {A} (p : P A) s Q : fails p s Q ->
  match run p s with Ok _ | NoFuel => False | Err e => Q (Err e) | Panic k => Q (Panic k) end.
Proof. unfold fails, run. destruct (p s) as [[a s']|e|k|]; tauto. Qed.

Section Entry.
Context (V : env) (src : str) (HV : ucd_ok V).
Lemma module_ports ts rest k ds is : reads V src (ts ++ rest) k -> calm (ts ++ rest) ->
  labels_differ (N_body (Body None ds is)) -> top_level Module_ ds is (ts ++ rest) rest -> next is_port rest ->
  module_of V src = Panic P_unimplemented.
Proof.
  intros Hr Hc Hl D Ho. destruct (top_sure _ _ _ _ _ D Ho Hc Hl) as (j & D1 & Hn & D2).
  assert (Hmode : (Module_ = Sloppy -> Yes <> Yes /\ G_Module <> G_Module) /\ (Module_ = Strict -> G_Module <> G_Module)).
  { split; discriminate. }
  assert (Hx : fails (module_ V (parse_rec V (fuel_for src))) (parser_new src) unimpl).
  { unfold module_. change (fails (p_span body_set_loc
      (dirs <- body_directives V (parse_rec V (fuel_for src)) ;;
       items <- module_items V (parse_rec V (fuel_for src)) ;; ret (Body None dirs items)))
      (start src G_Module Yes) unimpl).
    apply fails_span.
    pose proof (start_fu V src _ k 4 ltac:(lia) Hr) as Hf.
    eapply fails_bind; [eapply (dirs_run V src HV); [exact Hmode|exact D1|exact Hn|exact Hf|eapply start_st, Hr]|].
    intros d s1 (Hd & b1 & _ & S1). pose proof (G_W _ _ _ _ _ _ _ D1) as Hw. unfold solid in Hw. cbn [fst_ok] in Hw.
    apply fails_first. eapply (more_port V src HV); [exact Hmode|exact D2|exact Ho|unfold fu in *; lia|exact S1]. }
  apply run_fails in Hx. unfold module_of. destruct (run _ _); try contradiction; [discriminate Hx|].
  injection Hx as ->. reflexivity.
Qed.
Lemma program_ports ts rest k ds is : reads V src (ts ++ rest) k -> calm (ts ++ rest) ->
  labels_differ (N_body (Body None ds is)) -> top_level Sloppy ds is (ts ++ rest) rest -> next is_port rest ->
  program_of V src = Panic P_unimplemented \/ exists e, program_of V src = Err e.
Proof.
  intros Hr Hc Hl D Ho. destruct (top_sure _ _ _ _ _ D Ho Hc Hl) as (j & D1 & Hn & D2).
  assert (Hmode : (Sloppy = Sloppy -> Unknown <> Yes /\ G_Unknown <> G_Module) /\ (Sloppy = Strict -> G_Unknown <> G_Module)).
  { split; intros; try split; discriminate. }
  assert (Hx : fails (program_ V (parse_rec V (fuel_for src))) (parser_new src) refused).
  { unfold program_. change (fails (p_span program_set_loc
      (dirs <- body_directives V (parse_rec V (fuel_for src)) ;;
       items <- program_items_ V (parse_rec V (fuel_for src)) ;;
       match items with
       | PI_Script items => checks <- take_deferred ;; ret (Pg_Ambiguous checks (Body None dirs items))
       | PI_Module items => ret (Pg_Module (Body None dirs items))
       end)) (start src G_Unknown Unknown) refused).
    apply fails_span.
    pose proof (start_fu V src _ k 4 ltac:(lia) Hr) as Hf.
    eapply fails_bind; [eapply (dirs_run V src HV); [exact Hmode|exact D1|exact Hn|exact Hf|eapply start_st, Hr]|].
    intros d s1 (Hd & b1 & _ & S1). pose proof (G_W _ _ _ _ _ _ _ D1) as Hw. unfold solid in Hw. cbn [fst_ok] in Hw.
    apply fails_first. eapply (program_port V src HV); [exact Hmode|exact D2|exact Ho|unfold fu in *; lia|exact S1]. }
  apply run_fails in Hx. unfold program_of. destruct (run _ _) as [a|e|p|]; try contradiction; [right; eauto|].
  left. cbn in Hx. rewrite Hx. reflexivity.
Qed.
End Entry.
