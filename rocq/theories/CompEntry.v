(** Completeness of the parser, part 7: the entry points. *)
From Coq Require Import String Ascii List NArith Arith Bool Lia.
From Verif Require Import Base Chars F64 Word Token Reader Lexer Punc Ast Track Cover Stack PState Parser Api Wp
  SpecReader SpecLexer SpecStack SpecTree StackProofs CoverProofs SpecGrammar SpecParser ReaderProofs LexWp LexTheorems
  ParserWp ParserOps ParserStmt ParserTop GrammarProps CompBase CompTok CompExpr CompFun CompStmt CompTop.
Import ListNotations.
Local Open Scope nat_scope.

Lemma tiles_le V src ops b k ts k' : tiles V src ops b k ts k' -> k <= length src -> k' <= length src.
Proof.
  induction 1 as [|op ops b k t k1 ts k2 (ws & w & l & hs & -> & _) h2 IH]; intros hk; [exact hk|]. apply IH.
  apply (f_equal (@length _)) in hs. rewrite skipn_length, !app_length in hs. lia.
Qed.

Section Entry.
Context (V : env) (src : str).
Context (HV : ucd_ok V).

(** The state in which an entry point starts. *)
Lemma start_st gl tr md ts k : reads V src ts k -> st V src gl tr md 0 (top md) ts (start src gl tr).
Proof.
  intros (ops & Ht). pose proof (tiles_le _ _ _ _ _ _ _ Ht (Nat.le_0_l _)) as Hk. split.
  - split; [reflexivity|]. split; [lia|]. split.
    + apply Forall_forall. intros t Hin. eapply tiles_lexed; eassumption.
    + exists ts, ops, 0, k. split; [reflexivity|]. split; [cbn; apply rd_at_new|]. exact Ht.
  - repeat split.
Qed.
Lemma start_fu ts k n : n <= 10 -> reads V src ts k -> fu n ts (fuel_for src).
Proof.
  intros Hn (ops & Ht). pose proof (tiles_le _ _ _ _ _ _ _ Ht (Nat.le_0_l _)). apply tiles_W in Ht.
  unfold fu, fuel_for. lia.
Qed.

Lemma runs_run {A} (p : P A) s Q : runs p s Q -> exists a s', run p s = Ok a /\ Q a s'.
Proof. intros (a & s' & E & H). exists a, s'. unfold run. rewrite E. split; [reflexivity|exact H]. 
Qed.

(** A body, in any mode. *)
Lemma body_found gl tr md (Hmode : (md = Sloppy -> tr <> Yes /\ gl <> G_Module) /\ (md = Strict -> gl <> G_Module))
  ts rest k t : reads V src ts k -> GX true (top md) Script ts rest t ->
  exists t', run (script_body V (parse_rec V (fuel_for src))) (start src gl tr) = Ok t'
    /\ body_untrack item_untrack t' = body_untrack item_untrack t.
Proof.
  intros Hr D. pose proof (found V src HV gl tr md Hmode _ _ _ _ _ _ D) as F.
  assert (Hx := F (fuel_for src) (start src gl tr) 0 (start_fu _ k 4 ltac:(lia) Hr) (start_st _ _ _ _ _ Hr)).
  apply runs_run in Hx as (t' & s' & E & [Ht _] & _). exists t'. split; [exact E|exact Ht].
Qed.
Lemma body_unambiguous md ts k r1 r2 t1 t2 : reads V src ts k -> GX true (top md) Script ts r1 t1 ->
  GX true (top md) Script ts r2 t2 -> body_untrack item_untrack t1 = body_untrack item_untrack t2.
Proof.
  intros Hr D1 D2.
  assert (H : exists gl tr, (md = Sloppy -> tr <> Yes /\ gl <> G_Module) /\ (md = Strict -> gl <> G_Module)).
  { exists G_Script, No. split; intros _; [split|]; discriminate. }
  destruct H as (gl & tr & Hmode).
  destruct (body_found gl tr md Hmode _ _ _ _ Hr D1) as (u1 & E1 & H1).
  destruct (body_found gl tr md Hmode _ _ _ _ Hr D2) as (u2 & E2 & H2). congruence.
Qed.
Lemma script_found (strict : bool) ts rest k t : reads V src (ts ++ rest) k ->
  GX true (top (if strict then Strict else Sloppy)) Script (ts ++ rest) rest t ->
  exists t', run (script_ V (parse_rec V (fuel_for src)) strict) (parser_new src) = Ok t'
    /\ body_untrack item_untrack t' = body_untrack item_untrack t.
Proof.
  intros Hr D.
  apply (body_found G_Script (tri_of_bool strict) (if strict then Strict else Sloppy)) with (k := k) in D; [exact D| |exact Hr].
  destruct strict; split; intros H; try discriminate H; try split; discriminate.
Qed.

(** Reading items up to the end of input. *)
Definition items_shape g i o (l : list item) : Prop :=
  (next ends_list i /\ i = o /\ l = [])
  \/ exists a l' i1, l = a :: l' /\ GX true g (Item true) i i1 a /\ GX true g Items i1 o l'.
Lemma items_inv g i o l : GX true g Items i o l -> items_shape g i o l.
Proof.
  intros D. change (match Items in nt T return T -> Prop with
    | Items => items_shape g i o | _ => fun _ => True end l). destruct D; try exact Logic.I; [left|right]; eauto 7.
Qed.
Lemma first_not_eof t : item_first (tk_value t) = true -> is_t t (TPunc T_EOF) = false.
Proof. intros H. apply is_t_ne; [exact Logic.I|]. intros E. rewrite E in H. discriminate H. Qed.
Lemma first_not_port t : item_first (tk_value t) = true ->
  is_t t (TReserved R_Import) || is_t t (TReserved R_Export) = false.
Proof.
  intros H. apply orb_false_iff. split; (apply is_t_ne; [exact Logic.I|]); intros E; rewrite E in H; discriminate H.
Qed.

Section Items.
Context (gl : goal) (tr : tri) (md : mode).
Context (Hmode : (md = Sloppy -> tr <> Yes /\ gl <> G_Module) /\ (md = Strict -> gl <> G_Module)).
Local Notation st := (st V src gl tr md).
Local Notation R := (parse_rec V).

Definition mibody (N : nat) (items : list mod_item) : P (list mod_item + list mod_item) :=
  t <- p_peek V ;;
  if is_t t (TPunc T_EOF) then ret (inr items)
  else if is_t t (TReserved R_Import) || is_t t (TReserved R_Export)
       then panic_at P_unimplemented
  else i <- r_item (R N) true ;; ret (inl (items ++ [MI_Item i])).
Definition pibody (N : nat) (stmts : list item) : P (list item + program_items) :=
  t <- p_peek V ;;
  if is_t t (TPunc T_EOF) then ret (inr (PI_Script stmts))
  else if is_t t (TReserved R_Import) || is_t t (TReserved R_Export) then
    force_deferred_module_validation ;;;
    items <- more_module_items V (R N) (map item_into_mod_item stmts) ;;
    ret (inr (PI_Module items))
  else i <- r_item (R N) true ;; ret (inl (stmts ++ [i])).

(** Both loops: the items are read one by one. *)
Lemma items_loop {A B} (body : A -> P (A + B)) (N : nat) (push : A -> item -> A) (fin : A -> B)
  (Hend : forall acc t T (K : A + B -> P T) g o s b Q, tk_value t = TPunc T_EOF -> st b g (t :: o) s ->
     (forall s', st (Nat.max 1 b) g (t :: o) s' -> runs (K (inr (fin acc))) s' Q) -> runs (bind (body acc) K) s Q)
  (Hitem : forall acc t T (K : A + B -> P T) g i o s b (E : item -> Prop) Q, item_first (tk_value t) = true ->
     st b g (t :: i) s ->
     (forall s' b', st b' g (t :: i) s' -> runs (r_item (R N) true) s' (gives V src gl tr md 0 g o E)) ->
     (forall a s' b', E a -> st b' g o s' -> runs (K (inl (push acc a))) s' Q) -> runs (bind (body acc) K) s Q) :
  forall l g i e rest f acc s b, GX true g Items i (e :: rest) l -> at_eof e ->
    fu 4 i N -> W i < f -> st b g i s ->
    runs (loopM f body acc) s (gives V src gl tr md 1 g (e :: rest)
      (fun r => exists l2, r = fin (fold_left push l2 acc) /\ map item_untrack l2 = map item_untrack l)).
Proof.
  induction l as [|x l IH]; intros g i e rest f acc s b D He Hf Hw S;
    (apply runs_loop; [lia|]; intros f' ->); apply items_inv in D as [(Hn & Hi & Hl)|(a & l' & i1 & Hl & D1 & D2)]; try discriminate Hl.
  - subst i. eapply Hend; [exact He|exact S|]. intros s' S'. apply runs_ret. split.
    + exists []. auto.
    + eexists. split; [|exact S']. lia.
  - assert (a = x) by congruence. assert (l' = l) by congruence. subst a l'. clear Hl.
    destruct (G_first _ _ _ _ _ _ _ D1) as (t & i' & -> & Ht). cbn beta in Ht.
    pose proof (G_W _ _ _ _ _ _ _ D1) as Hw1. unfold solid in Hw1. cbn [fst_ok] in Hw1.
    eapply (Hitem acc t _ _ g i' i1 s b); [exact Ht|exact S| |].
    + intros s' b' S'. eapply r_item_of; [exact (found V src HV gl tr md Hmode _ _ _ _ _ _ D1)|exact Hf|
        exact (items_follow _ _ _ _ D2)|exact S'].
    + intros a' s' b' Ha S'. unfold fu in *.
      eapply runs_conseq; [eapply IH; [exact D2|exact He|unfold fu; lia|lia|exact S']|].
      intros r s2 ((l2 & -> & Hl2) & HS). split; [|exact HS]. exists (a' :: l2). split; [reflexivity|]. cbn. congruence.
Qed.

Lemma module_loop l g i e rest N s b : GX true g Items i (e :: rest) l -> at_eof e -> fu 4 i N -> st b g i s ->
  runs (module_items V (R N)) s (gives V src gl tr md 1 g (e :: rest)
    (fun r => map mod_item_untrack r = map MI_Item (map item_untrack l))).
Proof.
  intros D He Hf S. unfold fu in Hf. change (module_items V (R N)) with (loopM (r_fuel (R N)) (mibody N) []).
  eapply runs_conseq; [eapply (items_loop (mibody N) N (fun acc a => acc ++ [MI_Item a]) (fun l => l));
    [| |exact D|exact He|exact Hf|unfold R; rewrite R_fuel; lia|exact S]|].
  - clear - HV. intros acc t T K g o s b Q Ht S H. unfold mibody. apply runs_assoc.
    eapply k_peek; [exact HV|exact S|fit|]. intros s' S'. rewrite (is_t_refl t (TPunc T_EOF) Logic.I Ht).
    apply runs_ret_bind. apply H, S'.
  - clear - HV. intros acc t T K g i o s b E Q Ht S H1 H2. unfold mibody. apply runs_assoc.
    eapply k_peek; [exact HV|exact S|right; exact (proj1 (item_start_follow t (or_introl Ht)))|]. intros s' S'.
    rewrite (first_not_eof t Ht), (first_not_port t Ht). apply runs_assoc.
    eapply k_call; [eapply H1, S'|]. intros a b2 s2 Ha _ S2. apply runs_ret_bind. eapply H2; eassumption.
  - intros r s' ((l2 & -> & Hl2) & HS). split; [|exact HS]. rewrite <- Hl2. clear.
    assert (G : forall l acc, fold_left (fun acc a => acc ++ [MI_Item a]) l acc = acc ++ map MI_Item l).
    { induction l as [|x l IH]; intros acc; cbn; [rewrite app_nil_r; reflexivity|]. rewrite IH, <- app_assoc. reflexivity. }
    rewrite G. cbn [app]. rewrite !map_map. apply map_ext. reflexivity.
Qed.
Lemma program_loop l g i e rest N s b : GX true g Items i (e :: rest) l -> at_eof e -> fu 4 i N -> st b g i s ->
  runs (program_items_ V (R N)) s (gives V src gl tr md 1 g (e :: rest)
    (fun r => exists l2, r = PI_Script l2 /\ map item_untrack l2 = map item_untrack l)).
Proof.
  intros D He Hf S. unfold fu in Hf. change (program_items_ V (R N)) with (loopM (r_fuel (R N)) (pibody N) []).
  eapply runs_conseq; [eapply (items_loop (pibody N) N (fun acc a => acc ++ [a]) PI_Script);
    [| |exact D|exact He|exact Hf|unfold R; rewrite R_fuel; lia|exact S]|].
  - clear - HV. intros acc t T K g o s b Q Ht S H. unfold pibody. apply runs_assoc.
    eapply k_peek; [exact HV|exact S|fit|]. intros s' S'. rewrite (is_t_refl t (TPunc T_EOF) Logic.I Ht).
    apply runs_ret_bind. apply H, S'.
  - clear - HV. intros acc t T K g i o s b E Q Ht S H1 H2. unfold pibody. apply runs_assoc.
    eapply k_peek; [exact HV|exact S|right; exact (proj1 (item_start_follow t (or_introl Ht)))|]. intros s' S'.
    rewrite (first_not_eof t Ht), (first_not_port t Ht). apply runs_assoc.
    eapply k_call; [eapply H1, S'|]. intros a b2 s2 Ha _ S2. apply runs_ret_bind. eapply H2; eassumption.
  - intros r s' ((l2 & -> & Hl2) & HS). split; [|exact HS]. exists l2. split; [|exact Hl2]. clear.
    assert (G : forall l acc : list item, fold_left (fun acc a => acc ++ [a]) l acc = acc ++ l).
    { induction l as [|x l IH]; intros acc; cbn; [rewrite app_nil_r; reflexivity|]. rewrite IH, <- app_assoc. reflexivity. }
    rewrite G. reflexivity.
Qed.
End Items.

(** A derivation of a body: its directives, its items. *)
Definition body_shape g i o (c : script) : Prop :=
  exists i1, GX true g Directives i i1 (bo_dirs c) /\ no_dir i1 /\ GX true g Items i1 o (bo_items c).
Lemma body_inv g i o c : GX true g Script i o c -> body_shape g i o c.
Proof.
  intros D. change (match Script in nt T return T -> Prop with
    | Script => body_shape g i o | FunctionBody => fun _ => True | _ => fun _ => True end c).
  destruct D; try exact Logic.I. exists i1. cbn. split; [exact D1|]. split; [|exact D2].
  eapply script_no_dir; eauto.
Qed.
Lemma dirs_run gl tr md (Hmode : (md = Sloppy -> tr <> Yes /\ gl <> G_Module) /\ (md = Strict -> gl <> G_Module))
  g i i1 ds N s b : GX true g Directives i i1 ds -> no_dir i1 -> fu 4 i N -> st V src gl tr md b g i s ->
  runs (body_directives V (parse_rec V N)) s (gives V src gl tr md 1 g i1 (fun ds' => map dir_untrack ds' = map dir_untrack ds)).
Proof.
  intros D Hn Hf S. unfold fu in Hf. pose proof (found V src HV gl tr md Hmode _ _ _ _ _ _ D) as F.
  eapply runs_conseq; [eapply (F (r_fuel (parse_rec V N)) []); [|exact Hn|exact S]|].
  - pose proof (R_fuel V N) as E. unfold R in E. rewrite E. lia.
  - intros r s' ((l & -> & H & _) & HS). split; [exact H|exact HS].
Qed.

Lemma module_found ts e rest k t : reads V src (ts ++ e :: rest) k -> at_eof e ->
  GX true (top Module_) Script (ts ++ e :: rest) (e :: rest) t ->
  exists t', module_of V src = Ok t'
    /\ module_untrack t' = module_untrack (Body (bo_loc t) (bo_dirs t) (map MI_Item (bo_items t))).
Proof.
  intros Hr He D. apply body_inv in D as (i1 & D1 & Hn & D2).
  assert (Hmode : (Module_ = Sloppy -> Yes <> Yes /\ G_Module <> G_Module) /\ (Module_ = Strict -> G_Module <> G_Module)).
  { split; discriminate. }
  assert (Hx : runs (module_ V (parse_rec V (fuel_for src))) (parser_new src)
    (gives V src G_Module Yes Module_ 1 (top Module_) (e :: rest) (fun t' =>
       module_untrack t' = module_untrack (Body (bo_loc t) (bo_dirs t) (map MI_Item (bo_items t)))))).
  { unfold module_. change (runs (p_span body_set_loc
      (dirs <- body_directives V (parse_rec V (fuel_for src)) ;;
       items <- module_items V (parse_rec V (fuel_for src)) ;; ret (Body None dirs items)))
      (start src G_Module Yes) (gives V src G_Module Yes Module_ 1 (top Module_) (e :: rest) (fun t' =>
       module_untrack t' = module_untrack (Body (bo_loc t) (bo_dirs t) (map MI_Item (bo_items t)))))).
    eapply r_span with (Q' := fun t' =>
       module_untrack t' = module_untrack (Body (bo_loc t) (bo_dirs t) (map MI_Item (bo_items t)))).
    - pose proof (start_fu _ k 4 ltac:(lia) Hr) as Hf.
      eapply k_call; [eapply dirs_run; [exact Hmode|exact D1|exact Hn|exact Hf|eapply start_st, Hr]|].
      intros ds b1 s1 Hd _ S1. pose proof (G_W _ _ _ _ _ _ _ D1) as Hw. unfold solid in Hw. cbn [fst_ok] in Hw.
      eapply k_call; [eapply module_loop; [exact Hmode|exact D2|exact He|unfold fu in *; lia|exact S1]|].
      intros l b2 s2 Hl Hb S2. apply runs_ret. split; [|eauto].
      unfold module_untrack, body_untrack. cbn [bo_loc bo_dirs bo_items]. rewrite Hd, Hl, !map_map. reflexivity.
    - intros [a1 a2 a3] l' Ha. exact Ha. }
  apply runs_run in Hx as (t' & s' & E & Ht & _). exists t'. split; [exact E|exact Ht].
Qed.

Lemma program_found ts e rest k t : reads V src (ts ++ e :: rest) k -> at_eof e ->
  GX true (top Sloppy) Script (ts ++ e :: rest) (e :: rest) t ->
  exists cs t', program_of V src = Ok (Pg_Ambiguous cs t')
    /\ body_untrack item_untrack t' = body_untrack item_untrack t.
Proof.
  intros Hr He D. apply body_inv in D as (i1 & D1 & Hn & D2).
  assert (Hmode : (Sloppy = Sloppy -> Unknown <> Yes /\ G_Unknown <> G_Module) /\ (Sloppy = Strict -> G_Unknown <> G_Module)).
  { split; intros; try split; discriminate. }
  set (Q := fun p => exists cs t', p = Pg_Ambiguous cs t' /\ body_untrack item_untrack t' = body_untrack item_untrack t).
  assert (Hx : runs (program_ V (parse_rec V (fuel_for src))) (parser_new src) (fun p _ => Q p)).
  { unfold program_. change (runs (p_span program_set_loc
      (dirs <- body_directives V (parse_rec V (fuel_for src)) ;;
       items <- program_items_ V (parse_rec V (fuel_for src)) ;;
       match items with
       | PI_Script items => checks <- take_deferred ;; ret (Pg_Ambiguous checks (Body None dirs items))
       | PI_Module items => ret (Pg_Module (Body None dirs items))
       end)) (start src G_Unknown Unknown) (fun p _ => Q p)).
    apply runs_eta. apply k_span.
    pose proof (start_fu _ k 4 ltac:(lia) Hr) as Hf. apply runs_assoc.
    eapply k_call; [eapply dirs_run; [exact Hmode|exact D1|exact Hn|exact Hf|eapply start_st, Hr]|].
    intros ds b1 s1 Hd _ S1. pose proof (G_W _ _ _ _ _ _ _ D1) as Hw. unfold solid in Hw. cbn [fst_ok] in Hw.
    apply runs_assoc.
    eapply k_call; [eapply program_loop; [exact Hmode|exact D2|exact He|unfold fu in *; lia|exact S1]|].
    intros r b2 s2 (l & -> & Hl) Hb S2. unfold take_deferred. apply runs_assoc. apply runs_assoc. apply runs_gets.
    apply runs_assoc. apply runs_modify. apply runs_ret_bind. apply runs_ret_bind. apply runs_posn. intros p.
    apply runs_ret. eexists _, _. split; [reflexivity|].
    unfold body_untrack. cbn [bo_loc bo_dirs bo_items body_set_loc]. rewrite Hd, Hl. reflexivity. }
  apply runs_run in Hx as (p & s' & E & cs & t' & -> & Ht). exists cs, t'. split; [exact E|exact Ht].
Qed.

End Entry.
