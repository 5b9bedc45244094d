(** Texts that begin on a new line can be written behind others (C85). *)
From Coq Require Import String Ascii List NArith Arith Bool Lia.
From Verif Require Import Base Chars Word Token Reader Lexer LexClient Punc Ast Track PState Parser Api Node SpecStack
  SpecReader SpecTree SpecLexer SpecGrammar SpecParser SpecPlace SpecEntry SpecExact SpecJoin GrammarProps Wp LexWp LexerProofs LexTheorems
  LexLayout ExactProofs PropLayout PropDivision CompTok PropParser PropComplete PropExact EndProofs EndText PropEnd PropComments
  RestProofs PropRest JoinProofs PropJoin.
From Verif Require SpecBlank PropBlank BlankTree.
Import ListNotations.
Local Open Scope nat_scope.

Lemma next_shift V pre s op b k t k' : next_token V s op b k t k' ->
  exists t', next_token V (pre ++ s) op b (length pre + k) t' (length pre + k') /\ SpecLayout.unplaced t' = SpecLayout.unplaced t.
Proof.
  intros (ws & w & l & E & E' & T & L & El & En).
  exists (Token (Span (posn_at (pre ++ s) (length pre + k + length ws)) (posn_at (pre ++ s) (length pre + k'))) (tk_newline t) (tk_value t)).
  split; [|reflexivity]. exists ws, w, l. cbn [tk_value tk_loc tk_newline]. split; [|split; [lia|auto 6]].
  rewrite skipn_app, skipn_all2 by lia. replace (length pre + k - length pre) with k by lia. exact E.
Qed.
Lemma tiles_shift V pre s ops b k ts k' : tiles V s ops b k ts k' ->
  exists ts', tiles V (pre ++ s) ops b (length pre + k) ts' (length pre + k') /\ map SpecLayout.unplaced ts' = map SpecLayout.unplaced ts.
Proof.
  induction 1 as [|op ops b k t k1 ts k2 N T IH]; [exists []; split; [constructor|reflexivity]|].
  destruct (next_shift V pre s _ _ _ _ _ N) as (t' & N' & E'). destruct IH as (ts' & T' & E2).
  exists (t' :: ts'). split; [econstructor; eassumption|]. cbn [map]. congruence.
Qed.
Lemma trivia_pad a : forall ws r, trivia true ws r -> trivia true (blanked a ++ ws) r.
Proof.
  induction a as [|x a IH]; intros ws r T; [exact T|]. cbn [blanked map app]. fold (blanked a).
  pose proof (blanked_char x) as hx. cbv zeta in hx. destruct hx as [[h ->]|[h ->]].
  - apply tv_newline; [exact h|]. apply IH, T.
  - apply tv_space; [|apply IH, T]. split; [cbn; tauto|split; discriminate].
Qed.

(** A text that begins with a line terminator has the same tokens behind blanks. *)
Lemma blanked_one c : line_terminator c -> blanked [c] = [c].
Proof.
  intros hc. pose proof (blanked_char c) as K. cbv zeta in K. unfold blanked. cbn [map].
  destruct K as [[_ K]|[K _]]; [rewrite K; reflexivity|contradiction].
Qed.
Lemma new_line_ws c s ws w l : line_terminator c -> c :: s = ws ++ w ++ l -> trivia true ws (w ++ l) -> exists ws', ws = c :: ws'.
Proof.
  intros hc E T. destruct (trivia_blanked [c] true ws (w ++ l) s T) as (ws' & b' & -> & _).
  - rewrite <- E, (blanked_one c hc). reflexivity.
  - exists ws'. rewrite (blanked_one c hc). reflexivity.
Qed.
Lemma tiles_pad V a c s ops ts k : line_terminator c -> tiles V (c :: s) ops true 0 ts k ->
  exists ts' k', tiles V (blanked a ++ c :: s) ops true 0 ts' k' /\ map SpecLayout.unplaced ts' = map SpecLayout.unplaced ts.
Proof.
  intros hc T. inversion T as [|op ops' ? ? t k1 ts0 ? N T0]; subst; [exists [], 0; split; [constructor|reflexivity]|].
  destruct (tiles_shift V (blanked a) _ _ _ _ _ _ T0) as (ts' & T' & E').
  destruct N as (ws & w & l & E & Ek & Tr & L & El & En). cbn [skipn Nat.add] in *.
  destruct (new_line_ws _ _ _ _ _ hc E Tr) as (ws' & ->).
  exists (Token (Span (posn_at (blanked a ++ c :: s) (length (blanked a) + length (c :: ws'))) (posn_at (blanked a ++ c :: s) (length (blanked a) + k1)))
    (tk_newline t) (tk_value t) :: ts'), (length (blanked a) + k).
  split; [|cbn [map]; rewrite E'; reflexivity]. econstructor; [|exact T'].
  exists (blanked a ++ c :: ws'), w, l. cbn [skipn Nat.add tk_value tk_loc tk_newline]. rewrite app_length.
  split; [rewrite E, <- app_assoc; reflexivity|]. split; [lia|]. split; [apply trivia_pad, Tr|]. split; [exact L|].
  split; [reflexivity|]. rewrite En. unfold has_newline. rewrite Exists_app. split; [tauto|].
  intros _. constructor. exact hc.
Qed.
Lemma opens_pad V a c s : line_terminator c -> opens V (c :: s) -> opens V (blanked a ++ c :: s).
Proof.
  intros hc ho t k (ops & T). inversion T as [|op ops' ? ? ? k1 ? ? N T0]; subst.
  destruct N as (ws & w & l & E & Ek & Tr & L & El & En). cbn [skipn Nat.add] in *.
  destruct (trivia_blanked _ _ _ _ _ Tr (eq_sym E)) as (ws' & b' & -> & Tr' & kt & _). rewrite (kt eq_refl) in Tr'.
  rewrite <- app_assoc in E. apply app_inv_head in E.
  destruct (new_line_ws _ _ _ _ _ hc E Tr') as (ws0 & ->).
  apply (ho (Token (Span (posn_at (c :: s) (length (c :: ws0))) (posn_at (c :: s) (length (c :: ws0) + length w))) true (tk_value t))
    (length (c :: ws0) + length w)).
  exists [op]. econstructor; [|constructor]. exists (c :: ws0), w, l. cbn [skipn Nat.add tk_value tk_loc tk_newline].
  split; [exact E|]. split; [reflexivity|]. split; [exact Tr'|]. split; [exact L|]. split; [reflexivity|].
  split; [intros _; constructor; exact hc|reflexivity].
Qed.
Lemma unplaced_value ts ts' : map SpecLayout.unplaced ts' = map SpecLayout.unplaced ts -> Forall2 (fun t' t => tk_value t' = tk_value t) ts' ts.
Proof.
  revert ts'. induction ts as [|t ts IH]; intros [|t' ts'] E; try discriminate; constructor.
  - injection E as _ E _. exact E.
  - apply IH. cbn [map] in E. congruence.
Qed.
Lemma plain_pad V a c s : line_terminator c -> plain V (c :: s) -> plain V (blanked a ++ c :: s).
Proof.
  intros hc [h|(ts & e & k & (ops & T) & He & F)].
  - left. intros K. apply in_app_or in K as [K|K]; [|contradiction]. unfold blanked in K. apply in_map_iff in K as (x & E & _).
    pose proof (blanked_char x) as hx. cbv zeta in hx. destruct hx as [[hx E']|[_ E']]; rewrite E' in E.
    + subst x. cbn in hx. intuition discriminate.
    + discriminate E.
  - right. destruct (tiles_pad V a c s ops _ _ hc T) as (ts' & k' & T' & E). apply unplaced_value in E.
    apply Forall2_app_inv_r in E as (l1 & l2 & E1 & E2 & ->). inversion E2 as [|e' ? ? ? E3 E4]; subst. inversion E4; subst.
    exists l1, e', k'. split; [exists ops; exact T'|]. split; [unfold at_eof in *; congruence|].
    clear -E1 F. induction E1 as [|t' t l l' h H IH]; constructor.
    + apply Forall_inv in F. unfold regexp, slash in *. rewrite h. exact F.
    + apply IH. exact (Forall_inv_tail F).
Qed.
Lemma result_pad V (entry : str -> res perror script) a c s t : SpecBlank.decided V SpecBlank.script_blank entry -> line_terminator c ->
  entry (c :: s) = Ok t -> exists t', entry (blanked a ++ c :: s) = Ok t' /\ script_untrack t' = script_untrack t.
Proof.
  intros hd hc E. destruct (hd (c :: s)) as (ops & ts & k & T & H); [rewrite E; intros []|].
  destruct (tiles_pad V a c s ops ts k hc T) as (ts' & k' & T' & ET). specialize (H _ _ _ T' ET). rewrite E in H.
  destruct (entry (blanked a ++ c :: s)) as [t'| | |]; try discriminate H. exists t'. split; [reflexivity|].
  apply BlankTree.script_untrack_blank. exact (f_equal (fun r => match r with Ok x => x | _ => SpecBlank.script_blank t end) H).
Qed.

Lemma joined_items (tA tB tB' : script) : script_untrack tB' = script_untrack tB ->
  script_untrack (Body None (bo_dirs tA) (bo_items tA ++ bo_items tB')) = script_untrack (Body None (bo_dirs tA) (bo_items tA ++ bo_items tB)).
Proof.
  intros E. unfold script_untrack, body_untrack in *. cbn in *. injection E as _ E. f_equal. rewrite !map_app, E. reflexivity.
Qed.

(** C85, for any two texts the second of which begins on a new line: the results for
    each alone determine the result for both. *)
Theorem C85_texts_join : forall V a c b tA tB, ucd_ok V -> line_terminator c -> closed_line V a -> plain V a -> plain V (c :: b) ->
  labels_differ (N_body tA) -> labels_differ (N_body tB) -> opens V (c :: b) -> bo_items tB <> [] ->
  (consists_of V a Sloppy tA -> script_of V (c :: b) = Ok tB ->
     exists t, script_of V (a ++ c :: b) = Ok t
       /\ script_untrack t = script_untrack (Body None (bo_dirs tA) (bo_items tA ++ bo_items tB)))
  /\ (consists_of V a Strict tA -> strict_of V (c :: b) = Ok tB ->
     exists t, strict_of V (a ++ c :: b) = Ok t
       /\ script_untrack t = script_untrack (Body None (bo_dirs tA) (bo_items tA ++ bo_items tB))).
Proof.
  intros V a c b tA tB HV hc ha Pa Pb La Lb ho hi. destruct (PropBlank.C70_tokens_decide V HV) as (d1 & d2 & _).
  assert (K : forall tB', script_untrack tB' = script_untrack tB -> labels_differ (N_body tB') /\ bo_items tB' <> []).
  { intros tB' E. split.
    - eapply labels_untrack; [|exact Lb]. cbn. f_equal. symmetry. exact E.
    - intros E0. apply hi. unfold script_untrack, body_untrack in E. injection E as _ E. rewrite E0 in E.
      destruct (bo_items tB); [reflexivity|discriminate]. }
  split; intros Ca E.
  - destruct (result_pad V _ a c b tB d1 hc E) as (tB' & E' & Eu). destruct (K _ Eu) as [L' i'].
    destruct (proj1 (C85_scripts_join V a (c :: b) tA tB' HV ha Pa (plain_pad V a c b hc Pb) La L' (opens_pad V a c b hc ho) i') Ca E')
      as (t & Et & Eut). exists t. split; [exact Et|]. rewrite Eut. apply joined_items, Eu.
  - destruct (result_pad V _ a c b tB d2 hc E) as (tB' & E' & Eu). destruct (K _ Eu) as [L' i'].
    destruct (proj2 (C85_scripts_join V a (c :: b) tA tB' HV ha Pa (plain_pad V a c b hc Pb) La L' (opens_pad V a c b hc ho) i') Ca E')
      as (t & Et & Eut). exists t. split; [exact Et|]. rewrite Eut. apply joined_items, Eu.
Qed.
Print Assumptions C85_texts_join.

(** The same for modules. *)
Lemma items_blank_only (is : list item) : forall ms, map SpecBlank.mod_item_blank ms = map SpecBlank.mod_item_blank (map MI_Item is) ->
  exists is', ms = map MI_Item is' /\ map SpecBlank.item_blank is' = map SpecBlank.item_blank is.
Proof.
  induction is as [|i is IH]; intros [|m ms] E; try discriminate E; [exists []; split; reflexivity|].
  cbn [map] in E. injection E as E1 E2. destruct (IH _ E2) as (is' & -> & E3). destruct m as [| |j]; try discriminate E1.
  exists (j :: is'). split; [reflexivity|]. cbn [map]. rewrite E3. f_equal.
  exact (f_equal (fun m => match m with MI_Item x => x | _ => SpecBlank.item_blank i end) E1).
Qed.
Lemma module_pad V a c s l ds is : ucd_ok V -> line_terminator c -> module_of V (c :: s) = Ok (Body l ds (map MI_Item is)) ->
  exists l' ds' is', module_of V (blanked a ++ c :: s) = Ok (Body l' ds' (map MI_Item is'))
    /\ script_untrack (Body l' ds' is') = script_untrack (Body l ds is).
Proof.
  intros HV hc E. destruct (PropBlank.C70_tokens_decide V HV) as (_ & _ & hd & _).
  destruct (hd (c :: s)) as (ops & ts & k & T & H); [rewrite E; intros []|].
  destruct (tiles_pad V a c s ops ts k hc T) as (ts' & k' & T' & ET). specialize (H _ _ _ T' ET). rewrite E in H.
  destruct (module_of V (blanked a ++ c :: s)) as [[l' ds' ms]| | |]; try discriminate H.
  unfold SpecBlank.result_blank, SpecBlank.module_blank, SpecBlank.body_blank in H. cbn [bo_loc bo_dirs bo_items] in H.
  injection H as H1 H2 H3. destruct (items_blank_only _ _ H3) as (is' & -> & H4).
  exists l', ds', is'. split; [reflexivity|]. apply BlankTree.script_untrack_blank.
  unfold SpecBlank.script_blank, SpecBlank.body_blank. cbn [bo_loc bo_dirs bo_items]. rewrite H1, H2, H4. reflexivity.
Qed.
Theorem C85_module_texts_join : forall V a c b lA dsA isA lB dsB isB, ucd_ok V -> line_terminator c -> closed_line V a ->
  plain V a -> plain V (c :: b) ->
  labels_differ (N_body (Body lA dsA isA)) -> labels_differ (N_body (Body lB dsB isB)) -> opens V (c :: b) -> isB <> [] ->
  module_of V a = Ok (Body lA dsA (map MI_Item isA)) -> module_of V (c :: b) = Ok (Body lB dsB (map MI_Item isB)) ->
  exists t, module_of V (a ++ c :: b) = Ok t
    /\ module_untrack t = module_untrack (Body None dsA (map MI_Item (isA ++ isB))).
Proof.
  intros V a c b lA dsA isA lB dsB isB HV hc ha Pa Pb La Lb ho hi Ea Eb.
  destruct (module_pad V a c b _ _ _ HV hc Eb) as (l' & ds' & is' & E' & Eu).
  assert (Eu' : map item_untrack is' = map item_untrack isB).
  { unfold script_untrack, body_untrack in Eu. cbn in Eu. injection Eu as _ Eu. exact Eu. }
  assert (L' : labels_differ (N_body (Body l' ds' is'))).
  { eapply labels_untrack; [|exact Lb]. cbn [node_untrack]. f_equal. symmetry. exact Eu. }
  assert (i' : is' <> []). { intros ->. destruct isB; [exact (hi eq_refl)|discriminate Eu']. }
  destruct (C85_modules_join V a (c :: b) lA dsA isA l' ds' is' HV ha Pa (plain_pad V a c b hc Pb) La L' (opens_pad V a c b hc ho) i' Ea E')
    as (t & Et & Ut). exists t. split; [exact Et|]. rewrite Ut. unfold module_untrack, body_untrack. cbn [bo_loc bo_dirs bo_items].
  f_equal. rewrite !map_map, !map_app. f_equal.
  rewrite <- !(map_map item_untrack MI_Item). rewrite Eu'. reflexivity.
Qed.
Print Assumptions C85_module_texts_join.

(** Two texts that meet the hypotheses. *)
Definition third_half : str := 10%N :: second_half.
Example C85_texts_example : let V := env_ascii in exists tA tB,
  closed_line V first_half /\ plain V first_half /\ plain V third_half /\ labels_differ (N_body tA) /\ labels_differ (N_body tB)
  /\ opens V third_half /\ length (bo_items tA) = 2 /\ length (bo_items tB) = 1
  /\ consists_of V first_half Sloppy tA /\ script_of V third_half = Ok tB.
Proof.
  destruct C85_example as (tA & _ & tsA & _ & _ & TA & _ & hc & PA & _ & LA & _ & _ & _ & iA & _ & CA & _).
  intros V. assert (B : exists t ts, token_list V third_half (t :: ts) /\ starts_afresh (tk_value t)).
  { eexists _, [_; _; _; _; _]. split.
    - eexists (repeat false 7), _, _. split; [vm_compute; reflexivity|split; [reflexivity|]].
      repeat constructor; try (intros (? & K); discriminate K); try discriminate; intros K; cbn in K; decompose sum K; discriminate.
    - exact I. }
  destruct B as (t0 & tsB & TB & hs).
  assert (Y : exists tB, script_of V third_half = Ok tB /\ length (bo_items tB) = 1 /\ labels_differ (N_body tB)).
  { eexists. split; [vm_compute; reflexivity|]. split; [reflexivity|].
    match goal with |- labels_differ ?n => assert (h : L nothing n); [labels|destruct h as [h]; exact h] end. }
  destruct Y as (tB & EB & iB & LB). exists tA, tB. split; [exact hc|]. split; [exact PA|].
  split; [right; exact (token_list_slashless _ _ _ ucd_ok_ascii TB)|]. split; [exact LA|]. split; [exact LB|].
  split; [exact (opens_of _ _ _ _ ucd_ok_ascii TB hs)|]. auto.
Qed.
Example C85_module_texts_example : let V := env_ascii in exists lA dsA isA lB dsB isB,
  length isA = 2 /\ length isB = 1 /\ labels_differ (N_body (Body lA dsA isA)) /\ labels_differ (N_body (Body lB dsB isB))
  /\ module_of V first_half = Ok (Body lA dsA (map MI_Item isA)) /\ module_of V third_half = Ok (Body lB dsB (map MI_Item isB)).
Proof.
  intros V.
  assert (X : exists l ds is, module_of V first_half = Ok (Body l ds (map MI_Item is)) /\ length is = 2 /\ labels_differ (N_body (Body l ds is))).
  { eexists _, _, [_; _]. split; [vm_compute; reflexivity|]. split; [reflexivity|].
    match goal with |- labels_differ ?n => assert (h : L nothing n); [labels|destruct h as [h]; exact h] end. }
  assert (Y : exists l ds is, module_of V third_half = Ok (Body l ds (map MI_Item is)) /\ length is = 1 /\ labels_differ (N_body (Body l ds is))).
  { eexists _, _, [_]. split; [vm_compute; reflexivity|]. split; [reflexivity|].
    match goal with |- labels_differ ?n => assert (h : L nothing n); [labels|destruct h as [h]; exact h] end. }
  destruct X as (lA & dsA & isA & EA & iA & LA), Y as (lB & dsB & isB & EB & iB & LB). exists lA, dsA, isA, lB, dsB, isB. auto 8.
Qed.
