(** Scripts and modules can be put one behind the other (C85).  The vocabulary is that of
    [SpecLexer], [SpecGrammar], [SpecExact] and [SpecJoin]. *)
From Coq Require Import String Ascii List NArith Arith Bool Lia.
From Verif Require Import Base Chars Word Token Reader Lexer LexClient Punc Ast Track PState Parser Api Node SpecStack
  SpecTree SpecLexer SpecGrammar SpecParser SpecPlace SpecEntry SpecExact SpecJoin GrammarProps Wp LexWp LexerProofs LexTheorems
  LexLayout ExactProofs PropLayout PropDivision
  CompTok PropParser PropComplete PropExact EndProofs EndText PropEnd PropComments RestProofs PropRest JoinProofs.
Import ListNotations.
Local Open Scope nat_scope.

Lemma tiles_front V src ops b k ts k' : tiles V src ops b k ts k' -> forall pre post, ts = pre ++ post ->
  exists ops' k1, tiles V src ops' b k pre k1.
Proof.
  induction 1 as [|op ops b k t k1 ts k2 N T IH]; intros pre post E.
  - destruct pre; [|discriminate]. exists [], k. constructor.
  - destruct pre as [|x pre]; [exists [], k; constructor|]. injection E as <- E.
    destruct (IH _ _ E) as (ops' & k3 & T'). exists (op :: ops'), k3. econstructor; eassumption.
Qed.

Lemma join_derived V a b m tA tB tsB restB k : ucd_ok V -> closed_line V a -> plain V a -> plain V (blanked a ++ b) ->
  labels_differ (N_body tA) -> labels_differ (N_body tB) -> opens V (blanked a ++ b) -> bo_items tB <> [] ->
  consists_of V a m tA -> reads V (blanked a ++ b) (tsB ++ restB) k -> G (top m) Script (tsB ++ restB) restB tB ->
  bo_dirs tB = [] /\ exists ts k', reads V (a ++ b) (ts ++ restB) k'
    /\ forall l, GX true (top m) Script (ts ++ restB) restB (Body l (bo_dirs tA) (bo_items tA ++ bo_items tB)).
Proof.
  intros HV [ht hlet] Pa Pb La Lb ho hi (ts & e & rest & ka & (opsa & Ta) & He & Da) (opsb & Tb) Db.
  apply sure_script in Da; [|exact (plain_calm _ _ _ _ HV Pa ltac:(exists opsa; exact Ta))|exact La].
  apply sure_script in Db; [|exact (plain_calm _ _ _ _ HV Pb ltac:(exists opsb; exact Tb))|exact Lb].
  assert (hf : exists b0 B0, tsB ++ restB = b0 :: B0 /\ item_first (tk_value b0) = true /\ starts_afresh (tk_value b0)).
  { pose proof (script_parts _ _ _ _ _ _ _ Db) as (j & E1 & E2 & _).
    assert (hs : forall t r, tsB ++ restB = t :: r -> starts_afresh (tk_value t)).
    { intros t r E. destruct (tiles_front _ _ _ _ _ _ _ Tb [t] r E) as (ops' & k1 & T1). eapply ho. exists ops'. exact T1. }
    destruct (dirs_parts _ _ _ _ _ _ _ E1) as [[_ <-]|(t & r & E & (s & K))].
    - destruct (items_parts _ _ _ _ _ E2 hi) as (t & r & E & K). exists t, r. eauto.
    - pose proof (hs _ _ E) as K'. rewrite K in K'. destruct K'. }
  destruct hf as (b0 & B0 & EB & hb1 & hb2). rewrite EB in *.
  inversion Tb as [|op ops ? ? ? k1 ? ? N T]; subst.
  destruct N as (ws & w & l & E & E' & Tr & L & El & En). cbn [skipn] in E.
  destruct (trivia_blanked _ _ _ _ _ Tr (eq_sym E)) as (ws' & b' & -> & Tr' & kt & _). rewrite (kt eq_refl) in Tr'.
  rewrite <- app_assoc in E. apply app_inv_head in E.
  rewrite app_length, blanked_length in El, E'. cbn [Nat.add] in El, E'. rewrite E' in El. rewrite !posn_blanked in El.
  assert (hn : tk_newline b0 = true).
  { apply En. destruct ht as (a' & c & -> & hc). unfold has_newline, blanked. rewrite map_app, <- app_assoc.
    apply Exists_app. right. cbn [map app]. constructor. pose proof (blanked_char c) as K. cbv zeta in K.
    destruct K as [[_ ->]|[K _]]; [exact hc|contradiction]. }
  apply tiles_blanked in T; [|lia]. rewrite E' in T.
  assert (hex : Exists (fun t => tk_value t = TPunc T_EOF) (ts ++ e :: rest)) by (apply Exists_app; right; constructor; exact He).
  assert (hll : forall pre t e' post, ts ++ e :: rest = pre ++ t :: e' :: post -> tk_value t = TIdent (NAtom A_Let) -> tk_value e' <> TPunc T_EOF).
  { intros pre t e' post EE h1 h2. destruct (tiles_front _ _ _ _ _ _ _ Ta (pre ++ [t; e']) post) as (ops' & k2 & T2).
    - rewrite EE, <- app_assoc. reflexivity.
    - eapply hlet; [exists ops'; exact T2|exact h2|exact h1]. }
  destruct (tiles_join V a b _ _ _ _ _ b0 B0 op ops k ws' w l HV ht E Tr' L hn El T Ta) as (ops' & tsJ & TJ & R).
  { destruct ht as (a' & c & -> & _). rewrite app_length. cbn. lia. }
  { exact hex. }
  { exact hll. }
  assert (hfr : fresh b0) by (split; [exact hn|split; assumption]).
  destruct (script_joined b0 B0 hfr _ _ _ _ _ _ _ Da ltac:(exists e, rest; auto) Db R) as [Ed D]. split; [exact Ed|].
  destruct (G_suffix _ _ _ _ _ _ (D None)) as (pre & ->). exists pre, k. split; [exists ops'; exact TJ|exact D].
Qed.

(** C85: behind a text that is a script, and that ends with its line, another script may
    be written.  [script] and [strict] accept the two together, and return the directives
    and statements of the one followed by the statements of the other.  The second text
    is given as it stands behind the first, with the first blanked out. *)
Theorem C85_scripts_join : forall V a b tA tB, ucd_ok V -> closed_line V a -> plain V a -> plain V (blanked a ++ b) ->
  labels_differ (N_body tA) -> labels_differ (N_body tB) -> opens V (blanked a ++ b) -> bo_items tB <> [] ->
  (consists_of V a Sloppy tA -> script_of V (blanked a ++ b) = Ok tB ->
     exists t, script_of V (a ++ b) = Ok t
       /\ script_untrack t = script_untrack (Body None (bo_dirs tA) (bo_items tA ++ bo_items tB)))
  /\ (consists_of V a Strict tA -> strict_of V (blanked a ++ b) = Ok tB ->
     exists t, strict_of V (a ++ b) = Ok t
       /\ script_untrack t = script_untrack (Body None (bo_dirs tA) (bo_items tA ++ bo_items tB))).
Proof.
  intros V a b tA tB HV hc Pa Pb La Lb ho hi. split; intros Ca E.
  - apply C44_script in E as (ts & rest & k & Hr & D); [|exact HV].
    destruct (join_derived _ _ _ _ _ _ _ _ _ HV hc Pa Pb La Lb ho hi Ca Hr D) as (_ & ts' & k' & Hr' & D').
    exact (C67_script _ _ _ _ _ _ HV Hr' (D' None)).
  - apply C44_strict in E as (ts & rest & k & Hr & D); [|exact HV].
    destruct (join_derived _ _ _ _ _ _ _ _ _ HV hc Pa Pb La Lb ho hi Ca Hr D) as (_ & ts' & k' & Hr' & D').
    exact (C67_strict _ _ _ _ _ _ HV Hr' (D' None)).
Qed.
Print Assumptions C85_scripts_join.

(** C85 for modules: an accepted module always extends to the end of its text. *)
Theorem C85_modules_join : forall V a b lA dsA isA lB dsB isB, ucd_ok V -> closed_line V a -> plain V a -> plain V (blanked a ++ b) ->
  labels_differ (N_body (Body lA dsA isA)) -> labels_differ (N_body (Body lB dsB isB)) -> opens V (blanked a ++ b) -> isB <> [] ->
  module_of V a = Ok (Body lA dsA (map MI_Item isA)) -> module_of V (blanked a ++ b) = Ok (Body lB dsB (map MI_Item isB)) ->
  exists t, module_of V (a ++ b) = Ok t
    /\ module_untrack t = module_untrack (Body None dsA (map MI_Item (isA ++ isB))).
Proof.
  intros V a b lA dsA isA lB dsB isB HV hc Pa Pb La Lb ho hi Ea Eb.
  assert (inj : forall x y : list item, map MI_Item x = map MI_Item y -> x = y).
  { induction x as [|p x IH]; intros [|q y] K; try discriminate; [reflexivity|]. cbn in K. injection K as -> K. f_equal. exact (IH _ K). }
  destruct (C31_module_whole V a _ HV Ea) as (l & ds & is & ts & e & rest & E1 & He & Hr & Ht).
  injection E1 as <- <- E1. apply inj in E1 as <-.
  destruct (C31_module_whole V _ _ HV Eb) as (l2 & ds2 & is2 & ts2 & e2 & rest2 & E2 & He2 & Hr2 & Ht2).
  injection E2 as <- <- E2. apply inj in E2 as <-.
  destruct (join_derived V a b Module_ (Body lA dsA isA) (Body lB dsB isB) ts2 (e2 :: rest2) (length (blanked a ++ b)) HV hc Pa Pb La Lb ho hi) as (_ & ts' & k' & Hr' & D').
  - exists ts, e, rest, (length a). split; [exact Hr|]. split; [exact He|]. exact (script_of_top _ _ _ _ _ _ _ Ht He).
  - exact Hr2.
  - exact (script_of_top _ _ _ _ _ _ _ Ht2 He2).
  - exact (C67_module _ _ _ _ _ _ _ _ _ HV Hr' He2 (D' None)).
Qed.
Print Assumptions C85_modules_join.

(** ** The hypotheses can be checked by reading the tokens *)

Lemma end_only V src : ucd_ok V -> forall ops b ts k', tiles V src ops b (length src) ts k' -> Forall (fun t => tk_value t = TPunc T_EOF) ts.
Proof.
  intros HV. induction ops as [|op ops IH]; intros b ts k' H; inversion H as [|? ? ? ? t k1 ts' ? Hn Ht]; subst; constructor.
  - destruct Hn as (ws & w & l & hs & -> & _ & hl & _). rewrite skipn_all in hs.
    destruct ws; [|discriminate]. destruct w; [|discriminate]. destruct l; [|discriminate].
    destruct (td_eqb (tk_value t) (TPunc T_EOF)) eqn:Et.
    + destruct (tk_value t); try discriminate; destruct p; try discriminate; reflexivity.
    + exfalso. assert (ev : tk_value t <> TPunc T_EOF) by (intros K; rewrite K in Et; discriminate).
      pose proof (tip_lexeme _ _ _ _ _ HV ev hl) as Ht'. discriminate.
  - assert (k1 = length src) as ->; [|exact (IH _ _ _ Ht)].
    destruct Hn as (ws & w & l & hs & -> & _). rewrite skipn_all in hs.
    destruct ws; [|discriminate]. destruct w; [|discriminate]. cbn. lia.
Qed.
Lemma same_prefix V src : ucd_ok V -> forall ops x k ts e k1, rd_at src k (lx_rd x) -> lx_ahead x = [] ->
  tiles V src ops (lx_empty_line x) k (ts ++ [e]) k1 -> at_eof e -> Forall (fun t => ~ regexp t /\ ~ slash t) ts ->
  forall ops' ts' k2, tiles V src ops' (lx_empty_line x) k ts' k2 ->
  (exists post, ts = ts' ++ post) \/ exists es, ts' = ts ++ es /\ Forall (fun t => tk_value t = TPunc T_EOF) es.
Proof.
  intros HV. induction ops as [|op ops IH]; intros x k ts e k1 Hat Hla H He F ops' ts' k2 H'.
  { inversion H. destruct ts; discriminate. }
  inversion H' as [|op' ops'' ? ? t' k' ts'' ? Hn' Ht']; subst; [left; exists ts; reflexivity|].
  destruct ts as [|t ts]; cbn [app] in H; inversion H as [|? ? ? ? ? k0 ? ? Hn Ht]; subst.
  - destruct (next_token_read V src op x k e k0 HV Hat Hla Hn) as (y & R & A & L & E).
    rewrite (read_token_empty V op x Hla) in R.
    assert (~ regexp e /\ ~ slash e) as [N1 N2].
    { unfold at_eof in He. split; [intros (r & K); congruence|]. intros K. unfold slash in K. rewrite He in K.
      cbn in K. decompose sum K; discriminate. }
    pose proof (same_read V op op' x e y HV R N1 N2) as R'. rewrite <- (read_token_empty V op' x Hla) in R'.
    destruct (next_token_read V src op' x k t' k' HV Hat Hla Hn') as (y' & R'' & A' & L' & E').
    rewrite R' in R''. injection R'' as <- <-. right. eexists. split; [reflexivity|]. constructor; [exact He|].
    assert (k' = length src) as ->; [|exact (end_only V src HV _ _ _ _ Ht')].
    eapply eof_reached; [exact Hn'|exact (proj1 Hat)|exact He].
  - destruct (next_token_read V src op x k t k0 HV Hat Hla Hn) as (y & R & A & L & E).
    rewrite (read_token_empty V op x Hla) in R. pose proof (Forall_inv F) as [N1 N2].
    pose proof (same_read V op op' x t y HV R N1 N2) as R'. rewrite <- (read_token_empty V op' x Hla) in R'.
    destruct (next_token_read V src op' x k t' k' HV Hat Hla Hn') as (y' & R'' & A' & L' & E').
    rewrite R' in R''. injection R'' as <- <-.
    assert (k' = k0) as ->.
    { destruct A as (L1 & _ & P1), A' as (L2 & _ & P2). rewrite P1 in P2.
      apply (f_equal offset) in P2. cbn in P2. lia. }
    rewrite <- E in Ht, Ht'. destruct (IH y k0 ts e k1 A L Ht He (Forall_inv_tail F) _ _ _ Ht') as [(post & ->)|(es & -> & K)].
    + left. exists post. reflexivity.
    + right. exists es. auto.
Qed.

(** The tokens before the end, as the lexer returns them. *)
Definition token_list (V : env) (src : str) (ts : tokens) : Prop :=
  exists ops e x, read_tokens V ops (lexer_new src) = Ok (ts ++ [e], x) /\ at_eof e
    /\ Forall (fun t => ~ regexp t /\ ~ slash t /\ tk_value t <> TPunc T_EOF) ts.
Lemma token_list_only V src ts : ucd_ok V -> token_list V src ts -> forall ts' k, reads V src ts' k ->
  (exists post, ts = ts' ++ post) \/ exists es, ts' = ts ++ es /\ Forall (fun t => tk_value t = TPunc T_EOF) es.
Proof.
  intros HV (ops & e & x & R & He & F) ts' k (ops' & T').
  destruct (proj1 (read_exact V src _ _ HV) ltac:(eexists; exact R)) as (k1 & T).
  eapply (same_prefix V src HV ops (lexer_new src) 0 ts e k1 (rd_at_new src) eq_refl T He); [|exact T'].
  eapply Forall_impl; [|exact F]. cbv beta. tauto.
Qed.
Lemma token_list_slashless V src ts : ucd_ok V -> token_list V src ts -> slashless V src.
Proof.
  intros HV (ops & e & x & R & He & F). destruct (proj1 (read_exact V src _ _ HV) ltac:(eexists; exact R)) as (k1 & T).
  exists ts, e, k1. split; [exists ops; exact T|]. split; [exact He|]. eapply Forall_impl; [|exact F]. cbv beta. tauto.
Qed.
Lemma closed_line_of V a c ts : ucd_ok V -> line_terminator c -> token_list V (a ++ [c]) ts ->
  (forall pre t, ts = pre ++ [t] -> tk_value t <> TIdent (NAtom A_Let)) -> closed_line V (a ++ [c]).
Proof.
  intros HV hc h hl. split; [exists a, c; auto|]. intros ts' t e k Hr he ht.
  assert (ne : ~ In e ts).
  { destruct h as (_ & _ & _ & _ & _ & F). rewrite Forall_forall in F. intros K. apply F in K. tauto. }
  destruct (token_list_only V _ ts HV h _ _ Hr) as [(post & E)|(es & E & F)].
  - apply ne. rewrite E, <- app_assoc. apply in_or_app. right. cbn. auto.
  - destruct es as [|e1 es] using rev_ind.
    + rewrite app_nil_r in E. apply ne. rewrite <- E. apply in_or_app. right. cbn. auto.
    + clear IHes. change [t; e] with ([t] ++ [e]) in E. rewrite !app_assoc in E. apply app_inj_tail in E as [E <-].
      destruct es as [|e2 es] using rev_ind.
      * rewrite app_nil_r in E. exact (hl _ _ (eq_sym E) ht).
      * rewrite app_assoc in E. apply app_inj_tail in E as [_ ->]. rewrite !Forall_app in F. destruct F as [[_ F] _].
        apply Forall_inv in F. congruence.
Qed.
Lemma opens_of V b t ts : ucd_ok V -> token_list V b (t :: ts) -> starts_afresh (tk_value t) -> opens V b.
Proof.
  intros HV h hs t' k Hr. destruct (token_list_only V _ _ HV h _ _ Hr) as [(post & E)|(es & E & _)]; injection E; intros; subst; exact hs.
Qed.

(** The two lines of a script, and a comment. *)
Definition first_half : str := lit "'use strict'; x: while (a) { break x } // b" ++ [10%N] ++ lit "let c = d" ++ [10%N].
Definition second_half : str := lit "if (c) ++d".
Example C85_example : let V := env_ascii in exists tA tB tsA t0 tsB,
  token_list V first_half tsA /\ token_list V (blanked first_half ++ second_half) (t0 :: tsB)
  /\ closed_line V first_half /\ plain V first_half /\ plain V (blanked first_half ++ second_half)
  /\ labels_differ (N_body tA) /\ labels_differ (N_body tB) /\ opens V (blanked first_half ++ second_half)
  /\ length (bo_dirs tA) = 1 /\ length (bo_items tA) = 2 /\ length (bo_items tB) = 1
  /\ consists_of V first_half Sloppy tA /\ script_of V (blanked first_half ++ second_half) = Ok tB.
Proof.
  intros V.
  assert (A : exists ts, token_list V first_half ts /\ forall pre t, ts = pre ++ [t] -> tk_value t <> TIdent (NAtom A_Let)).
  { eexists [_; _; _; _; _; _; _; _; _; _; _; _; _; _; _; _]. split.
    - eexists (repeat false 17), _, _. split; [vm_compute; reflexivity|split; [reflexivity|]].
      repeat constructor; try (intros (? & K); discriminate K); try discriminate; intros K; cbn in K; decompose sum K; discriminate.
    - intros pre t E. change (tk_value t) with (tk_value (last [t] t)).
      assert (K : forall d, last (pre ++ [t]) d = t) by (intros d; apply last_last). rewrite <- (K t), <- E. discriminate. }
  destruct A as (tsA & TA & hl).
  assert (B : exists t ts, token_list V (blanked first_half ++ second_half) (t :: ts) /\ starts_afresh (tk_value t)).
  { eexists _, [_; _; _; _; _]. split.
    - eexists (repeat false 7), _, _. split; [vm_compute; reflexivity|split; [reflexivity|]].
      repeat constructor; try (intros (? & K); discriminate K); try discriminate; intros K; cbn in K; decompose sum K; discriminate.
    - exact I. }
  destruct B as (t0 & tsB & TB & hs).
  assert (X : exists cs tA, program_of V first_half = Ok (Pg_Ambiguous cs tA) /\ length (bo_dirs tA) = 1 /\ length (bo_items tA) = 2
    /\ labels_differ (N_body tA)).
  { eexists _, _. split; [vm_compute; reflexivity|]. split; [reflexivity|]. split; [reflexivity|].
    match goal with |- labels_differ ?n => assert (h : L nothing n); [labels|destruct h as [h]; exact h] end. }
  assert (Y : exists tB, script_of V (blanked first_half ++ second_half) = Ok tB /\ length (bo_items tB) = 1 /\ labels_differ (N_body tB)).
  { eexists. split; [vm_compute; reflexivity|]. split; [reflexivity|].
    match goal with |- labels_differ ?n => assert (h : L nothing n); [labels|destruct h as [h]; exact h] end. }
  destruct X as (cs & tA & EA & XA2 & XA3 & XA1), Y as (tB & EB & YB2 & YB1).
  exists tA, tB, tsA, t0, tsB. split; [exact TA|]. split; [exact TB|].
  split. { unfold first_half in *. rewrite !app_assoc in *. eapply closed_line_of; [exact ucd_ok_ascii|cbn; tauto|exact TA|exact hl]. }
  split; [right; exact (token_list_slashless _ _ _ ucd_ok_ascii TA)|].
  split; [right; exact (token_list_slashless _ _ _ ucd_ok_ascii TB)|].
  split; [exact XA1|]. split; [exact YB1|]. split; [exact (opens_of _ _ _ _ ucd_ok_ascii TB hs)|].
  split; [exact XA2|]. split; [exact XA3|]. split; [exact YB2|]. split; [|exact EB].
  apply C31_program_whole in EA as (cs' & l & ds & is & ts & e & r & E & He & hr & hg); [|exact ucd_ok_ascii].
  injection E as -> ->. exists ts, e, r, (length first_half). split; [exact hr|]. split; [exact He|].
  exact (script_of_top _ _ _ _ _ _ _ hg He).
Qed.

(** Why the second text must start afresh, and the first not end in [let]. *)
Example C85_continued :
  (exists t, script_of env_ascii (lit "a" ++ [10%N] ++ lit "(b)") = Ok t /\ length (bo_items t) = 1)
  /\ exists t, script_of env_ascii (lit "let" ++ [10%N] ++ lit "b") = Ok t /\ length (bo_items t) = 1.
Proof. split; eexists; (split; [vm_compute; reflexivity|reflexivity]). Qed.
