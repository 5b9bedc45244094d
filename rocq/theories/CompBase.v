(** Completeness of the parser, part 1: states that are certain to read given tokens,
    and what the token utilities do from them. *)
From Coq Require Import String Ascii List NArith Arith Bool Lia.
From Verif Require Import Base Chars F64 Word Token Reader Lexer Punc Ast Track Cover Stack PState Parser Wp
  SpecReader ReaderProofs SpecLexer SpecClient LexWp LexLit LexerProofs LexTheorems LexComp LexComp2 LexExact
  LexLayout SpecStack SpecTree SpecGrammar ParserWp.
Import ListNotations.
Local Open Scope nat_scope.

(** ** Slashes *)

(** The token can be read with the flag [op]. *)
Definition fits (op : bool) (t : token) : Prop := if op then ~ regexp t else ~ slash t.

Lemma punctuator_flag op op' p : p <> T_Slash -> p <> T_SlashAssign -> is_punctuator op p -> is_punctuator op' p.
Proof. intros H1 H2 (A & B & _). split; [exact A|]. split; [exact B|]. intros _. auto. Qed.
Lemma prefix_slash p p' l : p <> T_Slash -> p <> T_SlashAssign -> p <> T_EOF ->
  p' = T_Slash \/ p' = T_SlashAssign -> ~ SpecLexer.prefix (punc_text p') (punc_text p ++ l).
Proof.
  intros H1 H2 H3 [-> | ->] [c E].
  - destruct p; try congruence; vm_compute in E; discriminate E.
  - destruct p; try congruence; vm_compute in E; discriminate E.
Qed.
Lemma lexeme_flag V op op' t w l : fits op' t -> fits op t \/ op = op' -> lexeme V op (tk_value t) w l ->
  lexeme V op' (tk_value t) w l.
Proof.
  intros H1 H2 H. destruct (Bool.bool_dec op op') as [<-|Hne]; [exact H|].
  assert (Hf : fits op t) by (destruct H2 as [H2|H2]; [exact H2|contradiction]). clear H2.
  assert (Hs : ~ slash t /\ ~ regexp t) by (destruct op, op'; cbn in *; try congruence; auto).
  destruct Hs as [Hs Hr]. unfold slash, regexp in Hs, Hr. inversion H as [E| p l0 Hp Hl Hd E| | | | |]; subst.
  - constructor.
  - rewrite <- E in Hs. cbn [In] in Hs.
    assert (A : p <> T_Slash) by (intros ->; apply Hs; left; reflexivity).
    assert (B : p <> T_SlashAssign) by (intros ->; apply Hs; right; left; reflexivity).
    constructor; [exact (punctuator_flag _ _ p A B Hp)| |exact Hd].
    intros p' Hp' Hpre. apply Hl; [|exact Hpre]. apply (punctuator_flag op' op); [| |exact Hp'].
    + intros ->. revert Hpre. apply prefix_slash; auto. apply Hp.
    + intros ->. revert Hpre. apply prefix_slash; auto. apply Hp.
  - constructor; assumption.
  - econstructor; eassumption.
  - constructor; assumption.
  - exfalso. apply Hr. eexists. symmetry. eassumption.
  - constructor; assumption.
Qed.

Lemma lexeme_fits V op t w l : lexeme V op (tk_value t) w l -> fits op t.
Proof.
  intros H. destruct op; cbn; unfold regexp, slash.
  - intros (r & Hr). rewrite Hr in H. inversion H. discriminate.
  - cbn [In]. intros [Hs|[Hs|[]]]; rewrite <- Hs in H; inversion H as [|p l0 Hp| | | | |];
      destruct Hp as (_ & _ & Hp); destruct (Hp eq_refl); congruence.
Qed.

(** A token that was read as something other than a slash is what any reading with a
    fitting flag gives. *)
Lemma next_token_flag V src op op' b k t k' : fits op' t -> next_token V src op b k t k' ->
  next_token V src op' b k t k'.
Proof.
  intros Hf (ws & w & l & H1 & H2 & H3 & H4 & H5). exists ws, w, l.
  split; [exact H1|]. split; [exact H2|]. split; [exact H3|]. split; [|exact H5].
  destruct (Bool.bool_dec op op') as [<-|Hne]; [exact H4|].
  apply (lexeme_flag V op); [exact Hf| |exact H4]. left. eapply lexeme_fits, H4.
Qed.

(** ** Runs *)

Definition runs {A} (m : P A) (s : pst) (Q : A -> pst -> Prop) : Prop :=
  exists a s', m s = Ok (a, s') /\ Q a s'.

Lemma runs_ret {A} (a : A) s (Q : A -> pst -> Prop) : Q a s -> runs (ret a) s Q.
Proof. intros H. exists a, s. split; [reflexivity|exact H]. Qed.
Lemma runs_bind {A B} (m : P A) (f : A -> P B) s (Q : B -> pst -> Prop) :
  runs m s (fun a s' => runs (f a) s' Q) -> runs (bind m f) s Q.
Proof.
  intros (a & s' & E & (b & s'' & E2 & HQ)). exists b, s''. split; [|exact HQ].
  unfold bind. rewrite E. exact E2.
Qed.
Lemma runs_conseq {A} (m : P A) s (Q Q' : A -> pst -> Prop) : runs m s Q' ->
  (forall a s', Q' a s' -> Q a s') -> runs m s Q.
Proof. intros (a & s' & E & H) HQ. exists a, s'. auto. Qed.
Lemma runs_assoc {A B C} (m : P A) (f : A -> P B) (k : B -> P C) s (Q : C -> pst -> Prop) :
  runs (bind m (fun a => bind (f a) k)) s Q -> runs (bind (bind m f) k) s Q.
Proof. unfold runs. rewrite bind_bind. auto. Qed.
Lemma runs_eta {A} (m : P A) s (Q : A -> pst -> Prop) : runs (bind m ret) s Q -> runs m s Q.
Proof.
  unfold runs, bind, ret. destruct (m s) as [[a s']|e|k|]; intros (b & s'' & E & HQ); try discriminate.
  assert (Ok (a, s') = Ok (b, s'')) as Hx by exact E. exists a, s'. split; [reflexivity|congruence].
Qed.
Lemma runs_ret_bind {A B} (a : A) (k : A -> P B) s (Q : B -> pst -> Prop) :
  runs (k a) s Q -> runs (bind (ret a) k) s Q.
Proof. intros H. exact H. Qed.
Lemma runs_gets {A B} (f : pst -> A) (k : A -> P B) s (Q : B -> pst -> Prop) :
  runs (k (f s)) s Q -> runs (bind (gets f) k) s Q.
Proof. intros H. exact H. Qed.
Lemma runs_modify {B} (f : pst -> pst) (k : unit -> P B) s (Q : B -> pst -> Prop) :
  runs (k tt) (f s) Q -> runs (bind (modify f) k) s Q.
Proof. intros H. exact H. Qed.
Lemma runs_posn {B} (k : posn -> P B) s (Q : B -> pst -> Prop) :
  (forall p, runs (k p) s Q) -> runs (bind p_posn k) s Q.
Proof. intros H. apply H. Qed.
Lemma runs_loop {A B} f (body : A -> P (A + B)) a s (Q : B -> pst -> Prop) : 0 < f ->
  (forall f', f = S f' -> runs (bind (body a) (fun x => match x with inl a' => loopM f' body a' | inr b => ret b end)) s Q) ->
  runs (loopM f body a) s Q.
Proof. intros Hf H. destruct f as [|f]; [lia|]. exact (H f eq_refl). Qed.
Lemma runs_loop_bind {A B C} f (body : A -> P (A + B)) a (k : B -> P C) s (Q : C -> pst -> Prop) : 0 < f ->
  (forall f', f = S f' ->
     runs (bind (body a) (fun x => match x with inl a' => bind (loopM f' body a') k | inr b => k b end)) s Q) ->
  runs (bind (loopM f body a) k) s Q.
Proof.
  intros Hf H. destruct f as [|f]; [lia|]. specialize (H f eq_refl). unfold runs, bind in *. cbn [loopM].
  unfold bind. destruct (body a s) as [[[a'|b] s']|e|k0|]; exact H.
Qed.

(** ** States *)

Section Feed.
Context (V : env) (src : str).
Context (HV : ucd_ok V).
Context (gl : goal) (tr : tri) (md : mode).
(** The mode of the grammar is the one of the parser; a program whose kind is not yet
    known is read in sloppy mode. *)
Context (Hmode : (md = Sloppy -> tr <> Yes /\ gl <> G_Module) /\ (md = Strict -> gl <> G_Module)).

Definition lt (k : name * bool) : name * label_type :=
  (fst k, if snd k then LT_Iteration else LT_Statement).

(** The context is the one of the place. *)
Definition ctx (g : place) : context :=
  Context tr (pl_fun g) (pl_loop g) (pl_switch g) (pl_in g) (map lt (pl_labels g)).
Definition on (g : place) (s : pst) : Prop := p_goal s = gl /\ p_context s = ctx g /\ pl_mode g = md.

(** [b] tokens have been looked at, and the tokens [i] are still to be read. *)
Definition feeds (b : nat) (i : tokens) (s : pst) : Prop :=
  length (ahead s) = b /\ b <= 2 /\ Forall (lexed V src) i
  /\ exists i2 ops k k', i = ahead s ++ i2 /\ rd_at src k (lx_rd (p_lexer s))
       /\ tiles V src ops (lx_empty_line (p_lexer s)) k i2 k'.
Definition st (b : nat) (g : place) (i : tokens) (s : pst) : Prop := feeds b i s /\ on g s.

Lemma st_le b g i s : st b g i s -> b <= 2.
Proof. intros ((_ & H & _) & _). exact H. Qed.
Lemma st_mode b g i s : st b g i s -> pl_mode g = md.
Proof. intros (_ & _ & _ & H). exact H. Qed.
Lemma st_lexed b g i s : st b g i s -> Forall (lexed V src) i.
Proof. intros ((_ & _ & H & _) & _). exact H. Qed.
Lemma st_ctx b g i s : st b g i s -> p_context s = ctx g.
Proof. intros (_ & _ & H & _). exact H. Qed.
Lemma st_goal b g i s : st b g i s -> p_goal s = gl.
Proof. intros (_ & H & _ & _). exact H. Qed.

(** Only the lexer matters for [feeds]. *)
Lemma feeds_lexer b i s s' : p_lexer s' = p_lexer s -> feeds b i s -> feeds b i s'.
Proof. unfold feeds, ahead. intros ->. auto. Qed.

(** Reading from the lexer. *)
Lemma read_feeds op b t i s : feeds b (t :: i) s -> 1 <= b \/ fits op t ->
  exists x, read_token V op (p_lexer s) = Ok (t, x)
    /\ (forall s', p_lexer s' = x -> feeds (pred b) i s')
    /\ (b = 0 -> lx_ahead x = []).
Proof.
  intros (Hb & Hb2 & Hl & i2 & ops & k & k' & Ei & Hat & Ht) Hr.
  unfold ahead in *. destruct (lx_ahead (p_lexer s)) as [|t0 la] eqn:Hla.
  - cbn in Hb, Ei. subst b i2. destruct Hr as [Hr|Hr]; [lia|].
    inversion Ht as [|op0 ops0 b0 k0 t0 k1 ts k2 Hn Hts]; subst.
    destruct (next_token_read V src op (p_lexer s) k t k1 HV Hat Hla (next_token_flag _ _ _ _ _ _ _ _ Hr Hn))
      as (x & E & A & B & C).
    exists x. split; [exact E|]. split; [|intros _; exact B]. intros s' Hs'.
    unfold feeds, ahead. rewrite Hs', B, C. split; [reflexivity|]. split; [cbn; lia|].
    split; [inversion Hl; assumption|]. exists i, ops0, k1, k'. split; [reflexivity|]. split; [exact A|exact Hts].
  - cbn in Ei. assert (t0 = t) by congruence. assert (Ei' : i = la ++ i2) by congruence. subst t0.
    exists (Lexer (lx_rd (p_lexer s)) la (lx_empty_line (p_lexer s))).
    unfold read_token, bind, gets. rewrite Hla. split; [reflexivity|].
    split; [|intros ->; discriminate Hb]. intros s' Hs'. unfold feeds, ahead. rewrite Hs'.
    cbn [lx_ahead lx_rd lx_empty_line]. cbn in Hb. subst b. split; [reflexivity|]. split; [cbn; lia|].
    split; [inversion Hl; assumption|]. exists i2, ops, k, k'. auto.
Qed.

Lemma r_read_gen op b g t i s : st b g (t :: i) s -> 1 <= b \/ fits op t ->
  runs (lex (read_token V op)) s (fun t' s' => t' = t /\ lexed V src t /\ st (pred b) g i s').
Proof.
  intros [Hf Ho] Hr. destruct (read_feeds op b t i s Hf Hr) as (x & E & A & _).
  exists t, (set_lexer x s). split; [unfold lex; rewrite E; reflexivity|].
  split; [reflexivity|]. split; [|split; [apply A; reflexivity|exact Ho]].
  destruct Hf as (_ & _ & Hl & _). inversion Hl; assumption.
Qed.
Lemma r_peek_gen op b g t i s : st b g (t :: i) s -> 1 <= b \/ fits op t ->
  runs (lex (peek_token V op)) s (fun t' s' => t' = t /\ st (Nat.max 1 b) g (t :: i) s').
Proof.
  intros [Hf Ho] Hr. destruct (read_feeds op b t i s Hf Hr) as (x & E & A & Hx).
  unfold runs, lex, peek_token, bind, gets. unfold read_token, bind, gets in E.
  pose proof Hf as (Hb & Hb2 & Hl & i2 & ops & k & k' & Ei & Hat & Ht). unfold ahead in *.
  destruct (lx_ahead (p_lexer s)) as [|t0 la] eqn:Hla.
  - rewrite E. cbn in Hb. subst b. unfold modify, ret.
    eexists _, _. split; [reflexivity|]. split; [reflexivity|]. split; [|exact Ho].
    specialize (A (set_lexer x s) eq_refl) as (B1 & _ & B3 & j2 & ops' & k1 & k1' & Ej & Hat' & Ht').
    unfold ahead in *. cbn [set_lexer p_lexer] in *. specialize (Hx eq_refl). rewrite Hx in Ej. cbn in Ej. subst j2.
    split; [reflexivity|]. split; [cbn; lia|]. split; [exact Hl|].
    exists i, ops', k1, k1'. cbn. auto.
  - unfold ret. cbn in Ei. assert (t0 = t) by congruence. subst t0. eexists _, _. split; [reflexivity|].
    split; [reflexivity|]. cbn in Hb. replace (Nat.max 1 b) with b by lia.
    split; [|exact Ho]. exact (feeds_lexer b (t :: i) s (set_lexer (p_lexer s) s) eq_refl Hf).
Qed.

Lemma k_read {B} b g t i s (k : token -> P B) Q : st b g (t :: i) s -> 1 <= b \/ fits false t ->
  (forall s', lexed V src t -> st (pred b) g i s' -> runs (k t) s' Q) -> runs (bind (p_read V) k) s Q.
Proof.
  intros H1 H2 H3. apply runs_bind. eapply runs_conseq; [apply (r_read_gen false b g t i s H1 H2)|].
  intros t' s' (-> & Hl & S). apply H3; assumption.
Qed.
Lemma k_read_op {B} b g t i s (k : token -> P B) Q : st b g (t :: i) s -> 1 <= b \/ fits true t ->
  (forall s', lexed V src t -> st (pred b) g i s' -> runs (k t) s' Q) -> runs (bind (p_read_op V) k) s Q.
Proof.
  intros H1 H2 H3. apply runs_bind. eapply runs_conseq; [apply (r_read_gen true b g t i s H1 H2)|].
  intros t' s' (-> & Hl & S). apply H3; assumption.
Qed.
Lemma k_peek {B} b g t i s (k : token -> P B) Q : st b g (t :: i) s -> 1 <= b \/ fits false t ->
  (forall s', st (Nat.max 1 b) g (t :: i) s' -> runs (k t) s' Q) -> runs (bind (p_peek V) k) s Q.
Proof.
  intros H1 H2 H3. apply runs_bind. eapply runs_conseq; [apply (r_peek_gen false b g t i s H1 H2)|].
  intros t' s' (-> & S). apply H3; assumption.
Qed.
Lemma k_peek_op {B} b g t i s (k : token -> P B) Q : st b g (t :: i) s -> 1 <= b \/ fits true t ->
  (forall s', st (Nat.max 1 b) g (t :: i) s' -> runs (k t) s' Q) -> runs (bind (p_peek_op V) k) s Q.
Proof.
  intros H1 H2 H3. apply runs_bind. eapply runs_conseq; [apply (r_peek_gen true b g t i s H1 H2)|].
  intros t' s' (-> & S). apply H3; assumption.
Qed.
Lemma k_skip {B} b g t i s (k : unit -> P B) Q : st b g (t :: i) s -> 1 <= b \/ fits false t ->
  (forall s', st (pred b) g i s' -> runs (k tt) s' Q) -> runs (bind (p_skip V) k) s Q.
Proof.
  intros H1 H2 H3. apply runs_bind. destruct (r_read_gen false b g t i s H1 H2) as (t' & s' & E & -> & _ & S).
  exists tt, s'. split; [|apply H3, S]. unfold p_skip, lex, skip_token, bind. unfold lex in E.
  destruct (read_token V false (p_lexer s)) as [[a x]|e|k0|]; try discriminate. unfold ret. congruence.
Qed.
Lemma k_unread {B} b g t i s (k : unit -> P B) Q : st b g i s -> b <= 1 -> lexed V src t ->
  (forall s', st (S b) g (t :: i) s' -> runs (k tt) s' Q) -> runs (bind (p_unread t) k) s Q.
Proof.
  intros [(Hb & Hb2 & Hl & i2 & ops & k0 & k' & Ei & Hat & Ht) Ho] Hle Hlx H. apply runs_bind.
  unfold runs, p_unread, lex, unread_token, bind, gets. unfold ahead in *.
  replace (Nat.ltb (length (lx_ahead (p_lexer s))) lookahead_capacity) with true.
  2:{ symmetry. apply Nat.ltb_lt. unfold lookahead_capacity. lia. }
  unfold modify. eexists _, _. split; [reflexivity|]. apply H. split; [|exact Ho].
  unfold feeds, ahead. cbn [set_lexer p_lexer lx_ahead lx_rd lx_empty_line length].
  split; [lia|]. split; [lia|]. split; [constructor; assumption|].
  exists i2, ops, k0, k'. subst i. auto.
Qed.
Lemma k_reread_token {B} b g t i s (k : token -> P B) Q : st b g (t :: i) s -> 1 <= b ->
  (forall s', lexed V src t -> st (pred b) g i s' -> runs (k t) s' Q) -> runs (bind p_reread_token k) s Q.
Proof.
  intros H1 H2 H3. apply runs_bind.
  destruct (r_read_gen false b g t i s H1 (or_introl H2)) as (t' & s' & E & -> & Hlx & S).
  exists t, s'. split; [|apply H3; assumption]. destruct H1 as [(Hb & _) _]. unfold ahead in Hb.
  unfold p_reread_token, lex, reread_token, bind, gets. unfold lex, read_token, bind, gets in E.
  destruct (lx_ahead (p_lexer s)) as [|t0 la]; [cbn in Hb; lia|]. exact E.
Qed.
Lemma k_reread {B} d b g t i s (k : token -> P B) Q : st b g (t :: i) s -> 1 <= b -> is_t t d = true ->
  (forall s', lexed V src t -> st (pred b) g i s' -> runs (k t) s' Q) -> runs (bind (p_reread d) k) s Q.
Proof.
  intros H1 H2 Hd H3. pose proof (k_reread_token b g t i s k Q H1 H2 H3) as H.
  apply runs_bind. unfold runs in H. apply runs_bind in H || idtac.
  destruct H1 as [(Hb & _ & _ & i2 & ops & k0 & k' & Ei & _) _]. unfold ahead in *.
  destruct s as [sg df [rd la e] c]. cbn in *. destruct la as [|t0 la]; [cbn in Hb; lia|].
  assert (t0 = t) by (cbn in Ei; congruence). subst t0.
  destruct H as (a & s' & E & HQ). unfold runs, p_reread, bind, lex, repeek_token, reread_token, gets. cbn.
  rewrite Hd. eexists _, _. split; [reflexivity|]. exists a, s'. split; [exact E|exact HQ].
Qed.

(** ** Derived utilities *)

Lemma fits_of op t d : tk_value t = d -> (forall r, d <> TRegExp r) -> d <> TPunc T_Slash -> d <> TPunc T_SlashAssign -> fits op t.
Proof.
  intros E H1 H2 H3. destruct op; cbn; unfold regexp, slash; rewrite E.
  - intros (r & Hr). exact (H1 r Hr).
  - cbn. intros [H|[H|[]]]; congruence.
Qed.

Lemma k_expect {B} d b g t i s (k : token -> P B) Q : st b g (t :: i) s -> 1 <= b \/ fits false t ->
  is_t t d = true -> (forall s', st (pred b) g i s' -> runs (k t) s' Q) -> runs (bind (p_expect V d) k) s Q.
Proof.
  intros H1 H2 Hd H3. unfold p_expect. apply runs_assoc. eapply k_read; [exact H1|exact H2|].
  intros s' _ S. rewrite Hd. apply runs_ret_bind, H3, S.
Qed.
Lemma k_matches_yes {B} d b g t i s (k : bool -> P B) Q : st b g (t :: i) s -> 1 <= b \/ fits false t ->
  is_t t d = true -> (forall s', st (pred b) g i s' -> runs (k true) s' Q) -> runs (bind (p_matches V d) k) s Q.
Proof.
  intros H1 H2 Hd H3. unfold p_matches. apply runs_assoc. eapply k_read; [exact H1|exact H2|].
  intros s' _ S. rewrite Hd. apply runs_ret_bind, H3, S.
Qed.
Lemma k_matches_no {B} d b g t i s (k : bool -> P B) Q : st b g (t :: i) s -> 1 <= b \/ fits false t ->
  is_t t d = false -> (forall s', st (Nat.max 1 b) g (t :: i) s' -> runs (k false) s' Q) -> runs (bind (p_matches V d) k) s Q.
Proof.
  intros H1 H2 Hd H3. unfold p_matches. apply runs_assoc. eapply k_read; [exact H1|exact H2|].
  intros s' Hl S. rewrite Hd. apply runs_assoc. pose proof (st_le _ _ _ _ H1). eapply k_unread; [exact S|lia|exact Hl|].
  intros s2 S2. apply runs_ret_bind, H3. replace (Nat.max 1 b) with (Datatypes.S (pred b)) by lia. exact S2.
Qed.
Lemma k_matches_op_yes {B} d b g t i s (k : bool -> P B) Q : st b g (t :: i) s -> 1 <= b \/ fits true t ->
  is_t t d = true -> (forall s', st (pred b) g i s' -> runs (k true) s' Q) -> runs (bind (p_matches_op V d) k) s Q.
Proof.
  intros H1 H2 Hd H3. unfold p_matches_op. apply runs_assoc. eapply k_read_op; [exact H1|exact H2|].
  intros s' _ S. rewrite Hd. apply runs_ret_bind, H3, S.
Qed.
Lemma k_matches_op_no {B} d b g t i s (k : bool -> P B) Q : st b g (t :: i) s -> 1 <= b \/ fits true t ->
  is_t t d = false -> (forall s', st (Nat.max 1 b) g (t :: i) s' -> runs (k false) s' Q) -> runs (bind (p_matches_op V d) k) s Q.
Proof.
  intros H1 H2 Hd H3. unfold p_matches_op. apply runs_assoc. eapply k_read_op; [exact H1|exact H2|].
  intros s' Hl S. rewrite Hd. apply runs_assoc. pose proof (st_le _ _ _ _ H1). eapply k_unread; [exact S|lia|exact Hl|].
  intros s2 S2. apply runs_ret_bind, H3. replace (Nat.max 1 b) with (Datatypes.S (pred b)) by lia. exact S2.
Qed.
Lemma k_matches_token_no {B} d b g t i s (k : option token -> P B) Q : st b g (t :: i) s -> 1 <= b \/ fits false t ->
  is_t t d = false -> (forall s', st (Nat.max 1 b) g (t :: i) s' -> runs (k None) s' Q) -> runs (bind (p_matches_token V d) k) s Q.
Proof.
  intros H1 H2 Hd H3. unfold p_matches_token. apply runs_assoc. eapply k_read; [exact H1|exact H2|].
  intros s' Hl S. rewrite Hd. apply runs_assoc. pose proof (st_le _ _ _ _ H1). eapply k_unread; [exact S|lia|exact Hl|].
  intros s2 S2. apply runs_ret_bind, H3. replace (Nat.max 1 b) with (Datatypes.S (pred b)) by lia. exact S2.
Qed.

(** What a parsing function does: it gives a value in [P] and leaves the tokens [o],
    with at least [m] of them looked at. *)
Definition gives {A} (m : nat) (g : place) (o : tokens) (P : A -> Prop) (a : A) (s : pst) : Prop :=
  P a /\ exists b, m <= b /\ st b g o s.
Lemma k_call {A B} (m : P A) n g o (P : A -> Prop) (k : A -> PState.P B) s Q : runs m s (gives n g o P) ->
  (forall a b s', P a -> n <= b -> st b g o s' -> runs (k a) s' Q) -> runs (bind m k) s Q.
Proof.
  intros H1 H2. apply runs_bind. eapply runs_conseq; [exact H1|].
  intros a s' (HP & b & Hb & S). eapply H2; eassumption.
Qed.

Lemma on_in b g s : on g s -> on (with_in b g) (set_context (set_allow_in b (p_context s)) s).
Proof. intros (A & B & C). split; [exact A|]. split; [|exact C]. cbn. rewrite B. reflexivity. Qed.
Lemma st_in c b g i s : st b g i s -> st b (with_in c g) i (set_context (set_allow_in c (p_context s)) s).
Proof. intros [A B]. split; [exact (feeds_lexer _ _ s _ eq_refl A)|apply on_in, B]. Qed.
Lemma st_out c b g i s : st b (with_in c g) i s ->
  st b g i (set_context (set_allow_in (pl_in g) (p_context s)) s).
Proof.
  intros H. apply (st_in (pl_in g)) in H. destruct g as [m f l w n ls]. exact H.
Qed.
Lemma k_allow_in {A B} c (m : P A) b n g i o (P : A -> Prop) (k : A -> PState.P B) s Q : st b g i s ->
  (forall s', st b (with_in c g) i s' -> runs m s' (gives n (with_in c g) o P)) ->
  (forall a b s', P a -> n <= b -> st b g o s' -> runs (k a) s' Q) -> runs (bind (p_allow_in c m) k) s Q.
Proof.
  intros S H1 H2. unfold p_allow_in. apply runs_assoc. apply runs_gets. apply runs_assoc. apply runs_modify.
  apply runs_assoc. eapply k_call; [apply H1, st_in, S|]. intros a b' s' HP Hb S'.
  apply runs_assoc. apply runs_modify. apply runs_ret_bind.
  rewrite (st_ctx _ _ _ _ S). cbn [ctx cx_allow_in]. eapply H2; [exact HP|exact Hb|]. apply st_out with (c := c). exact S'.
Qed.

Lemma k_span {A B} (set : A -> loc -> A) (m : P A) (k : A -> P B) s Q :
  runs (bind m (fun v => bind p_posn (fun e => k (set v (Some (Span (lexer_posn (p_lexer s)) e)))))) s Q ->
  runs (bind (p_span set m) k) s Q.
Proof. intros H. unfold p_span. apply runs_assoc. apply runs_gets. apply runs_assoc. exact H. Qed.

(** The end of a statement. *)
Lemma k_ends {A B} (set : A -> loc -> A) start nl (cons : semi -> A) lax b g i o sm (k : A -> P B) s Q :
  (nl = NL_Optional <-> lax = true) -> ends lax i o sm -> st b g i s -> 1 <= b \/ next (fits false) i ->
  (forall l b' s', st b' g o s' -> runs (k (set (cons sm) (Some l))) s' Q) ->
  runs (bind (end_with_auto_semi V set start nl cons) k) s Q.
Proof.
  intros Hnl He S Hr H. unfold end_with_auto_semi. apply runs_assoc. apply runs_posn. intros before.
  assert (Hr' : forall t o', i = t :: o' -> 1 <= b \/ fits false t).
  { intros t o' ->. destruct Hr as [Hr|(t' & o2 & E & Hf)]; [left; exact Hr|]. right. congruence. }
  destruct He as [t o Ht|t o Ht Hx].
  - apply runs_assoc. eapply k_peek; [exact S|eapply Hr'; reflexivity|]. intros s1 S1.
    rewrite (is_t_refl t (TPunc T_Semi) Logic.I Ht). apply runs_assoc. eapply k_reread; [exact S1|lia|exact (is_t_refl t (TPunc T_Semi) Logic.I Ht)|].
    intros s2 _ S2. apply runs_assoc. apply runs_posn. intros p. apply runs_ret_bind. eapply H, S2.
  - apply runs_assoc. eapply k_peek; [exact S|eapply Hr'; reflexivity|]. intros s1 S1.
    assert (E : is_t t (TPunc T_Semi) = false).
    { destruct (is_t t (TPunc T_Semi)) eqn:E; [|reflexivity]. apply is_t_true in E; [contradiction|exact I]. }
    rewrite E. destruct (is_t t (TPunc T_RBrace) || is_t t (TPunc T_EOF)) eqn:E2.
    + apply runs_ret_bind. eapply H, S1.
    + apply orb_false_iff in E2 as [Ea Eb].
      destruct Hx as [Hx|[Hx|Hx]].
      * rewrite (is_t_refl t (TPunc T_RBrace) Logic.I Hx) in Ea. discriminate.
      * rewrite (is_t_refl t (TPunc T_EOF) Logic.I Hx) in Eb. discriminate.
      * replace (match nl with NL_Required => negb (tk_newline t) | NL_Optional => false end) with false.
        -- apply runs_ret_bind. eapply H, S1.
        -- destruct nl; [|reflexivity]. destruct Hx as [->|Hx]; [reflexivity|].
           apply Hnl in Hx. discriminate.
Qed.

(** ** Identifiers *)

Lemma runs_strict_check {B} f (k : unit -> P B) b g i s Q : st b g i s ->
  (tr = No \/ exists c, f s = Ok (c, s)
     /\ match c with
        | Some (Ck_Strict e) => tr <> Yes
        | Some (Ck_Module e) => gl <> G_Module
        | None => True
        end) ->
  (forall s', st b g i s' -> runs (k tt) s' Q) -> runs (bind (strict_check f) k) s Q.
Proof.
  intros S Hf H. apply runs_bind. unfold runs, strict_check, bind, get_context, gets.
  rewrite (st_ctx _ _ _ _ S). cbn [ctx cx_strict]. destruct Hf as [E|(c & E & Hc)].
  - rewrite E. cbn [tri_eqb]. exists tt, s. split; [reflexivity|apply H, S].
  - destruct (tri_eqb tr No); [exists tt, s; split; [reflexivity|apply H, S]|].
    rewrite E. destruct c as [[e|e]|]; cbn beta iota.
    + destruct (tri_eqb tr Yes) eqn:E2; [destruct tr; cbn in E2; congruence|].
      unfold modify. eexists _, _. split; [reflexivity|]. apply H.
      destruct S as [S1 S2]. split; [exact (feeds_lexer _ _ s _ eq_refl S1)|exact S2].
    + rewrite (st_goal _ _ _ _ S). destruct (goal_eqb gl G_Module) eqn:E2; [destruct gl; cbn in E2; congruence|].
      destruct (negb (goal_eqb gl G_Script)).
      * unfold modify. eexists _, _. split; [reflexivity|]. apply H.
        destruct S as [S1 S2]. split; [exact (feeds_lexer _ _ s _ eq_refl S1)|exact S2].
      * exists tt, s. split; [reflexivity|apply H, S].
    + exists tt, s. split; [reflexivity|apply H, S].
Qed.

Lemma id_check_ok m bd n loc s : name_ok m bd n -> (m = md) ->
  tr = No \/ exists c, id_check bd n loc s = Ok (c, s)
     /\ match c with
        | Some (Ck_Strict e) => tr <> Yes
        | Some (Ck_Module e) => gl <> G_Module
        | None => True
        end.
Proof.
  intros Hn ->. right. destruct Hmode as [Hm1 Hm2].
  assert (Hx : md = Sloppy \/ md = Strict \/ md = Module_) by (destruct md; auto).
  unfold id_check. destruct n as [a|w].
  - cbn [name_illegal_strict_binding name_strict_reserved name_atom].
    destruct Hn as [Hn|(Hn1 & Hn2 & Hn3)].
    + destruct (Hm1 Hn) as [H1 H2].
      destruct (bd && atom_illegal_strict_binding a); [eexists; split; [reflexivity|exact H1]|].
      destruct (atom_strict_reserved a); (eexists; split; [reflexivity|]); first [exact Logic.I|assumption].
    + assert (Eb : bd && atom_illegal_strict_binding a = false).
      { destruct bd; [|reflexivity]. cbn. destruct a; try reflexivity; exfalso; apply (Hn2 eq_refl); cbn; auto. }
      rewrite Eb. destruct (atom_strict_reserved a) eqn:E.
      * eexists; split; [reflexivity|exact Logic.I].
      * eexists; split; [reflexivity|]. destruct a; try discriminate E.
        destruct Hx as [Hx|[Hx|Hx]]; [apply (Hm1 Hx)|apply (Hm2 Hx)|exfalso; apply (Hn3 Hx); reflexivity].
      * exfalso. apply Hn1. destruct a; try discriminate E; cbn; tauto.
  - cbn [name_illegal_strict_binding name_strict_reserved name_atom]. rewrite andb_false_r.
    eexists; split; [reflexivity|exact Logic.I].
Qed.

Lemma k_new_id {B} bd n loc b g i (k : id -> P B) s Q : st b g i s -> name_ok (pl_mode g) bd n ->
  (forall s', st b g i s' -> runs (k (Id (Some loc) n)) s' Q) -> runs (bind (new_id bd n loc) k) s Q.
Proof.
  intros S Hn H. unfold new_id. apply runs_assoc. eapply runs_strict_check; [exact S| |].
  - eapply id_check_ok; [exact Hn|]. exact (st_mode _ _ _ _ S).
  - intros s' S'. apply runs_ret_bind. apply H, S'.
Qed.
End Feed.
