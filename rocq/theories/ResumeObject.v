(** Sessions that go on after errors: proofs. *)
From Coq Require Import String Ascii List NArith Bool Lia.
From Verif Require Import Base Chars F64 Word Token Reader SpecReader ReaderProofs Lexer SpecLexer Wp LexWp LexerProofs
  LexTheorems Resume ResumeErase ResumeProofs SpecResume.
Import ListNotations.
Local Open Scope N_scope.

Section WithEnv.
Context (V : env).

Definition stops (r : rd) : Prop :=
  match rest r with c :: _ => is_es_whitespace c = false /\ is_es_newline c = false | [] => True end.
Lemma trivia_step_stops a r b r' : lx_trivia_step' a r = Ok (inr b, r') -> stops r'.
Proof.
  destruct a as [f e], r as [[|ch l] p]; unfold lx_trivia_step', lx_peek', lx_peek_at'; rewrite !bind_gets; cbn [rest hd_error].
  { intros H. injection H as _ <-. exact Logic.I. }
  assert (N : forall {A} (m : LM' A) (c : bool * bool) r, (m ;;; ret (inl c : bool * bool + bool * bool)) r <> Ok (inr b, r')).
  { intros A m c r. unfold bind. destruct (m r) as [[? ?]|?|?|]; discriminate. }
  assert (N2 : forall (m : LM' bool) (g : bool -> bool * bool) r, (nl <- m ;; ret (inl (g nl) : bool * bool + bool * bool)) r <> Ok (inr b, r')).
  { intros m g r. unfold bind. destruct (m r) as [[? ?]|?|?|]; discriminate. }
  destruct (is_es_whitespace ch) eqn:W; [intros H; now apply N in H|].
  destruct (is_es_newline ch) eqn:L; [intros H; now apply N in H|].
  assert (G : forall x : bool * bool, (ret (inr x) : LM' (bool * bool + bool * bool)) (Rd (ch :: l) p) = Ok (inr b, r') -> stops r').
  { intros x H. injection H as _ <-. split; auto. }
  destruct (_ && _); [intros H; now apply N in H|].
  destruct (_ && _); [intros H; now apply (N2 _ (fun nl => (nl || f, e))) in H|].
  destruct (_ && _).
  { rewrite !bind_gets. destruct (_ && _); [intros H; now apply N in H|apply G]. }
  destruct (_ && _); [|apply G].
  rewrite !bind_gets. destruct (_ && _); [intros H; now apply N in H|apply G].
Qed.
Definition only_comment {A} (m : LM' A) : Prop :=
  forall r, match m r with Err (e, _) => e = UnterminatedComment | _ => True end.
Lemma oc_bind {A B} (m : LM' A) (k : A -> LM' B) : only_comment m -> (forall a, only_comment (k a)) -> only_comment (bind m k).
Proof. intros H K r. specialize (H r). unfold bind. destruct (m r) as [[a r1]|[e r1]|p|]; auto. apply K. Qed.
Lemma oc_ret {A} (a : A) : only_comment (ret a). Proof. exact (fun _ => Logic.I). Qed.
Lemma oc_gets {A} (f : rd -> A) : only_comment (gets f). Proof. exact (fun _ => Logic.I). Qed.
Lemma oc_skip : only_comment lx_skip'.
Proof. apply oc_bind; [|intros; apply oc_ret]. intros [[|c l] p]; exact Logic.I. Qed.
Lemma oc_skip_n n : only_comment (lx_skip_n' n).
Proof. induction n as [|n IH]; [apply oc_ret|]. apply oc_bind; [apply oc_skip|auto]. Qed.
Lemma oc_block l : forall p f, match block_comment_from' l p f with Err (e, _) => e = UnterminatedComment | _ => True end.
Proof.
  induction l as [|c l IH]; intros p f; [reflexivity|]. destruct l as [|c2 l]; [reflexivity|].
  change (block_comment_from' (c :: c2 :: l) p f) with (if (c =? chr "*") && (c2 =? chr "/")
    then Ok (f, Rd l (advance (advance p c (Some c2)) c2 (hd_error l)))
    else block_comment_from' (c2 :: l) (advance p c (Some c2)) (is_es_newline c || f)).
  destruct (_ && _); [exact Logic.I|apply IH].
Qed.
Lemma oc_step a : only_comment (lx_trivia_step' a).
Proof.
  destruct a as [f e]. do 1 (apply oc_bind; [apply oc_gets|]). intros [ch|]; (apply oc_bind; [apply oc_gets|]); intros c2; [|apply oc_ret].
  assert (L : forall n a, only_comment (lx_skip_line_comment' n ;;; ret (a : bool * bool + bool * bool))).
  { intros n a. apply oc_bind; [|intros; apply oc_ret]. apply oc_bind; [apply oc_skip_n|]. intros _ r. exact Logic.I. }
  destruct (is_es_whitespace ch); [apply oc_bind; [exact (fun _ => Logic.I)|intros; apply oc_ret]|].
  destruct (is_es_newline ch).
  { apply oc_bind; [|intros; apply oc_ret]. apply oc_bind; [apply oc_gets|]. intros [x|]; [|exact (fun _ => Logic.I)].
    destruct (is_es_newline x); exact (fun _ => Logic.I). }
  destruct (_ && _); [apply L|]. destruct (_ && _).
  { apply oc_bind; [|intros; apply oc_ret]. apply oc_bind; [apply oc_bind; [|intros _]; apply oc_skip|].
    intros _ [l p]. apply oc_block. }
  destruct (_ && _).
  { do 2 (apply oc_bind; [apply oc_gets|intros]). destruct (_ && _); [apply L|apply oc_ret]. }
  destruct (_ && _); [|apply oc_ret].
  apply oc_bind; [apply oc_gets|intros]. destruct (_ && _); [apply L|apply oc_ret].
Qed.
Lemma trivia_loop n : forall f x,
  match loopM n trivia_body f x with
  | Ok (_, x') => fwd (lx_rd x) (lx_rd x') /\ lx_ahead x' = lx_ahead x /\ stops (lx_rd x')
  | Err (e, x') => e = UnterminatedComment /\ past (lx_rd x) (lx_rd x') /\ lx_ahead x' = lx_ahead x
  | _ => True
  end.
Proof.
  induction n as [|n IH]; intros f x; [exact Logic.I|]. cbn [loopM]. unfold trivia_body at 1.
  unfold bind, gets, lift_rd'. pose proof (trivia_step_serr (f, lx_empty_line x) (lx_rd x)) as H.
  pose proof (trivia_step_stops (f, lx_empty_line x) (lx_rd x)) as HS.
  pose proof (oc_step (f, lx_empty_line x) (lx_rd x)) as HC.
  destruct (lx_trivia_step' (f, lx_empty_line x) (lx_rd x)) as [[[[f1 e1]|[f1 e1]] r]|[e r]|k|]; cbn; auto.
  - specialize (IH f1 (Lexer r (lx_ahead x) e1)). destruct (loopM n trivia_body f1 _) as [[b x']|[e x']|k|]; cbn in IH; auto.
    + destruct IH as (A & B & C). split; [eapply fwd_trans; eauto|]. auto.
    + destruct IH as (A & B & C). split; [auto|]. split; [eapply fwd_past; eauto|auto].
  - split; [exact H|]. split; [reflexivity|]. eapply HS. reflexivity.
  - destruct H as (A & B). auto.
Qed.
Lemma trivia_out x :
  match trivia' x with
  | Ok (_, x') => fwd (lx_rd x) (lx_rd x') /\ lx_ahead x' = lx_ahead x /\ stops (lx_rd x')
  | Err (e, x') => e = UnterminatedComment /\ past (lx_rd x) (lx_rd x') /\ lx_ahead x' = lx_ahead x
  | _ => True
  end.
Proof. apply trivia_loop. Qed.

(** Before a character that is no trivia, nothing is skipped. *)
Lemma trivia_none ch l p la e : is_es_whitespace ch = false -> is_es_newline ch = false ->
  (ch =? chr "/") = false -> (ch =? chr "<") = false -> (ch =? chr "-") = false ->
  trivia' (Lexer (Rd (ch :: l) p) la e) = Ok (false, Lexer (Rd (ch :: l) p) la e).
Proof.
  intros H1 H2 H3 H4 H5. unfold trivia'. generalize (length (rest (lx_rd (Lexer (Rd (ch :: l) p) la e)))). intros n.
  cbn [loopM]. unfold bind, gets, lift_rd', lx_trivia_step', lx_peek', lx_peek_at'. cbn [lx_rd lx_ahead lx_empty_line].
  unfold bind, gets. cbn [rest hd_error]. rewrite H1, H2, H3, H4, H5. reflexivity.
Qed.

Definition illegal_at (c : N) (x : lexer) : Prop :=
  (exists l p, lx_rd x = Rd (c :: l) p) /\ forall op, read_next_token' V op x = Err (IllegalChar c, x).

Lemma next_out op x :
  match read_next_token' V op x with
  | Ok (t, x') => fwd (lx_rd x) (lx_rd x') /\ lx_ahead x' = lx_ahead x
  | Err (e, x') => lx_ahead x' = lx_ahead x
      /\ ((legal e /\ past (lx_rd x) (lx_rd x') /\ (e <> UnterminatedComment -> lx_empty_line x' = false))
          \/ exists c, e = IllegalChar c /\ fwd (lx_rd x) (lx_rd x') /\ illegal_at c x' /\ lx_empty_line x' = false
               /\ exists f x0, trivia' x = Ok (f, x0) /\ lx_rd x0 = lx_rd x')
  | _ => True
  end.
Proof.
  unfold read_next_token'. unfold bind at 1. pose proof (trivia_out x) as T.
  destruct (trivia' x) as [[f x1]|[e x1]|k|] eqn:ET; auto.
  2:{ destruct T as (-> & B & C). split; [exact C|]. left. split; [discriminate|]. split; [exact B|]. now intros []. }
  destruct T as (F & A & S). unfold bind, set_empty_line, modify, lift_rd'. cbn [lx_rd lx_ahead lx_empty_line].
  destruct x1 as [[[|ch l] p] la em]; cbn [lx_rd lx_ahead] in *.
  { cbn. auto. }
  destruct S as (SW & SN). cbn [rest] in SW, SN.
  destruct (token_at_err V op ch l p) as [H|(E & Eo & E1 & E2 & E3)].
  - destruct (lx_read_token_at' V op (Rd (ch :: l) p)) as [[t r']|[e r']|k|] eqn:ER; cbn; auto.
    + split; [|exact A]. eapply fwd_trans; [exact F|]. apply past_weak. eapply token_at_ok; eauto.
    + destruct H as (L & P). split; [exact A|]. left. split; [exact L|]. split; [eapply fwd_past; eauto|reflexivity].
  - rewrite E. cbn. split; [exact A|]. right. exists ch. split; [reflexivity|]. split; [exact F|].
    split; [split; [now exists l, p|]|split; [reflexivity|exists f; eexists; split; [reflexivity|reflexivity]]].
    intros op'. unfold read_next_token'. unfold bind at 1. rewrite trivia_none by auto.
    unfold bind, set_empty_line, modify, lift_rd'. cbn [lx_rd lx_ahead lx_empty_line]. now rewrite Eo.
Qed.
Lemma read_is_next op x : lx_ahead x = [] -> read_token' V op x = read_next_token' V op x.
Proof. intros H. unfold read_token'. rewrite bind_gets. now rewrite H. Qed.

Lemma fwd_at src k r r' : rd_at src k r -> fwd r r' -> exists k', (k <= k')%nat /\ rd_at src k' r'.
Proof. intros H (w & T). exists (k + length w)%nat. split; [lia|eapply rd_at_took; eauto]. Qed.
Lemma past_at src k r r' : rd_at src k r -> past r r' -> exists k', (k < k')%nat /\ rd_at src k' r'.
Proof.
  intros H (w & N & T). exists (k + length w)%nat. split; [|eapply rd_at_took; eauto].
  destruct w; [now destruct N|cbn; lia].
Qed.

Theorem session_walks src : ucd_ok V -> forall x h x', session V x h x' ->
  forall k, rd_at src k (lx_rd x) -> lx_ahead x = [] ->
  exists k', walks V src (lx_empty_line x) k h k' /\ rd_at src k' (lx_rd x') /\ lx_ahead x' = [].
Proof.
  intros HV x h x' H. induction H as [x|op x t x1 h x2 E H IH|op x e x1 h x2 E H IH]; intros k A L.
  - exists k. split; [constructor|auto].
  - pose proof (read_token_wp V src op x k HV A L) as W. unfold wp in W.
    rewrite <- (er_read_token V op x), E in W. cbn [forget] in W.
    destruct W as (k1 & N & A1 & L1 & Em). destruct (IH k1 A1 L1) as (k2 & W2 & R).
    rewrite Em in W2. exists k2. split; [eapply walk_got; eauto|exact R].
  - rewrite read_is_next in E by exact L. pose proof (next_out op x) as O. rewrite E in O.
    destruct O as (L1 & [(Lg & P & Em)|(c & -> & F & I & Em & f & x0 & ET & ER)]).
    + destruct (past_at _ _ _ _ A P) as (k1 & Lk & A1). rewrite L in L1. destruct (IH k1 A1 L1) as (k2 & W2 & R).
      exists k2. split; [|exact R]. eapply walk_other; eauto. split; [exact Lk|apply A1].
    + pose proof (trivia_spec (lx_empty_line x) (lx_rd x)) as TS. pose proof (er_trivia x) as EE. rewrite ET in EE.
      cbn [forget] in EE. unfold wp in TS. destruct (lx_trivia (lx_empty_line x) (lx_rd x)) as [[[f1 e1] r1]|?|?|]; try discriminate EE.
      injection EE. intros Ex0 _. assert (R1 : r1 = lx_rd x1) by (rewrite <- ER, Ex0; reflexivity). clear EE Ex0. subst r1.
      destruct TS as (ws & T & TV & _). destruct I as ((l & p & EL) & _). rewrite L in L1.
      pose proof (rd_at_took _ _ _ _ _ A T) as A1. destruct (IH _ A1 L1) as (k2 & W2 & R).
      rewrite Em in W2. exists k2. split; [|exact R]. rewrite EL in TV. cbn [rest] in TV.
      eapply walk_illegal; [|exact TV|exact W2]. destruct A as (_ & Ar & _). rewrite <- Ar, (took_rest _ _ _ T), EL. reflexivity.
Qed.

Lemma stuck_session c x : illegal_at c x -> lx_ahead x = [] -> forall h x', session V x h x' ->
  x' = x /\ Forall (fun o => snd o = Failed (IllegalChar c)) h.
Proof.
  intros (_ & I) L h x' H. induction H as [x|op x t x1 h x2 E H IH|op x e x1 h x2 E H IH].
  - auto.
  - rewrite read_is_next in E by exact L. rewrite I in E. discriminate.
  - rewrite read_is_next in E by exact L. rewrite I in E. injection E as <- <-. destruct (IH I L) as (A & B).
    split; [exact A|]. constructor; [reflexivity|exact B].
Qed.
Lemma session_app x h1 h2 x2 : session V x (h1 ++ h2) x2 <-> exists x1, session V x h1 x1 /\ session V x1 h2 x2.
Proof.
  split.
  - revert x. induction h1 as [|a h1 IH]; intros x H; [exists x; split; [constructor|exact H]|].
    cbn in H. inversion H; subst; destruct (IH _ ltac:(eassumption)) as (y & A & B); exists y; split; auto; econstructor; eauto.
  - intros (x1 & A & B). induction A; [exact B| |]; cbn; econstructor; eauto.
Qed.
Lemma walks_length src : forall b k h k', walks V src b k h k' -> (k <= length src)%nat -> Forall (fun o => ~ final (snd o)) h ->
  (k + length h <= k')%nat /\ (k' <= length src)%nat.
Proof.
  intros b k h k' H. induction H as [b k|b k op t k1 h k2 N H IH|b k op ws c l h k2 E T H IH|b k op e b1 k1 h k2 Ne Lk Hb H IH]; intros Lk0 F.
  - cbn. lia.
  - inversion F as [|? ? F1 F2]; subst. cbn in F1. pose proof (token_consumes _ _ _ _ _ _ _ N F1).
    destruct N as (ws & w & l & E & -> & _). assert (length (skipn k src) = length ws + (length w + length l))%nat by (rewrite E, !app_length; lia).
    rewrite skipn_length in *. destruct IH; [lia|auto|]. cbn [length]. lia.
  - inversion F as [|? ? F1 F2]; subst. destruct F1. cbn. eauto.
  - inversion F as [|? ? F1 F2]; subst. destruct IH; [lia|auto|]. cbn [length]. lia.
Qed.
End WithEnv.
