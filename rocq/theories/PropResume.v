(** C83: what happens when a client goes on reading after an error.  The vocabulary is that
    of [SpecResume]. *)
From Coq Require Import String Ascii List NArith Bool Lia.
From Verif Require Import Base Chars Word Token Reader Lexer SpecReader SpecLexer Wp LexerProofs LexTheorems
  Resume ResumeErase ResumeProofs SpecResume ResumeObject.
Import ListNotations.
Local Open Scope nat_scope.

(** The lexer whose errors leave a lexer behind is the lexer of the other properties. *)
Definition without_lexer {A} (o : res (lex_error * lexer) A) : res lex_error A :=
  match o with Ok a => Ok a | Err (e, _) => Err e | Panic k => Panic k | NoFuel => NoFuel end.
Theorem C83_same_answers : forall V op x,
  without_lexer (read_token' V op x) = read_token V op x
  /\ without_lexer (peek_token' V op x) = peek_token V op x
  /\ without_lexer (skip_token' V op x) = skip_token V op x.
Proof.
  intros V op x.
  assert (F : forall A (o : res (lex_error * lexer) A), without_lexer o = forget o) by (intros A [a|[e r]|k|]; reflexivity).
  rewrite !F. repeat split; [apply er_read_token|apply er_peek_token|apply er_skip_token].
Qed.
Print Assumptions C83_same_answers.

(** Looking and reading fail alike. *)
Theorem C83_peek_and_skip_fail_alike : forall V op x e x',
  (peek_token' V op x = Err (e, x') <-> read_token' V op x = Err (e, x'))
  /\ (skip_token' V op x = Err (e, x') <-> read_token' V op x = Err (e, x')).
Proof.
  intros V op x e x'. unfold peek_token', skip_token', read_token'. rewrite !bind_gets.
  destruct (lx_ahead x) as [|t la] eqn:L; split.
  - unfold bind, modify, ret. destruct (read_next_token' V op x) as [[t x1]|y|k|]; split; intros H; try discriminate; exact H.
  - unfold bind at 1. rewrite bind_gets, L. unfold ret. destruct (read_next_token' V op x) as [[t x1]|y|k|]; split; intros H; try discriminate; injection H as ->; reflexivity.
  - split; intros H; discriminate.
  - unfold bind at 1. rewrite bind_gets, L. split; intros H; discriminate.
Qed.
Print Assumptions C83_peek_and_skip_fail_alike.

(** Whatever it is told, a client that reads on stays on the text: the lexer's position is
    that of a place in the text, the tokens are those of the rest of the text there, and
    errors move it forward, except those about illegal characters, before which it stands.
    At first it is at the start of a line. *)
Theorem C83_reading_on : forall V src h x, ucd_ok V -> session V (lexer_new src) h x ->
  exists k, walks V src true 0 h k /\ k <= length src
    /\ rest (lx_rd x) = skipn k src /\ pos (lx_rd x) = posn_at src k /\ lx_ahead x = [].
Proof.
  intros V src h x HV H. destruct (session_walks V src HV _ _ _ H 0 (rd_at_new src) eq_refl) as (k & W & (A & B & C) & D).
  exists k. auto.
Qed.
Print Assumptions C83_reading_on.

(** The only panics are those of a first reading (C19), and every request is answered. *)
Theorem C83_panics_confined : forall V src h x op, ucd_ok V -> session V (lexer_new src) h x ->
  match read_token' V op x with
  | Ok _ => True
  | Err _ => True
  | Panic k => (k = P_read_eof /\ (ends_in_escape src \/ (op = false /\ ends_in_regexp src)))
               \/ (k = P_overflow /\ overflow_checks V = true /\ has_long_escape src)
  | NoFuel => False
  end.
Proof.
  intros V src h x op HV H. destruct (session_walks V src HV _ _ _ H 0 (rd_at_new src) eq_refl) as (k & W & A & D).
  pose proof (read_token_wp V src op x k HV A D) as Hw. unfold wp in Hw. rewrite <- (er_read_token V op x) in Hw.
  destruct (read_token' V op x) as [[t x1]|[e x1]|k0|]; cbn [forget] in Hw; auto.
  assert (Hpre : src = firstn k src ++ skipn k src) by (symmetry; apply firstn_skipn).
  destruct Hw as [[[-> (u & ds & Hl & Hd)]|(-> & Hc & u & ds & v & Hl & Hd)]|(-> & -> & u & b & Hl & Hb)].
  - left. split; [reflexivity|]. left. exists (firstn k src ++ u), ds. split; [|exact Hd].
    rewrite Hpre at 1. rewrite Hl, app_assoc. reflexivity.
  - right. split; [reflexivity|]. split; [exact Hc|]. exists (firstn k src ++ u), ds, v.
    split; [|exact Hd]. rewrite Hpre at 1. rewrite Hl, app_assoc. reflexivity.
  - left. split; [reflexivity|]. right. split; [reflexivity|].
    exists (firstn k src ++ u), b. split; [|exact Hb]. rewrite Hpre at 1. rewrite Hl, app_assoc. reflexivity.
Qed.
Print Assumptions C83_panics_confined.

(** Reading on comes to the end of the input, or to an illegal character, within as many
    requests as there are characters, plus one. *)
Theorem C83_ends_partial : forall V src h x, ucd_ok V -> session V (lexer_new src) h x ->
  length src < length h -> Exists (fun o => final (snd o)) h.
Proof.
  intros V src h x HV H L. destruct (session_walks V src HV _ _ _ H 0 (rd_at_new src) eq_refl) as (k & W & _).
  assert (D : Exists (fun o => final (snd o)) h \/ Forall (fun o => ~ final (snd o)) h).
  { clear. induction h as [|a h [IH|IH]]; [right; constructor|left; now constructor 2|].
    assert (F : final (snd a) \/ ~ final (snd a)).
    { destruct (snd a) as [t|e]; cbn.
      - destruct (tk_value t); try (right; discriminate).
        match goal with p : punc |- _ => destruct p; solve [left; reflexivity|right; discriminate] end.
      - destruct e; try (right; intros (? & ?); discriminate); left; eexists; reflexivity. }
    destruct F; [left; now constructor|right; now constructor]. }
  destruct D as [D|D]; [exact D|]. destruct (walks_length V src _ _ _ _ W ltac:(lia) D). lia.
Qed.
Print Assumptions C83_ends_partial.

(** It does not get past an illegal character: from then on every request, whatever its
    flag, is answered with the same error and leaves the lexer as it is. *)
Theorem C83_illegal_character_stays : forall V src h op c x, ucd_ok V ->
  session V (lexer_new src) (h ++ [(op, Failed (IllegalChar c))]) x ->
  (forall op', read_token' V op' x = Err (IllegalChar c, x))
  /\ forall h' x', session V x h' x' -> x' = x /\ Forall (fun o => snd o = Failed (IllegalChar c)) h'.
Proof.
  intros V src h op c x HV H. apply session_app in H as (x1 & H1 & H2).
  destruct (session_walks V src HV _ _ _ H1 0 (rd_at_new src) eq_refl) as (k & W & _ & L).
  inversion H2 as [| |? ? ? y ? ? E H3]; subst. inversion H3; subst. rewrite read_is_next in E by exact L.
  pose proof (next_out V op x1) as O. rewrite E in O. destruct O as (L1 & [(Lg & _)|(c0 & E0 & _ & I & _)]).
  - now destruct (Lg c).
  - injection E0 as <-. rewrite L in L1. split.
    + intros op'. rewrite read_is_next by exact L1. apply I.
    + now apply stuck_session.
Qed.
Print Assumptions C83_illegal_character_stays.

(** So the end of the input need not be reached, however long one reads. *)
Theorem C83_reaching_the_end_refuted : forall n, exists h x,
  session env_ascii (lexer_new (lit "a # b")) h x /\ length h = n
  /\ Forall (fun o => match snd o with Got t => tk_value t <> TPunc T_EOF | Failed _ => True end) h.
Proof.
  intros [|n]; [exists [], (lexer_new (lit "a # b")); repeat split; constructor|].
  set (left_by := fun o : res (lex_error * lexer) (token * lexer) =>
    match o with Ok (_, x) => x | Err (_, x) => x | _ => lexer_new [] end).
  set (x2 := left_by (read_token' env_ascii true (left_by (read_token' env_ascii true (lexer_new (lit "a # b")))))).
  assert (R : forall n, exists h, session env_ascii x2 h x2 /\ length h = n
    /\ Forall (fun o => match snd o with Got t => tk_value t <> TPunc T_EOF | Failed _ => True end) h).
  { intros m. induction m as [|m (h & A & B & C)]; [exists []; repeat split; constructor|].
    exists ((true, Failed (IllegalChar 35)) :: h). split; [|split; [cbn; lia|constructor; [exact Logic.I|exact C]]].
    eapply ses_failed; [|exact A]. vm_compute. reflexivity. }
  destruct n as [|n].
  - eexists [(true, Got _)], _. split; [eapply ses_got; [vm_compute; reflexivity|constructor]|].
    split; [reflexivity|]. constructor; [discriminate|constructor].
  - destruct (R n) as (h & A & B & C). eexists ((true, Got _) :: (true, Failed _) :: h), x2. split.
    + eapply ses_got; [vm_compute; reflexivity|]. eapply ses_failed; [vm_compute; reflexivity|]. exact A.
    + split; [cbn; lia|]. constructor; [discriminate|]. constructor; [exact Logic.I|exact C].
Qed.
Print Assumptions C83_reaching_the_end_refuted.

(** A client that reads on after [3a]: the error, then the word, then what follows. *)
Example C83_example : exists h x, session env_ascii (lexer_new (lit "3a + '")) h x
  /\ map snd h = [Failed (IdAfterNumber 97);
       Got (Token (Span (Posn 1 0 1) (Posn 2 0 2)) false (TIdent (name_from (lit "a"))));
       Got (Token (Span (Posn 3 0 3) (Posn 4 0 4)) false (TPunc T_Plus));
       Failed (UnterminatedString None);
       Got (Token (Span (Posn 6 0 6) (Posn 6 0 6)) false (TPunc T_EOF))].
Proof.
  eexists [(true, _); (true, _); (true, _); (true, _); (true, _)], _. split.
  - eapply ses_failed; [vm_compute; reflexivity|]. eapply ses_got; [vm_compute; reflexivity|].
    eapply ses_got; [vm_compute; reflexivity|]. eapply ses_failed; [vm_compute; reflexivity|].
    eapply ses_got; [vm_compute; reflexivity|]. apply ses_nil.
  - reflexivity.
Qed.
Example C83_stuck_example : exists h x,
  session env_ascii (lexer_new (lit "a #")) (h ++ [(true, Failed (IllegalChar 35))]) x /\ length h = 1.
Proof.
  eexists [(true, _)], _. split; [|reflexivity].
  eapply ses_got; [vm_compute; reflexivity|]. eapply ses_failed; [vm_compute; reflexivity|]. apply ses_nil.
Qed.
