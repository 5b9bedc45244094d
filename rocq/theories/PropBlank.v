(** Layout does not change the parse (C70).  The vocabulary is that of [SpecLexer],
    [SpecLayout] and [SpecBlank]. *)
From Coq Require Import String Ascii List NArith Arith Bool Lia.
From Verif Require Import Base Chars F64 Word Token Reader Lexer Punc Ast Track Cover Stack PState Parser Api Wp
  SpecReader ReaderProofs SpecLexer SpecClient SpecLayout LexWp LexLit LexerProofs LexTheorems LexLayout
  ParserWp SpecBlank Cost CostErase LayBase LayBlank LayProofs LexClient SpecError PropParser PropLayout PropError.
Import ListNotations.
Local Open Scope nat_scope.

(** ** Entry points *)

Lemma not_lexical {A} (r : res perror A) : r <> NoFuel -> ~ lexical r -> told r.
Proof.
  intros n h. destruct r as [a|e|k|]; [exact Logic.I| | |congruence].
  - destruct e; try exact Logic.I. exfalso. apply h. exact Logic.I.
  - destruct k; try exact Logic.I; exfalso; apply h; discriminate.
Qed.
Lemma lexical_dec {A} (r : res perror A) : lexical r \/ ~ lexical r.
Proof.
  destruct r as [a|e|k|]; [right; intros []| | |right; intros []].
  - destruct e; try (right; intros []; fail); try (left; exact Logic.I).
  - destruct k; try (left; discriminate). right. intros h. apply h. reflexivity.
Qed.
Lemma lexical_blank {A} (f : A -> A) r : lexical (result_blank f r) <-> lexical r.
Proof. destruct r as [a|e|k|]; try reflexivity. destruct e; reflexivity. Qed.

(** The generic step from [sim_run]. *)
Lemma decide V (HV : ucd_ok V) {A} {B : Blank A} (m1 : str -> C A) (m2 : str -> P A) (entry : str -> res perror A) :
  (forall s1 s2, LayBase.sim V s1 s2 (m1 s1) (m2 s2)) ->
  (forall s, snd (crun (m1 s) (parser_new s)) = entry s) ->
  (forall s, entry s = run (m2 s) (parser_new s)) ->
  (forall s, entry s <> NoFuel) -> decided V blank entry.
Proof.
  intros h e1 e2 e3 s1 nl. assert (T : told (entry s1)) by (apply not_lexical; auto).
  rewrite <- e1 in T. destruct (sim_run V s1 s1 _ _ (h s1 s1) T) as (ts1 & k1 & T1 & _).
  eexists _, ts1, k1. split; [exact T1|]. intros s2 ts2 k2 T2 EQ.
  destruct (sim_run V s1 s2 _ _ (h s1 s2) T) as (ts1' & k1' & T1' & H).
  assert (E1 : map unplaced ts1' = map unplaced ts2).
  { assert (ts1' = ts1) as -> by (eapply tiles_unique; eassumption). congruence. }
  destruct (H ts2 k2 T2 E1) as [N|Q].
  - rewrite <- e2 in N. destruct (e3 s2 N).
  - rewrite <- e2, e1 in Q. exact Q.
Qed.

Section Entry.
Context (V : env) (HV : ucd_ok V).

Lemma script_decided strict : decided V script_blank
  (fun s => run (script_ V (parse_rec V (fuel_for s)) strict) (parser_new s)).
Proof.
  apply (decide V HV (fun s => script_' V (parse_rec' V (fuel_for s)) strict)
                  (fun s => script_ V (parse_rec V (fuel_for s)) strict)).
  - intros s1 s2. destruct (y_rec V HV s1 s2 (fuel_for s1) (fuel_for s2)) as [ha hi]. apply y_script_; assumption.
  - intros s. destruct strict; [exact (er_strict_of V s)|exact (er_script_of V s)].
  - reflexivity.
  - intros s. destruct strict; apply (C27_returns V s HV).
Qed.
Lemma module_decided : decided V module_blank (module_of V).
Proof.
  apply (decide V HV (fun s => module_' V (parse_rec' V (fuel_for s)))
                  (fun s => module_ V (parse_rec V (fuel_for s)))).
  - intros s1 s2. destruct (y_rec V HV s1 s2 (fuel_for s1) (fuel_for s2)) as [ha hi]. apply y_module_; assumption.
  - exact (er_module_of V).
  - reflexivity.
  - intros s. apply (C27_returns V s HV).
Qed.
Lemma program_decided : decided V program_blank (program_of V).
Proof.
  apply (decide V HV (fun s => program_' V (parse_rec' V (fuel_for s)))
                  (fun s => program_ V (parse_rec V (fuel_for s)))).
  - intros s1 s2. destruct (y_rec V HV s1 s2 (fuel_for s1) (fuel_for s2)) as [ha hi]. apply y_program_; assumption.
  - exact (er_program_of V).
  - reflexivity.
  - intros s. apply (C27_returns V s HV).
Qed.

(** Two texts that have the same tokens both ways. *)
Lemma decided_alike {A} (f : A -> A) (entry : str -> res perror A) s1 s2 : decided V f entry ->
  same_tokens V s1 s2 -> same_tokens V s2 s1 -> alike f (entry s1) (entry s2).
Proof.
  intros h h12 h21. destruct (lexical_dec (entry s1)) as [l1|n1].
  - destruct (lexical_dec (entry s2)) as [l2|n2]; [right; auto|]. left.
    destruct (h s2 n2) as (ops & ts & k & T & H). destruct (h21 _ _ _ T) as (ts' & k' & T' & M).
    exact (H s1 ts' k' T' M).
  - left. destruct (h s1 n1) as (ops & ts & k & T & H). destruct (h12 _ _ _ T) as (ts' & k' & T' & M).
    symmetry. exact (H s2 ts' k' T' M).
Qed.

(** ** Texts laid out anew *)

(** Only a token that begins with a slash depends on what a slash is taken for. *)
Lemma slashless_lexeme op op' d w l : slashless d -> lexeme V op d w l -> lexeme V op' d w l.
Proof.
  intros hs H. destruct H as [|p l hp hm hd| | | |b fw fv esc l| ].
  - constructor.
  - assert (N : p <> T_Slash /\ p <> T_SlashAssign) by (split; intros ->; exact hs).
    destruct hp as (p1 & p2 & p3). constructor; [|intros p' (q1 & q2 & q3) hx|exact hd].
    + split; [exact p1|]. split; [exact p2|]. intros _. exact N.
    + apply hm; [|exact hx]. split; [exact q1|]. split; [exact q2|]. intros _.
      destruct N as [n1 n2]. destruct hx as [tl hx].
      split; intros ->; destruct p; try (destruct (n1 eq_refl)); try (destruct (n2 eq_refl));
        try (destruct (p1 eq_refl)); try (destruct (p2 eq_refl)); discriminate hx.
  - constructor; assumption.
  - econstructor; eassumption.
  - constructor; assumption.
  - destruct hs.
  - econstructor; eassumption.
Qed.
Lemma eof_lexeme op w l : lexeme V op (TPunc T_EOF) w l -> w = [] /\ l = [].
Proof. intros H. inversion H as [|p ? hp| | | | | ]; subst; [auto|]. destruct hp as [hp _]. destruct (hp eq_refl). Qed.
Lemma relaid_end ops : exists ds, relaid V ops false [] [] ds.
Proof.
  induction ops as [|op ops [ds IH]]; [eexists; constructor|]. exists ((false, TPunc T_EOF) :: ds).
  assert (tv : trivia false [] []).
  { apply tv_done. intros [H|[H|[[t H]|[[t H]|[[t H]|[H _]]]]]]; [exact H|exact H|discriminate H..]. }
  apply (rl_token V op ops false [] [] [] [] [] false (TPunc T_EOF) ds tv tv);
    try (split; [discriminate|intros H; inversion H]); try constructor; exact IH.
Qed.
Lemma relaid_any ops b s1 s2 ds nl : relaid V ops b s1 s2 (ds ++ [(nl, TPunc T_EOF)]) ->
  Forall (fun x => slashless (snd x)) ds -> forall ops', exists ds', relaid V ops' b s1 s2 ds'.
Proof.
  intros H. remember (ds ++ [(nl, TPunc T_EOF)]) as dx eqn:E. revert ds E.
  induction H as [b s1 s2|op ops b g1 g2 w r1 r2 nl' d dr T1 T2 N1 N2 L1 L2 H IH]; intros ds E F ops'.
  - destruct ds; discriminate E.
  - destruct ops' as [|op' ops']; [eexists; constructor|]. destruct ds as [|x ds]; injection E as E1 E2.
    + subst d dr. destruct (eof_lexeme _ _ _ L1) as [-> ->]. destruct (eof_lexeme _ _ _ L2) as [_ ->].
      destruct (relaid_end ops') as [ds' R]. eexists.
      eapply rl_token; [exact T1|exact T2|exact N1|exact N2| | |exact R]; constructor.
    + subst x. inversion F as [|? ? Fd Fr]; subst. destruct (IH ds eq_refl Fr ops') as [ds' R].
      eexists. eapply rl_token; [exact T1|exact T2|exact N1|exact N2| | |exact R]; eapply slashless_lexeme; eassumption.
Qed.
Lemma relaid_tokens s1 s2 : (forall ops, exists ds, relaid V ops true s1 s2 ds) ->
  same_tokens V s1 s2 /\ same_tokens V s2 s1.
Proof.
  intros h. split; intros ops ts k T; destruct (h ops) as [ds R];
    destruct (relaid_tiles V ops true s1 s2 ds R) as [H1 H2];
    destruct (H1 s1 0 eq_refl) as (ts1 & k1 & T1 & M1); destruct (H2 s2 0 eq_refl) as (ts2 & k2 & T2 & M2).
  - exists ts2, k2. split; [exact T2|]. destruct (tiles_unique V s1 ops _ _ _ _ HV T T1) as [-> _]. congruence.
  - exists ts1, k1. split; [exact T1|]. destruct (tiles_unique V s2 ops _ _ _ _ HV T T2) as [-> _]. congruence.
Qed.
(** Such a text is not rejected by the lexer. *)
Lemma relaid_accepted s1 s2 : (forall ops, exists ds, relaid V ops true s1 s2 ds) -> forall s, s = s1 \/ s = s2 ->
  forall ops, exists ts x, read_tokens V ops (lexer_new s) = Ok (ts, x).
Proof.
  intros h s hs ops. destruct (h ops) as [ds R]. destruct (relaid_tiles V ops true s1 s2 ds R) as [H1 H2].
  destruct hs; subst s.
  - destruct (H1 s1 0 eq_refl) as (ts & k & T & _). exists ts. apply (C66_reads_exactly_the_grammar V s1 ops ts HV). eauto.
  - destruct (H2 s2 0 eq_refl) as (ts & k & T & _). exists ts. apply (C66_reads_exactly_the_grammar V s2 ops ts HV). eauto.
Qed.
Lemma accepted_not_lexical s : (forall ops, exists ts x, read_tokens V ops (lexer_new s) = Ok (ts, x)) ->
  ~ lexical (script_of V s) /\ ~ lexical (strict_of V s) /\ ~ lexical (module_of V s) /\ ~ lexical (program_of V s).
Proof.
  intros h.
  assert (P : forall k, k <> P_unimplemented -> panics V s k -> False).
  { intros k n H. destruct (C71_panics_are_honest V s k HV H) as [E|[ops E]]; [contradiction|].
    destruct (h ops) as (ts & x & E'). congruence. }
  assert (L : forall e, reports V s (LexError e) -> False).
  { intros e H. destruct (C71_errors_are_honest V s _ HV H) as [ops E]. destruct (h ops) as (ts & x & E'). congruence. }
  unfold panics in P. repeat split.
  - destruct (script_of V s) as [|[]|k|] eqn:E; cbn [lexical]; try tauto; [intros _; eapply L, re_script, E|intros n; apply (P k n); auto].
  - destruct (strict_of V s) as [|[]|k|] eqn:E; cbn [lexical]; try tauto; [intros _; eapply L, re_strict, E|intros n; apply (P k n); auto].
  - destruct (module_of V s) as [|[]|k|] eqn:E; cbn [lexical]; try tauto; [intros _; eapply L, re_module, E|intros n; apply (P k n); auto].
  - destruct (program_of V s) as [|[]|k|] eqn:E; cbn [lexical]; try tauto; [intros _; eapply L, re_program, E|intros n; apply (P k n); auto].
Qed.
End Entry.

(** C70: what an entry point returns on a text that the lexer accepts as far as it is
    read is decided by the tokens read, not by where they are. *)
Theorem C70_tokens_decide : forall V, ucd_ok V ->
  decided V script_blank (script_of V) /\ decided V script_blank (strict_of V)
  /\ decided V module_blank (module_of V) /\ decided V program_blank (program_of V).
Proof.
  intros V HV. split; [|split; [|split]].
  - exact (script_decided V HV false).
  - exact (script_decided V HV true).
  - exact (module_decided V HV).
  - exact (program_decided V HV).
Qed.
Print Assumptions C70_tokens_decide.

(** C70: on texts with the same tokens every entry point returns the same tree, or the
    same error, up to positions, or the lexer rejects both texts. *)
Theorem C70_same_tokens_same_result : forall V s1 s2, ucd_ok V -> same_tokens V s1 s2 -> same_tokens V s2 s1 ->
  alike script_blank (script_of V s1) (script_of V s2) /\ alike script_blank (strict_of V s1) (strict_of V s2)
  /\ alike module_blank (module_of V s1) (module_of V s2)
  /\ alike program_blank (program_of V s1) (program_of V s2).
Proof.
  intros V s1 s2 HV h12 h21. destruct (C70_tokens_decide V HV) as (d1 & d2 & d3 & d4).
  repeat split; eapply decided_alike; eassumption.
Qed.
Print Assumptions C70_same_tokens_same_result.

(** C70 for texts: replacing whitespace and comments by others, with line terminators
    where there were some, changes only the positions.  The texts consist of the
    lexemes [ds], up to the end of the text, none of which begins with a slash. *)
Theorem C70_layout_insignificant : forall V ops s1 s2 ds nl, ucd_ok V ->
  relaid V ops true s1 s2 (ds ++ [(nl, TPunc T_EOF)]) -> Forall (fun x => slashless (snd x)) ds ->
  result_blank script_blank (script_of V s1) = result_blank script_blank (script_of V s2)
  /\ result_blank script_blank (strict_of V s1) = result_blank script_blank (strict_of V s2)
  /\ result_blank module_blank (module_of V s1) = result_blank module_blank (module_of V s2)
  /\ result_blank program_blank (program_of V s1) = result_blank program_blank (program_of V s2).
Proof.
  intros V ops s1 s2 ds nl HV R F. assert (A := relaid_any V ops true s1 s2 ds nl R F).
  destruct (relaid_tokens V HV s1 s2 A) as [h12 h21].
  destruct (accepted_not_lexical V HV s1 (relaid_accepted V HV s1 s2 A s1 (or_introl eq_refl))) as (n1 & n2 & n3 & n4).
  destruct (C70_same_tokens_same_result V s1 s2 HV h12 h21) as (a1 & a2 & a3 & a4). unfold alike in *. tauto.
Qed.
Print Assumptions C70_layout_insignificant.

(** [a+b] and [ a /*c*/+ b ]. *)
Definition laid1 : str := lit "a+b".
Definition laid2 : str := lit " a /*c*/+ b ".
Definition laid_tokens : list (bool * token_data) :=
  [(false, TIdent (NString (lit "a"))); (false, TPunc T_Plus); (false, TIdent (NString (lit "b")))].

Ltac spaced := apply tv_space; [split; [cbn; tauto|split; discriminate]|].
Lemma ident_lexeme a r : a = lit "a" \/ a = lit "b" -> word_end env_ascii r ->
  lexeme env_ascii true (TIdent (NString a)) a r.
Proof.
  intros ha hr. apply (lx_ident env_ascii true (NString a) a a false).
  - left. destruct ha as [->| ->]; right; right; reflexivity.
  - destruct ha as [->| ->]; (apply wt_char; [right; right; right; right; reflexivity|apply wt_nil]).
  - exact hr.
  - intros r'. destruct ha as [->| ->]; destruct r'; discriminate.
  - split; [reflexivity|]. right. destruct ha as [->| ->]; intros a; destruct a; discriminate.
Qed.
Ltac ended := split; [|intros [t H]; discriminate H]; cbn; intros H; first [exact H|repeat destruct H as [H|H]; discriminate H].

Lemma laid : relaid env_ascii [true; true; true; true] true laid1 laid2 (laid_tokens ++ [(false, TPunc T_EOF)]).
Proof.
  change laid1 with ([] ++ lit "a" ++ [] ++ lit "+" ++ [] ++ lit "b" ++ [] ++ [] ++ []).
  change laid2 with (lit " " ++ lit "a" ++ lit " /*c*/" ++ lit "+" ++ lit " " ++ lit "b" ++ lit " " ++ [] ++ []).
  constructor; [apply tv_done; plain|spaced; apply tv_done; plain|no_newline|no_newline|
    apply ident_lexeme; [left; reflexivity|ended]..|].
  constructor; [apply tv_done; plain| |no_newline|no_newline| | |].
  { spaced. apply (tv_block false (lit "c") []); [|apply tv_done; plain].
    intros u v H. destruct u as [|? [|? [|]]]; discriminate H. }
  1,2: apply (lx_punc env_ascii true T_Plus);
    [repeat split; try discriminate
    |intros p' _ [tl H]; destruct p'; try (cbn; lia); discriminate H|discriminate].
  constructor; [apply tv_done; plain|spaced; apply tv_done; plain|no_newline|no_newline|
    apply ident_lexeme; [right; reflexivity|ended]..|].
  assert (tv : forall b, trivia b [] []).
  { intros b. apply tv_done. intros [H|[H|[[t H]|[[t H]|[[t H]|[_ [t H]]]]]]]; [exact H|exact H|discriminate H..]. }
  constructor; [apply tv|spaced; apply tv|no_newline|no_newline|constructor|constructor|constructor].
Qed.

Example C70_example :
  (exists t1 t2, script_of env_ascii laid1 = Ok t1 /\ script_of env_ascii laid2 = Ok t2 /\ t1 <> t2
                 /\ script_blank t1 = script_blank t2)
  /\ same_tokens env_ascii laid1 laid2 /\ same_tokens env_ascii laid2 laid1
  /\ Forall (fun x => slashless (snd x)) laid_tokens.
Proof.
  split.
  - eexists _, _. split; [vm_compute; reflexivity|]. split; [vm_compute; reflexivity|].
    split; [discriminate|reflexivity].
  - destruct (relaid_tokens env_ascii ucd_ok_ascii laid1 laid2
      (relaid_any env_ascii _ true laid1 laid2 laid_tokens false laid ltac:(repeat constructor))) as [h1 h2].
    split; [exact h1|]. split; [exact h2|]. repeat constructor.
Qed.
