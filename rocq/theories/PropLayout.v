(** The lexer reads exactly the lexical grammar (C66), and layout does not matter
    (C21).  The vocabulary is that of [SpecLexer] and [SpecLayout]. *)
From Coq Require Import String Ascii List NArith ZArith Bool Lia.
From Verif Require Import Base Chars F64 Word Token Reader Lexer LexClient SpecReader ReaderProofs SpecLexer
  SpecClient SpecLayout LexWp LexerProofs LexTheorems LexLayout.
Import ListNotations.
Local Open Scope nat_scope.

(** C66: reading tokens succeeds with [ts] exactly when the text consists of the
    lexemes [ts] of the grammar. *)
Theorem C66_reads_exactly_the_grammar : forall V src ops ts, ucd_ok V ->
  (exists x, read_tokens V ops (lexer_new src) = Ok (ts, x)) <-> (exists k, tiles V src ops true 0 ts k).
Proof. intros V src ops ts HV. exact (read_exact V src ops ts HV). Qed.
Print Assumptions C66_reads_exactly_the_grammar.

(** C66: the grammar is unambiguous. *)
Theorem C66_unambiguous : forall V src ops ts1 k1 ts2 k2, ucd_ok V ->
  tiles V src ops true 0 ts1 k1 -> tiles V src ops true 0 ts2 k2 -> ts1 = ts2 /\ k1 = k2.
Proof. exact tiles_unique. Qed.
Print Assumptions C66_unambiguous.

(** C66: an error (or a panic) means that the text has no such lexemes. *)
Theorem C66_errors_are_justified : forall V src ops, ucd_ok V ->
  (forall ts x, read_tokens V ops (lexer_new src) <> Ok (ts, x)) <->
  (forall ts k, ~ tiles V src ops true 0 ts k).
Proof.
  intros V src ops HV. split.
  - intros H ts k T. destruct (proj2 (read_exact V src ops ts HV) (ex_intro _ k T)) as [x R]. exact (H ts x R).
  - intros H ts x R. destruct (proj1 (read_exact V src ops ts HV) (ex_intro _ x R)) as [k T]. exact (H ts k T).
Qed.
Print Assumptions C66_errors_are_justified.

Example C66_example : (exists ts k, tiles env_ascii (lit "x=>1.5") [false; true; true; false] true 0 ts k
    /\ map tk_value ts = [TIdent (NString (lit "x")); TPunc T_Assign; TPunc T_RAngle;
                          TNumber (NumberLiteral (Some (Float (Some (lit "1")) (Some (lit "5")) None))
                                                 (match number_value (Float (Some (lit "1")) (Some (lit "5")) None)
                                                  with Some v => v | None => FNan end))])
  /\ (forall ts k, ~ tiles env_ascii (lit "1a") [false] true 0 ts k).
Proof.
  split.
  - destruct (read_tokens env_ascii [false; true; true; false] (lexer_new (lit "x=>1.5")))
      as [[ts x]|?|?|] eqn:E; try (vm_compute in E; discriminate E).
    destruct (proj1 (C66_reads_exactly_the_grammar env_ascii (lit "x=>1.5") [false; true; true; false] ts ucd_ok_ascii)
                (ex_intro _ x E)) as [k T].
    exists ts, k. split; [exact T|]. vm_compute in E. injection E as <- _. vm_compute. reflexivity.
  - apply (proj1 (C66_errors_are_justified env_ascii (lit "1a") [false] ucd_ok_ascii)).
    intros ts x E. vm_compute in E. discriminate E.
Qed.

(** C21: the whitespace and comments before a token can be replaced by any others
    (with or without line terminators, like the original): the same token is read,
    it covers the same number of characters, and the same text follows it. *)
Theorem C21_trivia_insignificant : forall V op src1 k1 x1 g1 src2 k2 x2 g2 r t1 x1', ucd_ok V ->
  rd_at src1 k1 (lx_rd x1) -> rd_at src2 k2 (lx_rd x2) -> lx_ahead x1 = [] -> lx_ahead x2 = [] ->
  skipn k1 src1 = g1 ++ r -> skipn k2 src2 = g2 ++ r ->
  trivia (lx_empty_line x1) g1 r -> trivia (lx_empty_line x2) g2 r ->
  (has_newline g1 <-> has_newline g2) ->
  read_token V op x1 = Ok (t1, x1') ->
  exists n t2 x2', read_token V op x2 = Ok (t2, x2') /\ unplaced t2 = unplaced t1
    /\ tk_loc t1 = Span (posn_at src1 (k1 + length g1)) (posn_at src1 (k1 + length g1 + n))
    /\ tk_loc t2 = Span (posn_at src2 (k2 + length g2)) (posn_at src2 (k2 + length g2 + n))
    /\ rest (lx_rd x1') = skipn n r /\ rest (lx_rd x2') = skipn n r.
Proof. exact trivia_replaced. Qed.
Print Assumptions C21_trivia_insignificant.

(** C21 for a whole text: texts with the same lexemes have the same tokens. *)
Theorem C21_layout_insignificant : forall V ops s1 s2 ds, ucd_ok V -> relaid V ops true s1 s2 ds ->
  exists ts1 x1 ts2 x2,
    read_tokens V ops (lexer_new s1) = Ok (ts1, x1) /\ read_tokens V ops (lexer_new s2) = Ok (ts2, x2)
    /\ map unplaced ts1 = ds /\ map unplaced ts2 = ds.
Proof. exact relaid_same. Qed.
Print Assumptions C21_layout_insignificant.

(** C21: a lexeme remains one when whitespace or a line terminator is put behind it,
    or when at least the next three characters stay the same. *)
Theorem C21_space_separates : forall V op d w l l', ucd_ok V -> d <> TPunc T_EOF -> blank_start l' ->
  lexeme V op d w l -> lexeme V op d w l'.
Proof. exact lexeme_before_blank. Qed.
Print Assumptions C21_space_separates.

Theorem C21_three_characters_decide : forall V op d w l l', firstn 3 l = firstn 3 l' ->
  lexeme V op d w l -> lexeme V op d w l'.
Proof. exact lexeme_context. Qed.
Print Assumptions C21_three_characters_decide.

(** [a+ +b] and [a /*c*/+ /**/ +b]. *)
Lemma not_trivia b c l : c <> 47%N -> c <> 60%N -> c <> 45%N -> ~ white_space c -> ~ line_terminator c ->
  ~ starts_trivia b (c :: l).
Proof.
  intros H1 H2 H3 H4 H5 [H|[H|[[t H]|[[t H]|[[t H]|[_ [t H]]]]]]]; [exact (H4 H)|exact (H5 H)|..];
    injection H; intros; congruence.
Qed.

Ltac plain := apply not_trivia; try discriminate; [intros [X _]; cbn in X; intuition discriminate
                                                  |intros X; cbn in X; intuition discriminate].
Ltac no_newline := split; [discriminate|intros X; exfalso; repeat (inversion X as [? ? Y|? ? Y]; subst; clear X;
  [cbn in Y; intuition discriminate|rename Y into X]); inversion X].

Lemma plus_lexeme : lexeme env_ascii true (TPunc T_Plus) (lit "+") (lit " +b").
Proof.
  apply (lx_punc env_ascii true T_Plus).
  - repeat split; try discriminate.
  - intros p' _ [tl H]. destruct p'; try (cbn; lia); discriminate H.
  - discriminate.
Qed.

Lemma a_lexeme : lexeme env_ascii false (TIdent (NString (lit "a"))) (lit "a") (lit "+ +b").
Proof.
  apply (lx_ident env_ascii false (NString (lit "a")) (lit "a") (lit "a") false).
  - left. right. right. reflexivity.
  - apply wt_char; [right; right; right; right; reflexivity|apply wt_nil].
  - split; [|intros [t H]; discriminate H]. cbn. intros H.
    destruct H as [H|[H|[H|[H|H]]]]; discriminate H.
  - intros r. destruct r; discriminate.
  - split; [reflexivity|]. right. intros a. destruct a; discriminate.
Qed.

Example C21_example :
  relaid env_ascii [false; true] true (lit "a+ +b") (lit "a /*c*/+ /**/ +b")
    [(false, TIdent (NString (lit "a"))); (false, TPunc T_Plus)].
Proof.
  change (lit "a+ +b") with ([] ++ lit "a" ++ [] ++ lit "+" ++ lit " +b").
  change (lit "a /*c*/+ /**/ +b") with ([] ++ lit "a" ++ lit " /*c*/" ++ lit "+" ++ lit " /**/ +b").
  constructor.
  - constructor. plain.
  - constructor. plain.
  - no_newline.
  - no_newline.
  - exact a_lexeme.
  - eapply C21_space_separates; [exact ucd_ok_ascii|discriminate| |exact a_lexeme].
    right. left. split; [cbn; tauto|split; discriminate].
  - constructor.
    + constructor. plain.
    + apply tv_space; [split; [cbn; tauto|split; discriminate]|].
      apply (tv_block false (lit "c") []); [|constructor; plain].
      intros u v H. destruct u as [|? [|? [|]]]; discriminate H.
    + no_newline.
    + no_newline.
    + exact plus_lexeme.
    + eapply C21_space_separates; [exact ucd_ok_ascii|discriminate| |exact plus_lexeme].
      right. left. split; [cbn; tauto|split; discriminate].
    + constructor.
Qed.

(** The one-token theorem on the same texts: after [a], the gap [ /*c*/] and the
    empty gap. *)
Example C21_trivia_example : exists x1 x2 t x1',
  rd_at (lit "a+b") 1 (lx_rd x1) /\ rd_at (lit "a /*c*/+b") 1 (lx_rd x2)
  /\ lx_ahead x1 = [] /\ lx_ahead x2 = []
  /\ skipn 1 (lit "a+b") = [] ++ lit "+b" /\ skipn 1 (lit "a /*c*/+b") = lit " /*c*/" ++ lit "+b"
  /\ trivia (lx_empty_line x1) [] (lit "+b") /\ trivia (lx_empty_line x2) (lit " /*c*/") (lit "+b")
  /\ read_token env_ascii true x1 = Ok (t, x1') /\ tk_value t = TPunc T_Plus.
Proof.
  exists (Lexer (Rd (lit "+b") (posn_at (lit "a+b") 1)) [] false),
         (Lexer (Rd (lit " /*c*/+b") (posn_at (lit "a /*c*/+b") 1)) [] false).
  eexists _, _. split; [split; [cbn; lia|split; reflexivity]|].
  split; [split; [cbn; lia|split; reflexivity]|].
  do 4 (split; [reflexivity|]). split; [constructor; plain|]. split.
  - apply tv_space; [split; [cbn; tauto|split; discriminate]|].
    apply (tv_block false (lit "c") []); [|constructor; plain].
    intros u v H. destruct u as [|? [|? [|]]]; discriminate H.
  - split; [vm_compute; reflexivity|reflexivity].
Qed.
