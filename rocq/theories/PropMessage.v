(** What the texts of positions, locations and errors say (C79-C82).  The vocabulary
    is that of [SpecMessage]. *)
From Coq Require Import String Ascii List NArith Bool Lia.
From Verif Require Import Base Chars Word Token Reader Lexer LexClient Punc Ast Track Cover PState Parser Api Node
  SpecReader SpecLexer SpecLoc Unjson Estree Message SpecMessage SpecEstree SpecBlame
  MessageProofs EstreeBlame PropLexer PropParser PropLoc PropBlame.
Import ListNotations.
Local Open Scope string_scope.
Local Open Scope list_scope.

(** *** C79 *)

(** The printed form of a position in a text: the number of its line and the number of
    its character in the line, both counted from one. *)
Theorem C79_position_text : forall src k,
  exists l c, posn_text (posn_at src k) = l ++ lit ":" ++ c
    /\ numeral 10 l (N.of_nat (1 + length (line_ends src k)))
    /\ numeral 10 c (N.of_nat (1 + (k - match rev (line_ends src k) with [] => 0 | i :: _ => S i end))).
Proof.
  intros src k. unfold posn_text. eexists _, _. split; [reflexivity|].
  unfold posn_at. cbn [line column]. split.
  - replace (N.of_nat (1 + length (line_ends src k))) with (N.of_nat (length (line_ends src k)) + 1)%N by lia.
    apply put_num_numeral; lia.
  - match goal with |- numeral 10 (put_num 10 ?a) ?b => replace b with a by lia end.
    apply put_num_numeral; lia.
Qed.
Print Assumptions C79_position_text.

(** Printed positions in a text identify places: two places with the same printed
    position are the same place. *)
Theorem C79_positions_identify_places : forall src i j,
  posn_text (posn_at src i) = posn_text (posn_at src j) -> i = j.
Proof. intros src i j E. apply posn_text_inj in E as [L C]. eauto using posn_at_inj. Qed.
Print Assumptions C79_positions_identify_places.

(** So printed locations of nodes of a parsed tree are equal only if the locations are. *)
Theorem C79_locations_identify_spans : forall V src t u m n l k, ucd_ok V ->
  parsed V src t -> parsed V src u -> within t m -> within u n -> node_loc m = Some l -> node_loc n = Some k ->
  span_text l = span_text k -> l = k.
Proof.
  intros V src t u m n l k HV Pt Pu Wm Wn Em En E.
  destruct (C42_locations_are_well_formed V src t m l HV Pt Wm Em) as (_ & A & B).
  destruct (C42_locations_are_well_formed V src u n k HV Pu Wn En) as (_ & A' & B').
  apply span_text_inj in E as [E1 E2]. rewrite A, A' in E1. rewrite B, B' in E2.
  apply C79_positions_identify_places in E1, E2. destruct l, k. cbn in *. congruence.
Qed.
Print Assumptions C79_locations_identify_spans.

Example C79_example :
  posn_text (posn_at loc_example 15) = lit "2:1"
  /\ span_text (Span (posn_at loc_example 13) (posn_at loc_example 52)) = lit "1:14..3:13"
  /\ numeral 10 (lit "14") 14.
Proof.
  split; [vm_compute; reflexivity|]. split; [vm_compute; reflexivity|].
  exact (put_num_numeral 10 14 ltac:(lia) ltac:(lia)).
Qed.
Example C79_nodes_example : exists b i, parsed env_ascii loc_example (N_body b)
  /\ within (N_body b) (N_id i) /\ node_loc (N_id i) = Some (Span (posn_at loc_example 15) (posn_at loc_example 16)).
Proof.
  destruct C41_example as (b & P & _ & i1 & l & i & s & _ & _ & W & E & _). exists b, i. auto.
Qed.

(** *** C80 *)

(** The description of an error of the parser says what kind of error it is: errors have
    the same description exactly if they are of the same kind, where the errors of the
    lexer and of the conversion to patterns keep their kinds. *)
Theorem C80_descriptions_tell_kinds : forall e f, description e = description f <-> alike e f.
Proof. exact description_alike. Qed.
Print Assumptions C80_descriptions_tell_kinds.

(** The displayed text is the description; an error has a cause exactly if it comes from
    the lexer or from the conversion to patterns, and then it has the description of its
    cause; no description is empty. *)
Theorem C80_display_and_cause : forall e,
  display e = description e /\ description e <> []
  /\ (forall c, cause e = Some (inl c) <-> e = LexError c)
  /\ (forall c, cause e = Some (inr c) <-> exists l, e = InvalidLHS l c)
  /\ (forall c, cause e = Some (inl c) -> description e = lex_description c)
  /\ (forall c, cause e = Some (inr c) -> description e = cover_description c).
Proof.
  intros e. repeat split.
  - destruct e; try discriminate; match goal with
    | |- description (LexError ?x) <> _ => destruct x; discriminate
    | |- description (InvalidLHS _ ?x) <> _ => destruct x; discriminate end.
  - destruct e; cbn; congruence.
  - intros ->. reflexivity.
  - destruct e; cbn; try discriminate. intros H. injection H as ->. eauto.
  - intros [l ->]. reflexivity.
  - intros c. destruct e; cbn; congruence.
  - intros c. destruct e; cbn; congruence.
Qed.
Print Assumptions C80_display_and_cause.

Example C80_example : exists e f,
  script_of env_ascii (lit "x = @") = Err e /\ description e = lit "illegal character" /\ cause e = Some (inl (IllegalChar 64))
  /\ script_of env_ascii (lit "(x + y) = 1") = Err f /\ description f = lit "invalid assignment pattern".
Proof.
  eexists _, _. split; [vm_compute; reflexivity|]. split; [vm_compute; reflexivity|].
  split; [vm_compute; reflexivity|]. split; vm_compute; reflexivity.
Qed.

(** *** C81 *)

(** The displayed text of an error of the lexer says of which kind it is and what it is
    about: the illegal character, the invalid digit, the code unit or the reserved word.
    [dbg] is the quoted form of characters (std); it has to tell characters apart. *)
Theorem C81_messages_tell_errors : forall dbg e f, (forall a b, dbg a = dbg b -> a = b) ->
  lex_display dbg e = lex_display dbg f -> lex_same e f.
Proof. exact lex_display_same. Qed.
Print Assumptions C81_messages_tell_errors.

(** It begins with the description; a code unit is shown by at least four hexadecimal
    digits of its value. *)
Theorem C81_message_form : forall dbg e,
  (exists more, lex_display dbg e = lex_description e ++ more)
  /\ (forall u, e = IllegalUnicode u -> exists ds,
        lex_display dbg e = lex_description e ++ lit ": \u{" ++ ds ++ lit "}"
        /\ valued 16 ds u /\ (4 <= length ds)%nat /\ ((4 < length ds)%nat -> numeral 16 ds u)).
Proof.
  intros dbg e. split.
  - destruct e; cbn [lex_display]; try (exists []; now rewrite app_nil_r); eexists; reflexivity.
  - intros u ->. exists (pad4 (put_num 16 u)). destruct (put_num_numeral 16 u) as [V Z]; [lia|lia|].
    split; [reflexivity|]. split; [apply pad4_valued; [exact V|lia]|].
    unfold pad4. rewrite app_length, repeat_length. split; [lia|].
    intros H. replace (4 - length (put_num 16 u))%nat with 0%nat in * by lia. split; assumption.
Qed.
Print Assumptions C81_message_form.

Definition quoted (c : N) : str := [39; c; 39]%N.
Example C81_example : (forall a b, quoted a = quoted b -> a = b)
  /\ lex_display quoted (IllegalChar 64) = lit "illegal character: '@'"
  /\ lex_display quoted (IllegalUnicode 55296) = lit "illegal code unit: \u{d800}"
  /\ lex_display quoted (IllegalUnicode 10) = lit "illegal code unit: \u{000a}"
  /\ lex_display quoted (ReservedWordWithEscapes R_Instanceof) = lit "reserved word with escapes: Instanceof".
Proof. split; [intros a b H; now injection H|]. repeat split; vm_compute; reflexivity. Qed.

(** *** C82 *)

(** The messages of the conversion from ESTree tell its errors apart: if two documents
    are refused with the same message, the errors name the same field, the same wanted and
    found types, strings, lengths or node types.  [dbg] is the quoted form of strings (std);
    it has to tell strings apart. *)
Theorem C82_messages_tell_errors : forall dbg o p e f, (forall a b, dbg a = dbg b -> a = b) ->
  into_script o = Err e -> into_script p = Err f -> est_display dbg e = est_display dbg f -> est_same e f.
Proof. intros dbg o p e f D Eo Ep. eapply messages_apart; eauto using C76_errors_describe_faults. Qed.
Print Assumptions C82_messages_tell_errors.

(** What a message says, in this order: what is wanted, then what is found instead. *)
Theorem C82_messages_name_faults : forall dbg,
  (forall w v n e, mismatch w v e -> type_name v n ->
     in_order (est_display dbg (EE_Json e)) [lit "expected "; lit w; lit ", got "; lit n])
  /\ (forall k, in_order (est_display dbg (EE_Json (MissingField k))) [lit "missing"; lit "'"; k; lit "'"])
  /\ (forall w s, in_order (est_display dbg (EE_Json (IllegalString w s))) [lit "expected "; w; lit ", got "; dbg s])
  /\ (forall m n, exists a b, numeral 10 a (N.of_nat m) /\ numeral 10 b (N.of_nat n) /\
        in_order (est_display dbg (EE_Json (WrongArrayLength m n)))
          [lit "expected array of length "; a; lit ", got "; b])
  /\ (forall s, in_order (est_display dbg (EE_InvalidTypeTag s)) [lit "expected node type tag, got "; s])
  /\ (forall w t s, tag_text t = lit s ->
        in_order (est_display dbg (EE_NodeTypeMismatch w t)) [lit "expected "; w; lit " node, got "; lit s]).
Proof.
  intros dbg. split; [|split; [|split; [|split; [|split]]]].
  - intros w v n e (t & n' & -> & T & E) T'. assert (n' = n) by (destruct T; inversion T'; reflexivity). subst n'.
    cbn [est_display json_display]. rewrite E.
    do 3 (exists []; eexists; split; [reflexivity|]). exists [], []. split; [now rewrite app_nil_r|]. exact Logic.I.
  - intros k. cbn [est_display json_display].
    exists [], (lit " object field '" ++ k ++ lit "'"). split; [reflexivity|].
    exists (lit " object field "), (k ++ lit "'"). split; [reflexivity|].
    exists [], (lit "'"). split; [reflexivity|]. exists [], []. split; [reflexivity|]. exact Logic.I.
  - intros w s. cbn [est_display json_display].
    do 3 (exists []; eexists; split; [reflexivity|]). exists [], []. split; [now rewrite app_nil_r|]. exact Logic.I.
  - intros m n. exists (put_num 10 (N.of_nat m)), (put_num 10 (N.of_nat n)).
    split; [apply put_num_numeral; lia|]. split; [apply put_num_numeral; lia|].
    cbn [est_display json_display].
    do 2 (exists []; eexists; split; [reflexivity|]).
    exists [], (lit "array of length " ++ put_num 10 (N.of_nat n)). split; [reflexivity|].
    exists (lit "array of length "), []. split; [now rewrite app_nil_r|]. exact Logic.I.
  - intros s. cbn [est_display]. exists [], s. split; [reflexivity|].
    exists [], []. split; [now rewrite app_nil_r|]. exact Logic.I.
  - intros w t s E. cbn [est_display]. rewrite E.
    do 3 (exists []; eexists; split; [reflexivity|]). exists [], []. split; [now rewrite app_nil_r|]. exact Logic.I.
Qed.
Print Assumptions C82_messages_name_faults.

Definition quoted_str (s : str) : str := 34%N :: s ++ [34%N].
Example C82_example : (forall a b, quoted_str a = quoted_str b -> a = b)
  /\ (exists e, into_script [(lit "type", J_String (lit "Program"))] = Err e
        /\ est_display quoted_str e = lit "missing object field 'body'")
  /\ (exists e, into_script [(lit "type", J_String (lit "Program")); (lit "body", J_Bool true)] = Err e
        /\ est_display quoted_str e = lit "expected array, got boolean").
Proof.
  split; [|split].
  - intros a b H. injection H as H. now apply app_inv_tail in H.
  - eexists. split; vm_compute; reflexivity.
  - eexists. split; vm_compute; reflexivity.
Qed.
