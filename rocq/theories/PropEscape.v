(** What is true of C54, C55 and C58 for every token.  The vocabulary is that of
    [SpecLexer]. *)
From Coq Require Import String Ascii List NArith Arith Bool Lia.
From Verif Require Import Base Chars F64 Word Token Reader Lexer LexClient SpecReader SpecLexer LexTheorems PropLexer.
Import ListNotations.
Local Open Scope nat_scope.

(** ** C54 *)

(** [denotes V q b cs l]: the codes, one per character or escape, that the text [b]
    between quotes [q] stands for in ECMAScript; line continuations stand for nothing.
    Codes of escapes are any numbers. *)
Inductive denotes (V : env) (q : N) : str -> list N -> str -> Prop :=
| dn_nil : forall l, denotes V q [] [] l
| dn_char : forall c b v l, c <> q -> c <> chr "\" -> ~ line_terminator c ->
    denotes V q b v l -> denotes V q (c :: b) (c :: v) l
| dn_single : forall c b v l,
    ~ oct_digit c -> c <> chr "x" -> c <> chr "u" -> ~ line_terminator c ->
    denotes V q b v l -> denotes V q (lit "\" ++ c :: b) (single_escape c :: v) l
| dn_octal : forall ds b v l, octal_escape ds (b ++ l) ->
    denotes V q b v l -> denotes V q (lit "\" ++ ds ++ b) (digits_value 8 ds :: v) l
| dn_hex : forall x y b v l, hex_digit x -> hex_digit y ->
    denotes V q b v l -> denotes V q (lit "\x" ++ x :: y :: b) (digits_value 16 [x; y] :: v) l
| dn_unicode : forall e n b v l, unicode_escape V e n ->
    denotes V q b v l -> denotes V q (lit "\u" ++ e ++ b) (n :: v) l
| dn_continuation : forall nl b v l, continuation nl (b ++ l) ->
    denotes V q b v l -> denotes V q (lit "\" ++ nl ++ b) v l.

Lemma cooks_denotes V q b v l : cooks V q b v l ->
  exists cs, denotes V q b cs l /\ Forall2 (fun n c => c = n \/ (~ scalar n /\ c = chr "?")) cs v.
Proof.
  induction 1 as [l|c b v l H1 H2 H3 H IH|c b v l H1 H2 H3 H4 H IH|ds c b v l H1 H2 H IH
                 |x y c b v l H1 H2 H3 H IH|e n c b v l H1 H2 H IH|nl b v l H1 H IH].
  1:{ exists []. split; constructor. }
  all: destruct IH as (cs & D & F).
  - exists (c :: cs). split; [constructor; assumption|]. constructor; [left; reflexivity|exact F].
  - exists (single_escape c :: cs). split; [apply dn_single; assumption|]. constructor; [left; reflexivity|exact F].
  - eexists. split; [apply dn_octal; eassumption|]. constructor; [|exact F]. destruct H2 as [[_ ->]|H2]; tauto.
  - eexists. split; [apply dn_hex; eassumption|]. constructor; [|exact F]. destruct H3 as [[_ ->]|H3]; tauto.
  - eexists. split; [eapply dn_unicode; eassumption|]. constructor; [|exact F]. destruct H2 as [[_ ->]|H2]; tauto.
  - exists cs. split; [apply dn_continuation; assumption|exact F].
Qed.

(** C54: the value of a string token differs from what its text denotes exactly by [?] in
    place of codes that are not Unicode scalar values; there is no other difference. *)
Theorem C54_altered_only_there : forall V src t s, ucd_ok V -> delivers V src t -> tk_value t = TString s ->
  exists q b l cs, (q = 34%N \/ q = 39%N) /\ covered src (tk_loc t) = q :: b ++ [q] /\ denotes V q b cs (q :: l)
    /\ Forall2 (fun n c => c = n \/ (~ scalar n /\ c = chr "?")) cs (str_value s).
Proof.
  intros V src t s HV D E. destruct (C09_string_value_cooked V src t s HV D E) as (q & b & l & hq & hc & K).
  destruct (cooks_denotes _ _ _ _ _ K) as (cs & Dn & F). exists q, b, l, cs. auto.
Qed.
Print Assumptions C54_altered_only_there.

(** C54: a string token without [?] in its value, or all of whose codes are scalar
    values, has exactly the value its text denotes. *)
Theorem C54_unaltered_partial : forall V src t s, ucd_ok V -> delivers V src t -> tk_value t = TString s ->
  exists q b l cs, (q = 34%N \/ q = 39%N) /\ covered src (tk_loc t) = q :: b ++ [q] /\ denotes V q b cs (q :: l)
    /\ (Forall scalar cs \/ ~ In (chr "?") (str_value s) -> str_value s = cs).
Proof.
  intros V src t s HV D E. destruct (C54_altered_only_there V src t s HV D E) as (q & b & l & cs & hq & hc & Dn & F).
  exists q, b, l, cs. split; [exact hq|]. split; [exact hc|]. split; [exact Dn|]. intros H.
  clear -F H. induction F as [|n c cs v h F IH]; [reflexivity|]. f_equal.
  - destruct h as [h|[h ->]]; [exact h|]. exfalso. destruct H as [H|H]; [inversion H; contradiction|]. apply H. left. reflexivity.
  - apply IH. destruct H as [H|H]; [left; inversion H; assumption|right]. intros K. apply H. right. exact K.
Qed.
Print Assumptions C54_unaltered_partial.
Example C54_example : exists t s, delivers env_ascii (lit "'a\x41\
\u{1F600}\0'") t /\ tk_value t = TString s /\ ~ In (chr "?") (str_value s) /\ length (str_value s) = 4.
Proof.
  eexists _, _. split; [delivered (@nil bool) false|]. split; [reflexivity|]. split; [|reflexivity].
  cbn. intuition discriminate.
Qed.

(** ** C55 *)

(** [e] is the text of an escape in [w] that denotes [c]. *)
Definition escaped_in (V : env) (w : str) (c : N) : Prop :=
  exists u e v, w = u ++ lit "\u" ++ e ++ v /\ unicode_escape V e c /\ scalar c.
Lemma escaped_more V a w c : escaped_in V w c -> escaped_in V (a ++ w) c.
Proof. intros (u & e & v & -> & h). exists (a ++ u), e, v. split; [rewrite <- app_assoc; reflexivity|exact h]. Qed.
Lemma word_chars V w v esc : word_text V w v esc -> Forall (fun c => id_part V c \/ escaped_in V w c) v.
Proof.
  induction 1 as [|c w v esc h W IH|e n w v esc h s W IH]; constructor.
  - left. exact h.
  - eapply Forall_impl; [|exact IH]. intros c0 [K|K]; [left; exact K|right]. apply (escaped_more V [c]), K.
  - right. exists [], e, w. auto.
  - eapply Forall_impl; [|exact IH]. intros c0 [K|K]; [left; exact K|right].
    rewrite app_assoc. apply escaped_more, K.
Qed.
Lemma word_plain V w v esc : word_text V w v esc -> ~ In (chr "\") w -> v = w.
Proof.
  induction 1 as [|c w v esc h W IH|e n w v esc h s W IH]; intros K; [reflexivity| |].
  - f_equal. apply IH. intros X. apply K. right. exact X.
  - exfalso. apply K. left. reflexivity.
Qed.

(** C55: every character of an identifier's text may occur in an identifier or is what an
    escape in its spelling denotes, and so may the first one begin an identifier; only
    escapes can break the syntax.  An identifier spelled without escapes is an
    IdentifierName, verbatim. *)
Theorem C55_only_escapes_partial : forall V src t n, ucd_ok V -> delivers V src t -> tk_value t = TIdent n ->
  Forall (fun c => id_part V c \/ escaped_in V (covered src (tk_loc t)) c) (name_string n)
  /\ (exists c r, name_string n = c :: r /\ (id_start V c \/ escaped_in V (covered src (tk_loc t)) c))
  /\ (~ In (chr "\") (covered src (tk_loc t)) ->
      name_string n = covered src (tk_loc t) /\ starts_with (id_start V) (name_string n) /\ Forall (id_part V) (name_string n)).
Proof.
  intros V src t n HV D E. destruct (delivered_lexeme V src t HV D) as (op & l & L & _).
  remember (covered src (tk_loc t)) as w eqn:Hw. clear Hw. rewrite E in L.
  inversion L as [| | |n' w' v esc l' S W _ _ N| | |]; subst.
  assert (Hn : name_string n = v) by (destruct n; cbn in *; tauto). rewrite Hn.
  assert (P : ~ In (chr "\") w -> v = w /\ starts_with (id_start V) v /\ Forall (id_part V) v).
  { intros K. pose proof (word_plain _ _ _ _ W K) as ->. split; [reflexivity|]. split.
    - destruct S as [S|[r ->]]; [exact S|]. exfalso. apply K. left. reflexivity.
    - pose proof (word_chars _ _ _ _ W) as F. eapply Forall_impl; [|exact F]. intros c [C|(u & e & r & -> & _)]; [exact C|].
      exfalso. apply K. apply in_or_app. right. left. reflexivity. }
  split; [exact (word_chars _ _ _ _ W)|]. split; [|exact P].
  inversion W as [|c w1 v1 esc1 h W1|e c w1 v1 esc1 h s W1]; subst.
  - exfalso. destruct S as [S|[r S]]; [exact S|discriminate].
  - exists c, v1. split; [reflexivity|left]. destruct S as [S|[r S]]; [exact S|].
    injection S as -> _. exfalso. unfold id_part in h. rewrite (ucd_cont_ascii V HV) in h by reflexivity.
    vm_compute in h. intuition discriminate.
  - exists c, v1. split; [reflexivity|right]. exists [], e, w1. auto.
Qed.
Print Assumptions C55_only_escapes_partial.
Example C55_example : exists t n t' n', delivers env_ascii (lit "a\u{62}c") t /\ tk_value t = TIdent n /\ name_string n = lit "abc"
  /\ delivers env_ascii (lit "$x_1") t' /\ tk_value t' = TIdent n' /\ ~ In (chr "\") (covered (lit "$x_1") (tk_loc t')).
Proof.
  eexists _, _, _, _. split; [delivered (@nil bool) false|]. split; [reflexivity|]. split; [reflexivity|].
  split; [delivered (@nil bool) false|]. split; [reflexivity|]. vm_compute. intuition discriminate.
Qed.

(** ** C58 *)

Lemma body_pieces b : re_body b -> exists ps, b = concat ps
  /\ Forall (fun p => ~ has_newline p \/ exists k, p = lit "[" ++ k ++ lit "]" /\ re_class k) ps.
Proof.
  induction 1 as [|c w h1 h2 h3 h4 H IH|c w h1 H IH|k w h1 H IH]; [exists []; split; constructor| | |]; destruct IH as (ps & -> & F).
  - exists ([c] :: ps). split; [reflexivity|]. constructor; [left|exact F]. intros K. inversion K as [? ? X|? ? X]; subst; [exact (h4 X)|inversion X].
  - exists ((lit "\" ++ [c]) :: ps). split; [reflexivity|]. constructor; [left|exact F].
    intros K. inversion K as [? ? X|? ? X]; subst; [cbn in X; intuition discriminate|].
    inversion X as [? ? Y|? ? Y]; subst; [exact (h1 Y)|inversion Y].
  - exists ((lit "[" ++ k ++ lit "]") :: ps). split; [cbn [concat]; rewrite <- !app_assoc; reflexivity|].
    constructor; [right; eauto|exact F].
Qed.

(** C58: a line terminator in a regular expression stands inside a class; in particular a
    pattern without an opening bracket is on one line. *)
Theorem C58_only_in_classes_partial : forall V src t r, ucd_ok V -> delivers V src t -> tk_value t = TRegExp r ->
  (exists ps, re_pattern r = concat ps
     /\ Forall (fun p => ~ has_newline p \/ exists k, p = lit "[" ++ k ++ lit "]" /\ re_class k) ps)
  /\ (~ In (chr "[") (re_pattern r) -> ~ has_newline (re_pattern r)).
Proof.
  intros V src t r HV D E. destruct (C17_regexp_verbatim V src t r HV D E) as (fw & esc & l & _ & B & _).
  destruct (body_pieces _ B) as (ps & Eb & F). split; [exists ps; auto|]. intros K X. rewrite Eb in *.
  clear -F K X. induction F as [|p ps h F IH]; [inversion X|]. cbn in X, K. apply Exists_app in X as [X|X].
  - destruct h as [h|(k & -> & _)]; [exact (h X)|]. apply K. left. reflexivity.
  - apply IH; [|exact X]. intros Y. apply K. apply in_or_app. right. exact Y.
Qed.
Print Assumptions C58_only_in_classes_partial.
Example C58_example : exists t r, delivers env_ascii (lit "/a\/b(c|d)*/g") t /\ tk_value t = TRegExp r
  /\ ~ In (chr "[") (re_pattern r) /\ length (re_pattern r) = 10.
Proof.
  eexists _, _. split; [delivered (@nil bool) false|]. split; [reflexivity|]. split; [|reflexivity]. cbn. intuition discriminate.
Qed.
