(** Tokens and the operators they spell. *)
From Coq Require Import String Ascii List NArith Arith Bool Lia.
From Verif Require Import Base Word Token Punc Ast Track Stack PState Parser SpecLexer SpecStack SpecGrammar.
Import ListNotations.
Local Open Scope nat_scope.

Lemma td_binop_some v b o : td_binop v b = Some o ->
  ((exists p, v = TPunc p /\ punc_text p = binop_tag_text o) \/ exists r, v = TReserved r /\ reserved_name r = binop_tag_text o)
  /\ (binop_tag_text o = lit "in" -> b = true).
Proof.
  destruct v as [r|p|n|s|r|n]; try discriminate; cbn [td_binop].
  - destruct r; try discriminate.
    + destruct b; [|discriminate]. intros H. injection H as <-. split; [|reflexivity]. right. eexists. split; reflexivity.
    + intros H. injection H as <-. split; [|discriminate]. right. eexists. split; reflexivity.
  - destruct p; try discriminate; intros H; injection H as <-; (split; [|discriminate]); left; eexists; split; reflexivity.
Qed.
Lemma td_logop_some v o : td_logop v = Some o -> exists p, v = TPunc p /\ punc_text p = logop_tag_text o.
Proof.
  destruct v as [r|p|n|s|r|n]; try discriminate.
  destruct p; try discriminate; intros H; injection H as <-; eexists; split; reflexivity.
Qed.
Lemma td_assop_some v o : td_assop v = Some o -> exists p, v = TPunc p /\ punc_text p = assop_tag_text o.
Proof.
  destruct v as [r|p|n|s|r|n]; try discriminate.
  destruct p; try discriminate; intros H; injection H as <-; eexists; split; reflexivity.
Qed.

Lemma binop_text_ne o : binop_tag_text o <> [].
Proof. destruct o; discriminate. Qed.
Lemma logop_text_ne o : logop_tag_text o <> [].
Proof. destruct o; discriminate. Qed.
Lemma assop_text_ne o : assop_tag_text o <> [].
Proof. destruct o; discriminate. Qed.

Lemma token_infix_some t b o : token_infix t b = Some o -> infix_tok b t o.
Proof.
  unfold token_infix, to_binop, to_logop, mk_op, infix_tok.
  destruct (td_binop (tk_value t) b) as [tag|] eqn:E.
  - intros H. injection H as <-. apply td_binop_some in E as [[(p & Hv & Hp)|(r & Hv & Hr)] Hin]; cbn.
    + split; [left; exists p; split; [exact Hv|split; [exact Hp|apply binop_text_ne]]|]. auto.
    + split; [right; exists r; split; assumption|]. auto.
  - destruct (td_logop (tk_value t)) as [tag|] eqn:E2; cbn; [|discriminate].
    intros H. injection H as <-. apply td_logop_some in E2 as (p & Hv & Hp). cbn.
    split; [left; exists p; split; [exact Hv|split; [exact Hp|apply logop_text_ne]]|].
    split; [|reflexivity]. destruct tag; discriminate.
Qed.

(** The text of an operator determines it. *)
Lemma infix_punc p o : punc_text p = infix_text o ->
  td_binop (TPunc p) false <> None \/ td_logop (TPunc p) <> None.
Proof.
  destruct p; try (left; discriminate); try (right; discriminate);
    destruct o as [[l []]|[l []]]; intros H; exfalso; vm_compute in H; discriminate H.
Qed.
Lemma infix_reserved r o b : reserved_name r = infix_text o -> (infix_text o = lit "in" -> b = true) ->
  td_binop (TReserved r) b <> None.
Proof.
  intros H Hb. destruct r; try discriminate;
    try (rewrite <- H in Hb; rewrite (Hb eq_refl); discriminate);
    destruct o as [[l []]|[l []]]; exfalso; vm_compute in H; discriminate H.
Qed.
Lemma token_infix_none t b : token_infix t b = None -> forall o, ~ infix_tok b t o.
Proof.
  unfold token_infix, to_binop, to_logop, mk_op. intros H o ([(p & Hv & Hp & _)|(r & Hv & Hr)] & Hin & _).
  - rewrite Hv in H. assert (Hb : td_binop (TPunc p) b = td_binop (TPunc p) false) by reflexivity.
    destruct (infix_punc p o Hp) as [Hx|Hx].
    + rewrite Hb in H. destruct (td_binop (TPunc p) false); [discriminate|congruence].
    + destruct (td_binop (TPunc p) b); [discriminate|]. destruct (td_logop (TPunc p)); [discriminate|congruence].
  - rewrite Hv in H. pose proof (infix_reserved r o b Hr Hin) as Hx.
    destruct (td_binop (TReserved r) b); [discriminate|congruence].
Qed.

Lemma to_assop_some t o : to_assop t = Some o ->
  spelled t (assop_tag_text (op_tag o)) /\ op_loc o = Some (tk_loc t).
Proof.
  unfold to_assop, mk_op. destruct (td_assop (tk_value t)) as [tag|] eqn:E; [|discriminate].
  intros H. injection H as <-. apply td_assop_some in E as (p & Hv & Hp). split; [|reflexivity].
  left. exists p. split; [exact Hv|split; [exact Hp|apply assop_text_ne]].
Qed.
Lemma assop_punc p o : punc_text p = assop_tag_text o -> td_assop (TPunc p) <> None.
Proof. destruct p; try discriminate; destruct o; intros H; exfalso; vm_compute in H; discriminate H. Qed.
Lemma assop_reserved r o : reserved_name r <> assop_tag_text o.
Proof. destruct r; destruct o; discriminate. Qed.
Lemma to_assop_none t : to_assop t = None -> tk_value t <> TPunc T_Assign -> ~ assign_op t.
Proof.
  unfold to_assop, mk_op. intros H Ha [E|(o & [(p & Hv & Hp & _)|(r & Hv & Hr)])]; [contradiction| |].
  - rewrite Hv in H. pose proof (assop_punc p o Hp). destruct (td_assop (TPunc p)); [discriminate|congruence].
  - exact (assop_reserved r o Hr).
Qed.

Lemma token_unop_some t u : token_unop t = Some u -> spelled t (unop_text u).
Proof.
  unfold token_unop. destruct (tk_value t) as [r|p|n|s|r|n] eqn:E; try discriminate.
  - destruct r; try discriminate; intros H; injection H as <-; right; eexists; (split; [exact E|reflexivity]).
  - destruct p; try discriminate; intros H; injection H as <-; left; eexists; (split; [exact E|split; [reflexivity|discriminate]]).
Qed.
