(** A line terminator at the end of the text (C40). *)
From Coq Require Import String Ascii List NArith Arith Bool Lia.
From Verif Require Import Base Chars F64 Word Token Reader Lexer Punc Ast Track Cover Stack Node
  SpecReader SpecLexer SpecStack SpecTree SpecGrammar SpecParser GrammarProps CompTok.
Import ListNotations.
Local Open Scope nat_scope.

(** ** Derivations do not depend on what the end of input looks like *)

(** The same token, or both are the end of input. *)
Definition eqv (t t' : token) : Prop := t = t' \/ (tk_value t = TPunc T_EOF /\ tk_value t' = TPunc T_EOF).
(** The second may moreover be the one behind a line terminator, not the first. *)
Definition up (t t' : token) : Prop :=
  t = t' \/ (tk_value t = TPunc T_EOF /\ tk_value t' = TPunc T_EOF /\ (tk_newline t = true -> tk_newline t' = true)).
Definition raised : tokens -> tokens -> Prop := Forall2 up.
(** Statements that look at the line of the next token. *)
Definition halts (t : token) : Prop := In (tk_value t) [TReserved R_Break; TReserved R_Continue; TReserved R_Return].
(** The same tokens up to the ends of input, which only matter behind [halts]. *)
Inductive linked : tokens -> tokens -> Prop :=
| lk_nil : linked [] []
| lk_cons : forall t t' i i', eqv t t' -> linked i i' ->
    (halts t -> forall a r a' r', i = a :: r -> i' = a' :: r' -> up a a') -> linked (t :: i) (t' :: i').

Lemma up_eqv t t' : up t t' -> eqv t t'.
Proof. intros [->|(a & b & _)]; [left; reflexivity|right; tauto]. Qed.
Lemma raised_linked i i' : raised i i' -> linked i i'.
Proof.
  induction 1 as [|t t' i i' u r IH]; constructor; [exact (up_eqv _ _ u)|exact IH|].
  intros _ a x a' x' -> ->. inversion r; subst. assumption.
Qed.
Lemma up_value t t' : eqv t t' -> tk_value t' = tk_value t.
Proof. intros [->|(a & b)]; congruence. Qed.
Lemma up_same t t' : eqv t t' -> tk_value t <> TPunc T_EOF -> t' = t.
Proof. intros [->|(a & _)] h; congruence. Qed.
Lemma up_cons t o i' : linked (t :: o) i' -> exists t' o', i' = t' :: o' /\ eqv t t' /\ linked o o'.
Proof. intros h. inversion h; subst. eauto. Qed.
Lemma up_eat d i o i' : eat d i o -> linked i i' -> exists o', eat d i' o' /\ linked o o'.
Proof.
  intros (t & -> & h) r. apply up_cons in r as (t' & o' & -> & u & r). exists o'. split; [|exact r].
  exists t'. split; [reflexivity|]. rewrite (up_value _ _ u). exact h.
Qed.
Lemma up_eat_back d i i' o' : eat d i' o' -> linked i i' -> exists o, eat d i o /\ linked o o'.
Proof.
  intros (t' & -> & h) r. inversion r as [|t ? o ? u r' _]; subst. exists o. split; [|exact r'].
  exists t. split; [reflexivity|]. rewrite <- (up_value _ _ u). reflexivity.
Qed.
Lemma up_next (P Q : token -> Prop) i i' : next P i -> linked i i' -> (forall t t', eqv t t' -> P t -> Q t') -> next Q i'.
Proof.
  intros (t & o & -> & h) r H. apply up_cons in r as (t' & o' & -> & u & r). exists t', o'. split; [reflexivity|eauto].
Qed.
Lemma up_ends b i o s i' : ends b i o s -> linked i i' -> exists o', ends b i' o' s /\ linked o o'.
Proof.
  intros [t r h|t r h1 h2] R.
  - apply up_cons in R as (t' & o' & -> & u & R). rewrite (up_same _ _ u) by (rewrite h; discriminate).
    exists o'. split; [apply en_explicit, h|exact R].
  - pose proof R as R'. apply up_cons in R as (t' & o' & -> & u & R). exists (t' :: o'). split; [|exact R'].
    apply en_inserted; rewrite (up_value _ _ u); [exact h1|]. destruct u as [->|(a & b')]; [exact h2|]. tauto.
Qed.
Lemma up_spelled t t' w : eqv t t' -> spelled t' w -> t' = t.
Proof.
  intros u [(p & h & <- & k)|(r & h & _)]; apply (up_same _ _ u); rewrite <- (up_value _ _ u), h; [|discriminate].
  intros E. injection E as ->. apply k. reflexivity.
Qed.
Lemma up_spelt t t' w : eqv t t' -> spelled t w -> t' = t.
Proof.
  intros u [(p & h & <- & k)|(r & h & _)]; apply (up_same _ _ u); rewrite h; [|discriminate].
  intros E. injection E as ->. apply k. reflexivity.
Qed.
Lemma up_continues t t' : eqv t t' -> (continues t' <-> continues t).
Proof.
  intros [->|(a & b)]; [reflexivity|]. unfold continues. rewrite a, b. cbn. split.
  - intros [[h|[h|[]]]|[[_ [h|[h|[]]]]|(p & h & k)]]; try discriminate. injection h as <-. exfalso. tauto.
  - intros [[h|[h|[]]]|[[_ [h|[h|[]]]]|(p & h & k)]]; try discriminate. injection h as <-. exfalso. tauto.
Qed.
Lemma up_postfix t t' : eqv t t' -> postfix_op t' -> postfix_op t.
Proof. intros [->|(a & b)]; [trivial|]. intros [_ h]. rewrite b in h. cbn in h. destruct h as [h|[h|[]]]; discriminate. Qed.
Lemma up_assign t t' : eqv t t' -> assign_op t' -> assign_op t.
Proof.
  intros u [h|(a & h)].
  - left. rewrite <- (up_value _ _ u). exact h.
  - right. exists a. rewrite <- (up_spelled _ _ _ u h). exact h.
Qed.
Lemma up_infix b t t' o : eqv t t' -> infix_tok b t' o -> infix_tok b t o.
Proof. intros u h. rewrite <- (up_spelled _ _ _ u (proj1 h)). exact h. Qed.
Lemma up_no_arg t t' : up t t' -> no_arg t -> no_arg t'.
Proof.
  intros u. pose proof (up_value _ _ (up_eqv _ _ u)) as v. unfold no_arg. rewrite v. destruct u as [->|(_ & _ & c)]; tauto.
Qed.
Lemma up_arg t t' : eqv t t' -> tk_value t <> TPunc T_EOF -> ~ no_arg t -> ~ no_arg t'.
Proof. intros u h. rewrite (up_same _ _ u h). trivial. Qed.

Lemma eat_halt d i o i' o' : eat d i o -> In d [TReserved R_Break; TReserved R_Continue; TReserved R_Return] ->
  linked i i' -> eat d i' o' -> next no_arg o -> linked o o' -> next no_arg o'.
Proof.
  intros (t & -> & h) hd R (t' & -> & h') (a & r & -> & ha) R'. inversion R as [|? ? ? ? u _ H]; subst.
  apply up_cons in R' as (a' & r' & -> & _ & _). exists a', r'. split; [reflexivity|].
  eapply up_no_arg; [|exact ha]. eapply H; [|reflexivity|reflexivity]. unfold halts. exact hd.
Qed.

(** The first token of a name or an expression is not the end of input. *)
Lemma first_value (f : token_data -> bool) i (P : token -> Prop) : begins (Some f) i -> f (TPunc T_EOF) = false -> next P i ->
  next (fun t => P t /\ tk_value t <> TPunc T_EOF) i.
Proof.
  intros (t & o & -> & h) hf (t' & o' & E & hP). injection E as <- <-. exists t, o. split; [reflexivity|]. split; [exact hP|].
  intros E. rewrite E in h. congruence.
Qed.

Ltac chain1 :=
  match goal with
  | R : linked (?t :: ?o) _ |- _ => apply up_cons in R; destruct R as (? & ? & -> & ? & ?)
  | X : eat ?d ?i ?o, R : linked ?i ?i' |- _ =>
      lazymatch goal with K : eat d i' _ |- _ => fail | _ => destruct (up_eat d i o i' X R) as (? & ? & ?) end
  | X : ends ?b ?i ?o ?s, R : linked ?i ?i' |- _ =>
      lazymatch goal with K : ends b i' _ s |- _ => fail | _ => destruct (up_ends b i o s i' X R) as (? & ? & ?) end
  | IH : forall i', linked ?i i' -> exists o', _ , R : linked ?i ?j |- _ =>
      let K := fresh in pose proof (IH j R) as K; clear IH; destruct K as (? & ? & ?)
  end.
Ltac val := match goal with
  | u : eqv ?t ?t', h : tk_value ?t = _ |- _ =>
      assert (t' = t) by (apply (up_same _ _ u); rewrite h; discriminate); subst t'; clear u
  | u : eqv ?t ?t', h : spelled ?t _ |- _ =>
      assert (t' = t) by exact (up_spelt _ _ _ u h); subst t'; clear u
  | u : eqv ?t ?t', h : infix_tok _ ?t _ |- _ =>
      assert (t' = t) by exact (up_spelt _ _ _ u (proj1 h)); subst t'; clear u
  end.
Ltac keep :=
  let t := fresh "t" in let t' := fresh "t'" in let u := fresh "u" in let h := fresh "h" in let v := fresh "v" in
  intros t t' u h; cbv beta in *; pose proof (up_value _ _ u) as v;
  first [ rewrite (up_continues _ _ u); exact h
        | unfold ends_list, begins_binding, slash, regexp in *; rewrite v; exact h
        | intros ?; exact (h (up_assign _ _ u ltac:(assumption)))
        | destruct h as [h1 h2]; rewrite v; split; [|exact h2];
          first [intros K; exact (h1 (up_postfix _ _ u K)) | intros op K; exact (h1 op (up_infix _ _ _ _ u K))]
        | destruct h as [h1 h2]; exact (up_arg _ _ u h2 h1) ].
Ltac nexts1 := match goal with |- next ?Q ?i' => match goal with R : linked ?i i' |- _ =>
  first [ apply (up_next Q Q i i'); [solve [eauto]|exact R|keep]
        | eapply (up_next _ Q i i'); [eapply first_value; [eapply G_first; eassumption|reflexivity|solve [eauto]]|exact R|keep] ] end end.
Ltac nexts :=
  unfold not_next in *;
  first [ eassumption | nexts1 | intros ?; nexts1
        | let i := fresh in let X := fresh in intros i X; eapply up_eat_back in X; [|eassumption];
          destruct X as (? & ? & ?); nexts1
        | let i := fresh in intros i; nexts1 ].

Lemma G_linked x A g (n : nt A) i o a : GX x g n i o a -> forall i', linked i i' -> exists o', GX x g n i' o' a /\ linked o o'.
Proof.
  induction 1; intros i' R; unfold op_, kw in *; repeat chain1; repeat val.
  all: try solve [eexists; split; [econstructor; eassumption|assumption]].
  all: try solve [match goal with X : eat ?d ?i ?o, R : linked ?i ?i', Y : eat ?d ?i' ?o', N : next no_arg ?o, S : linked ?o ?o' |- _ =>
    assert (next no_arg o') by (eapply eat_halt; [exact X|cbn; tauto|exact R|exact Y|exact N|exact S]) end;
    eexists; split; [econstructor; eassumption|assumption]].
  all: try solve [eexists; split; [econstructor; nexts|assumption]].
  1: { eexists. split; [|eassumption]. econstructor; [eassumption| | |eassumption].
    + intros t t' r s -> h. inversion H4 as [|t0 ? ? ? u r1 _]; subst. inversion r1 as [|t1 ? ? ? u1 r2 _]; subst.
      rewrite (up_continues _ _ u1). eapply H0; [reflexivity|]. rewrite <- (up_value _ _ u). exact h.
    + intros hx t t' r s -> h. inversion H4 as [|t0 ? ? ? u r1 _]; subst. inversion r1 as [|t1 ? ? ? u1 r2 _]; subst.
      unfold slash. rewrite (up_value _ _ u1). eapply H1; [reflexivity|reflexivity|]. rewrite <- (up_value _ _ u). exact h. }
  all: eexists; (split; [|eassumption]).
  all: match goal with D : GX _ _ _ ?a _ _, N : next (fun t => ~ no_arg t) ?a, R : linked ?a ?b |- _ =>
    assert (next (fun t => ~ no_arg t) b)
      by (eapply up_next; [eapply first_value; [exact (G_first _ _ _ _ _ _ _ D)|reflexivity|exact N]|exact R|
          intros t t' u [k1 k2]; exact (up_arg t t' u k2 k1)]) end.
  all: econstructor; eassumption.
Qed.

Lemma G_raise x A g (n : nt A) i o a i' : GX x g n i o a -> raised i i' -> exists o', GX x g n i' o' a /\ linked o o'.
Proof. intros D R. exact (G_linked _ _ _ _ _ _ _ D _ (raised_linked _ _ R)). Qed.

(** No end of input directly behind one of the keywords. *)
Definition quiet (i : tokens) : Prop := forall before t e after, i = before ++ t :: e :: after -> tk_value e = TPunc T_EOF -> ~ halts t.
Lemma quiet_tail t i : quiet (t :: i) -> quiet i.
Proof. intros h before x e after -> he. exact (h (t :: before) x e after eq_refl he). Qed.
Lemma lowered_linked i i' : raised i i' -> quiet i -> linked i' i.
Proof.
  induction 1 as [|t t' i i' u r IH]; intros q; constructor.
  - destruct u as [->|(a & b & _)]; [left; reflexivity|right; tauto].
  - exact (IH (quiet_tail _ _ q)).
  - intros h a x a' x' -> ->. inversion r as [|? ? ? ? u' r']; subst. destruct u' as [->|(b & b' & c)]; [left; reflexivity|].
    exfalso. apply (q [] t a' x' eq_refl b). unfold halts in *. rewrite <- (up_value _ _ (up_eqv _ _ u)). exact h.
Qed.
Lemma G_lower x A g (n : nt A) i o a i' : GX x g n i' o a -> raised i i' -> quiet i -> exists o', GX x g n i o' a /\ linked o o'.
Proof. intros D R q. exact (G_linked _ _ _ _ _ _ _ D _ (lowered_linked _ _ R q)). Qed.
