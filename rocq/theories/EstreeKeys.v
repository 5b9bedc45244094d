(** Whether the key of a property is computed does not matter to the conversion (C64).
    The development is that of [EstreeExtra], for a coarser relation on documents. *)
From Coq Require Import String Ascii List NArith ZArith Bool Lia.
From Verif Require Import Base F64 Word Token Punc Ast Track Node SpecTree Cover CoverProofs NodeProofs
  LexTheorems PropTree Unjson Estree SpecEstree SpecKeys EstreeProofs EstreeConv EstreeComp EstreeExtra.
Import ListNotations.
Local Open Scope nat_scope.
Local Arguments lit _ : simpl never.

Definition so (o p : object) : Prop := same_plain (J_Object o) (J_Object p).
Lemma so_field o p k v : so o p -> fld o k -> has o k v -> exists w, has p k w /\ same_plain v w.
Proof. intros S Hk Hv. inversion S; subst; [exists v; split; [exact Hv|constructor]|eauto]. Qed.
Lemma so_back o p k w : so o p -> fld p k -> has p k w -> exists v, has o k v.
Proof. intros S Hk Hv. inversion S; subst; eauto. Qed.

Lemma has_scalar o p k v : so o p -> fld o k -> scalar v -> has o k v -> has p k v.
Proof. intros S Hk Hs Hv. destruct (so_field _ _ _ _ S Hk Hv) as (w & Hw & X). inversion X; subst; auto; destruct Hs. Qed.
Lemma has_object o p k x : so o p -> fld o k -> has o k (J_Object x) -> exists y, has p k (J_Object y) /\ so x y.
Proof. intros S Hk Hv. destruct (so_field _ _ _ _ S Hk Hv) as (w & Hw & X). 
  assert (exists y, w = J_Object y) as (y & ->) by (inversion X; subst; eauto). exists y. split; assumption. Qed.
Lemma same_arr a b : same_plain (J_Array a) (J_Array b) -> Forall2 same_plain a b.
Proof. inversion 1; subst; auto. clear H. induction b; constructor; auto. constructor. Qed.
Lemma has_array o p k x : so o p -> fld o k -> has o k (J_Array x) ->
  exists y, has p k (J_Array y) /\ Forall2 same_plain x y.
Proof.
  intros S Hk Hv. destruct (so_field _ _ _ _ S Hk Hv) as (w & Hw & X).
  assert (exists y, w = J_Array y) as (y & ->) by (inversion X; subst; eauto). exists y. split; [exact Hw|now apply same_arr].
Qed.
Lemma lacks_same o p k : so o p -> fld p k -> lacks o k -> lacks p k.
Proof. intros S Hk L v Hv. destruct (so_back _ _ _ _ S Hk Hv) as (w & Hw). exact (L _ Hw). Qed.

Ltac kin := first [assumption|split; [cbn; tauto|let X := fresh in intros X; first [discriminate X|assumption]]].
Ltac sc := eapply has_scalar; [eassumption|kin|exact Logic.I|eassumption].

Lemma id_same o p i : so o p -> est_id o i -> est_id p i.
Proof. intros S H. inversion H; subst. constructor; sc. Qed.
Lemma id_at_same o p k i : so o p -> fld o k -> est_id_at o k i -> est_id_at p k i.
Proof.
  intros S Hk H. inversion H as [o' i' Ho Hi]; subst. destruct (has_object _ _ _ _ S Hk Ho) as (y & Hy & Sy).
  econstructor; eauto using id_same.
Qed.
Lemma id_opt_same o p k i : so o p -> fld o k -> est_id_opt o k i -> est_id_opt p k i.
Proof.
  intros S Hk H. inversion H; subst.
  - constructor. eapply has_scalar; eauto. exact Logic.I.
  - constructor. eauto using id_at_same.
Qed.
Lemma value_same o p e : so o p -> est_value o e -> est_value p e.
Proof.
  intros S H. inversion H; subst; try solve [constructor; sc].
  - constructor; [sc|]. eapply lacks_same; [exact S|kin|assumption].
  - match goal with X : has o "regex" _ |- _ => apply (has_object _ _ "regex" _ S ltac:(kin)) in X as (y & Hy & Sy) end.
    eapply EV_regexp; [|exact Hy|sc|sc].
    match goal with X : _ \/ _ |- _ => destruct X as [X0|(v & X0)] end.
    + left. sc.
    + right. apply (has_object _ _ "value" _ S ltac:(kin)) in X0 as (z & Hz & _). eauto.
Qed.
Section Std.
Let std := false.
Lemma key_same o p k : so o p -> est_key std o k -> est_key std p k.
Proof.
  intros S H. inversion H; subst.
  - constructor; sc.
  - eapply EK_number; eauto using value_same. sc.
  - eapply EK_string; eauto using value_same. sc.
Qed.
Lemma key_at_same o p k : so o p -> est_key_at std o k -> est_key_at std p k.
Proof.
  intros S H. inversion H as [o' i' Ho Hi]; subst. apply (has_object _ _ "key" _ S ltac:(kin)) in Ho as (y & Hy & Sy).
  econstructor; eauto using key_same.
Qed.
Lemma params_list_same a b ps : Forall2 same_plain a b -> Forall2 est_param a ps -> Forall2 est_param b ps.
Proof.
  intros H. revert ps. induction H as [|x y a b Hx H IH]; intros ps F; inversion F as [|? q ? qs Hp Hr]; subst; constructor; auto.
  inversion Hp; subst. assert (exists z, y = J_Object z /\ so o z) as (z & -> & Sz).
  { inversion Hx; subst; eauto. }
  constructor. eauto using id_same.
Qed.
Lemma params_same a b ps : Forall2 same_plain a b -> est_params a ps -> est_params b ps.
Proof.
  intros S H. inversion H as [js ps' F|js ps' o i F T Ha]; subst.
  - constructor. eauto using params_list_same.
  - apply Forall2_app_inv_l in S as (b1 & b2 & S1 & S2 & ->). inversion S2 as [|? y ? ? Hy Hn]; subst. inversion Hn; subst.
    assert (exists z, y = J_Object z /\ so o z) as (z & -> & Sz).
    { inversion Hy; subst; eauto. }
    eapply EPs_rest; eauto using params_list_same.
    + sc.
    + eapply id_at_same; [exact Sz|kin|assumption].
Qed.

Definition Xn (o : object) (n : node) : Prop := forall p, so o p -> est false p n.
Definition Xat (o : object) (k : string) (n : node) : Prop := forall p, so o p -> fld o k -> est_at std p k n.
Definition Xopt (o : object) (k : string) (n : option node) : Prop :=
  forall p, so o p -> fld o k -> est_opt std p k n.
Definition Xlist (o : object) (k : string) (n : list node) : Prop :=
  forall p, so o p -> fld o k -> est_list std p k n.
Definition Xholes (o : object) (k : string) (n : list (option node)) : Prop :=
  forall p, so o p -> fld o k -> est_holes std p k n.
Definition Xelems (a : list json) (n : list (option node)) : Prop :=
  forall b, Forall2 same_plain a b -> est_elems std b n.

Ltac objs := repeat match goal with
  | S : so ?o ?p, H : has ?o ?k (J_Object _) |- _ =>
      let y := fresh "y" in let Sy := fresh "Sy" in
      apply (has_object _ _ k _ S ltac:(kin)) in H as (y & H & Sy)
  | S : so ?o ?p, H : has ?o ?k (J_Array _) |- _ =>
      let y := fresh "y" in let Sy := fresh "Sy" in
      apply (has_array _ _ k _ S ltac:(kin)) in H as (y & H & Sy)
  end.
Ltac tac := first [ eassumption | reflexivity | sc
  | (eapply id_same; eassumption)
  | (eapply id_at_same; [eassumption|kin|eassumption])
  | (eapply id_opt_same; [eassumption|kin|eassumption])
  | (eapply key_at_same; eassumption)
  | (eapply value_same; eassumption)
  | (eapply params_same; eassumption)
  | match goal with H : Xat ?o ?k _ |- est_at _ _ ?k _ => eapply H; [eassumption|kin] end
  | match goal with H : Xopt ?o ?k _ |- est_opt _ _ ?k _ => eapply H; [eassumption|kin] end
  | match goal with H : Xlist ?o ?k _ |- est_list _ _ ?k _ => eapply H; [eassumption|kin] end
  | match goal with H : Xholes ?o ?k _ |- est_holes _ _ ?k _ => eapply H; [eassumption|kin] end
  | match goal with H : Xn _ _ |- est _ _ _ => eapply H; eassumption end
  | let X := fresh in intros X; discriminate X ].

Theorem est_same o n : est false o n -> Xn o n.
Proof.
  apply (est_mind std Xn Xat Xopt Xlist Xholes Xelems); clear o n;
    try (intros; intros q' S; objs; solve [econstructor; tac]).
  - intros o i ps b g v js bo Hg Hv Ha Hp Ep Hb Tb _ Eb q S. objs.
    assert (has q "generator" v) by (eapply has_scalar; [exact S|kin| |exact Hg]; destruct Hv as [->|[-> _]]; exact Logic.I).
    eapply Es_fun; try tac. 
  - intros o k do i h T Hk Hd Ha Hi Hin q S. objs.
    match goal with A : Forall2 same_plain [J_Object do] _ |- _ =>
      inversion A as [|? z ? ? Hz Hn]; subst; inversion Hn; subst end.
    assert (exists w, z = J_Object w /\ so do w) as (w & -> & Sw) by (inversion Hz; subst; eauto).
    eapply Es_of; try tac.
  - intros o k o' n H _ X q S Hk. destruct (has_object _ _ _ _ S Hk H) as (y & Hy & Sy). econstructor; eauto.
  - intros o k js ns H _ X q S Hk. destruct (has_array _ _ _ _ S Hk H) as (y & Hy & Sy). econstructor; eauto.
  - intros o k js ns H _ X q S Hk. destruct (has_array _ _ _ _ S Hk H) as (y & Hy & Sy). econstructor; eauto.
  - intros b H. inversion H; subst. constructor.
  - intros o n js ns _ X1 _ X2 b H. inversion H as [|? z ? zs Hz Hzs]; subst.
    assert (exists w, z = J_Object w /\ so o w) as (w & -> & Sw) by (inversion Hz; subst; eauto).
    constructor; auto.
  - intros js ns _ X b H. inversion H as [|? z ? zs Hz Hzs]; subst. inversion Hz; subst. constructor; auto.
Qed.
End Std.

Fixpoint same_sym v w (H : same_plain v w) {struct H} : same_plain w v.
Proof.
  destruct H as [v|a b F|o p H1 H2].
  - constructor.
  - constructor. induction F as [|x y a b Hx F IH]; constructor; [now apply same_sym|exact IH].
  - assert (Fo : forall k, fld o k -> fld p k).
    { intros k [A B]. split; [exact A|]. intros E. specialize (B E).
      destruct (H1 "type"%string _ ltac:(kin) B) as (w & Hw & X). inversion X; subst; exact Hw. }
    assert (Fp : forall k, fld p k -> fld o k).
    { intros k [A B]. split; [exact A|]. intros E. specialize (B E).
      destruct (H2 "type"%string _ ltac:(kin) B) as (v & Hv).
      destruct (H1 "type"%string _ ltac:(kin) Hv) as (w & Hw & X).
      rewrite (has_fun _ _ _ _ Hw B) in X. inversion X; subst; exact Hv. }
    constructor.
    + intros k w Hk Hw. pose proof (Fp k Hk) as Hk'. destruct (H2 k w Hk Hw) as (v & Hv). destruct (H1 k v Hk' Hv) as (w' & Hw' & X).
      rewrite (has_fun _ _ _ _ Hw Hw'). exists v. split; [exact Hv|now apply same_sym].
    + intros k v Hk Hv. destruct (H1 k v Hk Hv) as (w & Hw & _). eauto.
Qed.

Theorem into_script_same o p : same_plain (J_Object o) (J_Object p) ->
  forall s, into_script o = Ok s <-> into_script p = Ok s.
Proof.
  intros S s. rewrite !into_script_iff. split; intros H.
  - exact (est_same o _ H p S).
  - exact (est_same p _ H o (same_sym _ _ S)).
Qed.
