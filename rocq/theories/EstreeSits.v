(** Every part of an accepted document is accepted as what is expected at its place. *)
From Coq Require Import String Ascii List NArith ZArith Bool Lia.
From Verif Require Import Base F64 Word Token Punc Ast Track Node SpecTree
  Unjson Estree SpecEstree SpecKeys EstreeProofs EstreeConv EstreeComp EstreeExtra.
Import ListNotations.
Local Open Scope nat_scope.
Local Arguments lit _ : simpl never.

Definition plays (r : role) (n : node) : Prop :=
  match r, n with
  | R_Script, N_body _ => True
  | R_Statement, (N_stmt _ | N_item _ | N_decl _ | N_block _) => True
  | R_Expression, (N_expr _ | N_eli _) => True
  | R_Property, N_prop _ => True
  | R_Case, N_case _ => True
  | R_Catch, N_catch _ => True
  | R_Declarator, N_dtor _ => True
  | R_Head, (N_fh _ | N_fi _) => True
  | R_OfHead, N_fo _ => True
  | _, _ => False
  end.
Definition ok (r : role) (o : object) : Prop := exists n, plays r n /\ est false o n.

Lemma typed_inj o a b : typed o a -> typed o b -> a = b.
Proof. intros A B. apply lit_inj. pose proof (has_fun _ _ _ _ A B) as E. now injection E. Qed.
Lemma child_at o k n c : est_at false o k n -> child o k c -> est false c n.
Proof.
  intros H C. inversion H as [? ? x ? Hx E]; subst. destruct C as [C|(js & C & _)]; pose proof (has_fun _ _ _ _ C Hx) as Q; [|discriminate Q].
  now injection Q as ->.
Qed.
Lemma child_opt o k n c : est_opt false o k n -> child o k c -> exists m, n = Some m /\ est false c m.
Proof.
  intros H C. inversion H as [? ? Hx|? ? m Hx]; subst.
  - destruct C as [C|(js & C & _)]; pose proof (has_fun _ _ _ _ C Hx) as Q; discriminate Q.
  - exists m. split; [reflexivity|eapply child_at; eauto].
Qed.
Lemma elems_in js ns c : est_elems false js ns -> In (J_Object c) js -> exists m, In (Some m) ns /\ est false c m.
Proof.
  revert ns. induction js as [|j js IH]; intros ns H I; [destruct I|]. inversion H as [|? n ? ns' E H'|? ns' H']; subst.
  - destruct I as [I|I].
    + injection I as ->. exists n. split; [now left|exact E].
    + destruct (IH _ H' I) as (m & A & B). exists m. split; [now right|exact B].
  - destruct I as [I|I]; [discriminate I|]. destruct (IH _ H' I) as (m & A & B). exists m. split; [now right|exact B].
Qed.
Lemma child_holes o k ns c : est_holes false o k ns -> child o k c -> exists m, In (Some m) ns /\ est false c m.
Proof.
  intros H C. inversion H as [? ? js ? Hx E]; subst. destruct C as [C|(js' & C & I)]; pose proof (has_fun _ _ _ _ C Hx) as Q; [discriminate Q|].
  injection Q as ->. eauto using elems_in.
Qed.
Lemma child_list o k ns c : est_list false o k ns -> child o k c -> exists m, In m ns /\ est false c m.
Proof.
  intros H C. inversion H as [? ? js ? Hx E]; subst.
  destruct (child_holes o k (map Some ns) c) as (m & I & X); [econstructor; eauto|exact C|].
  apply in_map_iff in I as (m' & Q & I). injection Q as ->. eauto.
Qed.

(** A node in a field plays the field's role. *)
Definition plays_all (r : role) (ns : list node) := forall n, In n ns -> plays r n.
Lemma ok_at r o k n c : est_at false o k n -> child o k c -> plays r n -> ok r c.
Proof. intros A B P. exists n. split; [exact P|eapply child_at; eauto]. Qed.
Lemma ok_opt {A} r o k (f : A -> node) n c : est_opt false o k (option_map f n) -> child o k c -> (forall x, plays r (f x)) -> ok r c.
Proof.
  intros X B P. destruct (child_opt _ _ _ _ X B) as (m & E & Y). destruct n; [injection E as <-|discriminate E]. exists (f a). auto.
Qed.
Lemma ok_list {A} r o k (f : A -> node) l c : est_list false o k (map f l) -> child o k c -> (forall x, plays r (f x)) -> ok r c.
Proof.
  intros X B P. destruct (child_list _ _ _ _ X B) as (m & I & Y). apply in_map_iff in I as (x & <- & _). exists (f x). auto.
Qed.
Lemma ok_one {A} r o k (f : A -> node) x c : est_list false o k [f x] -> child o k c -> (forall x, plays r (f x)) -> ok r c.
Proof. intros X. exact (ok_list r o k f [x] c X). Qed.
Lemma ok_holes {A} r o k (f : A -> node) l c : est_holes false o k (map (option_map f) l) -> child o k c -> (forall x, plays r (f x)) -> ok r c.
Proof.
  intros X B P. destruct (child_holes _ _ _ _ X B) as (m & I & Y). apply in_map_iff in I as (x & E & _).
  destruct x; [injection E as <-|discriminate E]. exists (f a). auto.
Qed.
Lemma ok_object r o k n x c : has o k (J_Object x) -> est false x n -> child o k c -> plays r n -> ok r c.
Proof. intros A E B P. eapply ok_at; [econstructor; eauto|exact B|exact P]. Qed.

Ltac fin C := first
  [ (eapply ok_at with (2 := C); [eassumption|exact Logic.I])
  | (eapply ok_opt with (2 := C); [eassumption|intros; exact Logic.I])
  | (eapply ok_list with (2 := C); [eassumption|intros; exact Logic.I])
  | (eapply ok_holes with (2 := C); [eassumption|intros; exact Logic.I])
  | (eapply (ok_one _ _ _ N_dtor) with (2 := C); [eassumption|intros; exact Logic.I])
  | (eapply ok_object with (3 := C); [eassumption|eassumption|exact Logic.I]) ].
Ltac clash := match goal with A : typed ?o _, B : typed ?o _ |- _ =>
    pose proof (typed_inj _ _ _ A B) as Q; discriminate Q end.
Ltac open1 o := match goal with
  | E : est false o (N_item _) |- _ => inversion E; subst; clear E
  | E : est false o (N_decl _) |- _ => inversion E; subst; clear E
  | E : est false o (N_stmt _) |- _ => inversion E; subst; clear E
  | E : est false o (N_block _) |- _ => inversion E; subst; clear E
  | E : est false o (N_eli _) |- _ => inversion E; subst; clear E
  | E : est false o (N_expr _) |- _ => inversion E; subst; clear E
  | E : est false o (N_fexpr _) |- _ => inversion E; subst; clear E
  | E : est false o (N_fh _) |- _ => inversion E; subst; clear E
  | E : est false o (N_fi _) |- _ => inversion E; subst; clear E
  | E : est_id o _ |- _ => inversion E; subst; clear E
  end; try clash.

Lemma part_ok r o t k r' c : ok r o -> typed o t -> In (r, t, k, r') parts -> child o k c -> ok r' c.
Proof.
  intros (n & P & E) T I C.
  repeat (destruct I as [I|I]; [injection I as <- <- <- <-; destruct n; try contradiction P; clear P; repeat open1 o; fin C|]).
  destruct I.
Qed.
Lemma fixed_ok r o k r' c : ok r o -> In (r, k, r') fixed_parts -> child o k c -> ok r' c.
Proof.
  intros (n & P & E) I C.
  repeat (destruct I as [I|I]; [injection I as <- <- <-; destruct n; try contradiction P; clear P; inversion E; subst; clear E; fin C|]).
  destruct I.
Qed.
Ltac kinds := match goal with A : has ?o ?k ?a, B : has ?o ?k ?b |- _ =>
    let Q := fresh in pose proof (has_fun _ _ _ _ A B) as Q; vm_compute in Q; discriminate Q end.
Lemma sits_ok d s r o : est false d (N_body s) -> sits d r o -> ok r o.
Proof.
  intros D H. induction H as [|r o t k r' c H IH T I C|r o k r' c H IH I C|o c H (n & P & E) T K C
    |r o t H (n & P & E) R T N|o c H (n & P & E) K M S V|o v c H (n & P & E) K V B].
  - exists (N_body s). now split.
  - eapply part_ok; eauto.
  - eapply fixed_ok; eauto.
  - unfold is_true in K. destruct n; try contradiction P; clear P; repeat open1 o; first [kinds|fin C].
  - assert (X : exists e, est false o (N_expr e)).
    { destruct R as [-> | ->]; destruct n; try contradiction P; clear P; inversion E; subst; eauto;
        exfalso; apply N; eapply typed_inj; eassumption. }
    destruct X as (e & X). exists (N_expr e). now split.
  - unfold of_kind, is_false in *. destruct n; try contradiction P; clear P; inversion E; subst; clear E; try kinds.
    eapply ok_at; [eassumption|left; exact V|exact Logic.I].
  - unfold of_kind, is_true in *. destruct n; try contradiction P; clear P. inversion E; subst; clear E;
      try (exfalso; destruct K as [K|[K|[K K']]]; kinds);
      match goal with A : has o "value" (J_Object ?w) |- _ => pose proof (has_fun _ _ _ _ A V) as Q; injection Q as -> end;
      repeat open1 v;
      (eapply ok_object with (3 := or_introl B); [eassumption|eassumption|exact Logic.I]).
Qed.
Theorem accepted_type d s o t : into_script d = Ok s -> sits d R_Expression o -> typed o t -> In t node_types.
Proof.
  intros H S T. apply into_script_iff in H. destruct (sits_ok _ _ _ _ H S) as (n & P & E).
  destruct n; try contradiction P; clear P; repeat match goal with
  | E : est false o (N_eli _) |- _ => inversion E; subst; clear E
  | E : est false o (N_expr _) |- _ => inversion E; subst; clear E
  | E : est_id o _ |- _ => inversion E; subst; clear E
  end; match goal with A : typed o _ |- _ => rewrite (typed_inj _ _ _ T A); cbn; tauto end.
Qed.
