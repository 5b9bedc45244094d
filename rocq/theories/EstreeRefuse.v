(** A document with a fault is refused. *)
From Coq Require Import String Ascii List NArith ZArith Bool Lia.
From Verif Require Import Base F64 Word Token Punc Ast Track Node SpecTree Cover CoverProofs NodeProofs
  LexTheorems PropTree Unjson Estree SpecEstree SpecBlame EstreeProofs EstreeConv EstreeSafe EstreeComp EstreeBlame EstreeFault.
Import ListNotations.
Local Open Scope nat_scope.
Local Arguments lit _ : simpl never.

Lemma est_expr_fun o e1 e2 : est false o (N_expr e1) -> est false o (N_expr e2) -> e1 = e2.
Proof.
  intros H1 H2. apply complete in H1, H2. specialize (H1 (odepth o)). specialize (H2 (odepth o)).
  cbn in H1, H2. specialize (H1 (le_n _)). specialize (H2 (le_n _)). congruence.
Qed.
Lemma has_text o k s t : has o k (J_String s) -> has o k (J_String t) -> s = t.
Proof. intros A C. pose proof (has_fun _ _ _ _ A C) as E. now injection E. Qed.
Lemma params_object js ps v : est_params js ps -> In v js -> exists x, v = J_Object x.
Proof.
  intros H. assert (K : forall l qs, Forall2 est_param l qs -> In v l -> exists x, v = J_Object x).
  { intros l qs F. induction F as [|j q l qs Q F IH]; intros []; [|auto]. subst. inversion Q; subst. eauto. }
  destruct H as [js ps F|js ps o i F T A]; intros I; [eauto|]. apply in_app_or in I as [I|[<-|[]]]; eauto.
Qed.
Lemma F2_len {A C} (R : A -> C -> Prop) l r : Forall2 R l r -> length l = length r.
Proof. induction 1; cbn; congruence. Qed.
Lemma params_arity v js ps n : has v "params" (J_Array js) -> est_params js ps -> arity v n -> n = length (pa_list ps).
Proof.
  intros H P (a & rest & Ha & <- & R & N). pose proof (has_fun _ _ _ _ H Ha) as E. injection E as E. clear H Ha.
  destruct P as [js ps F|js ps o i F T A]; cbn.
  - subst js. destruct R as [->|(r & -> & Tr)].
    + apply F2_len in F. now rewrite app_nil_r in F.
    + exfalso. apply Forall2_app_inv_l in F as (l1 & l2 & _ & F & _). inversion F as [|? ? ? ? Q]; subst.
      inversion Q; subst. eapply not_rest_id; eassumption.
  - destruct R as [->|(r & -> & Tr)].
    + rewrite app_nil_r in E. destruct (N eq_refl js o (eq_sym E) T).
    + apply app_inj_tail in E as [<- _]. now apply F2_len in F.
Qed.
Ltac gone := match goal with
  | X : has ?o ?k (J_String ?s), Y : has ?o ?k (J_String ?t), N : ?s <> ?t |- _ => destruct (N (has_text _ _ _ _ X Y))
  | X : has ?o ?k (J_String ?s), Y : has ?o ?k (J_String ?t), N : ?t <> ?s |- _ => destruct (N (has_text _ _ _ _ Y X))
  | X : has ?o ?k (J_String ?s), Y : has ?o ?k (J_String (?f ?t)), N : forall t, ?s <> ?f t |- _ =>
      destruct (N _ (has_text _ _ _ _ X Y))
  | X : has ?o ?k (J_String ?s), Y : has ?o ?k (J_String (?f (?g ?t))), N : forall t, ?s <> ?f (?g t) |- _ =>
      destruct (N _ (has_text _ _ _ _ X Y))
  end.
Lemma bad_string_ok r o w s : ok r o -> ~ bad_string r o w s.
Proof.
  intros H B. destruct B as [o s T O N|o s T O N|o s T O N N'|o s T O N|o s T O N N'|o m p s t T M Nm Pr Np N|r o s I T K N|o k T K I].
  - destruct H as [e H]. inversion H; subst; try (match goal with X : est_id _ _ |- _ => inversion X; subst end);
      try (exfalso; repeat same; fail). gone.
  - destruct H as [e H]. inversion H; subst; try (match goal with X : est_id _ _ |- _ => inversion X; subst end);
      try (exfalso; repeat same; fail). gone.
  - destruct H as [e H]. inversion H; subst; try (match goal with X : est_id _ _ |- _ => inversion X; subst end);
      try (exfalso; repeat same; fail); gone.
  - destruct H as [e H]. inversion H; subst; try (match goal with X : est_id _ _ |- _ => inversion X; subst end);
      try (exfalso; repeat same; fail). gone.
  - destruct H as [e H]. inversion H; subst; try (match goal with X : est_id _ _ |- _ => inversion X; subst end);
      try (exfalso; repeat same; fail); gone.
  - destruct H as [e H]. inversion H; subst; try (match goal with X : est_id _ _ |- _ => inversion X; subst end);
      try (exfalso; repeat same; fail).
    repeat match goal with X : has o ?k (J_Object ?a), Y : has o ?k (J_Object ?b) |- _ =>
      lazymatch a with b => fail | _ => idtac end;
      let E := fresh in pose proof (has_fun _ _ _ _ X Y) as E; injection E as ->; clear X end.
    apply N. split; eapply has_text; eassumption.
  - cbn in I. destruct I as [<-|[<-|[<-|[<-|[<-|[]]]]]]; destruct H as [e H].
    + inversion H; subst; match goal with X : est _ o _ |- _ => inversion X; subst end; try (exfalso; repeat same; fail);
      try (match goal with X : est _ _ (N_block _) |- _ => apply block_typed in X end; repeat same; fail);
      (eapply N; [|eapply has_text; eassumption]; cbn; tauto).
    + inversion H; subst; try (exfalso; repeat same; fail);
      try (match goal with X : est _ _ (N_block _) |- _ => apply block_typed in X end; repeat same; fail);
      (eapply N; [|eapply has_text; eassumption]; cbn; tauto).
    + inversion H; subst; try (eapply expr_not_var; eassumption); (eapply N; [|eapply has_text; eassumption]; cbn; tauto).
    + inversion H; subst; try (eapply expr_not_var; eassumption);
      try match goal with X : In _ [_; _; _] |- _ => destruct X as [X|[X|[X|[]]]]; injection X as <- <- end;
      (eapply N; [|eapply has_text; eassumption]; cbn; tauto).
    + inversion H; subst; try (eapply expr_not_var; eassumption);
      try match goal with X : In _ [_; _; _] |- _ => destruct X as [X|[X|[X|[]]]]; injection X as <- <- end;
      (eapply N; [|eapply has_text; eassumption]; cbn; tauto).
  - destruct H as [e H]. inversion H; subst; try (exfalso; repeat same; fail);
      try (match goal with X : est _ _ (N_block _) |- _ => apply block_typed in X end; repeat same; fail).
    destruct I as [<-|[<-|[]]]; kinds.
Qed.
Lemma bad_length_ok r o m n : ok r o -> ~ bad_length r o m n.
Proof.
  intros H B. destruct B as [r o a I T A L|o v n K V A N].
  - cbn in I. destruct I as [<-|[<-|[]]]; destruct H as [e H]; inversion H; subst;
      try (eapply expr_not_var; eassumption).
    + match goal with X : est_list _ _ _ _ |- _ => inversion X as [? ? js ? Hj E]; subst end.
      pose proof (has_fun _ _ _ _ A Hj) as Q. injection Q as ->. apply (elems_iff _ N_dtor _ [_]) in E. apply F2_len in E. now apply L.
    + match goal with X : est_list _ _ _ _ |- _ => inversion X as [? ? js ? Hj E]; subst end.
      pose proof (has_fun _ _ _ _ A Hj) as Q. injection Q as ->. apply (elems_iff _ N_dtor _ [_]) in E. apply F2_len in E. now apply L.
    + match goal with X : has o "declarations" (J_Array [_]) |- _ => pose proof (has_fun _ _ _ _ A X) as Q end.
      injection Q as ->. now apply L.
  - destruct H as [e H]. inversion H; subst; kinds.
    match goal with X : has o "value" (J_Object ?w) |- _ => pose proof (has_fun _ _ _ _ V X) as Q; injection Q as <- end.
    match goal with X : est _ v _ |- _ => inversion X; subst end.
    eapply params_arity in A; [|eassumption..]. now apply N.
Qed.
Ltac unique := match goal with
  | X : has ?o ?k (J_Object ?l), Y : est_at _ ?o ?k _ |- _ =>
      let x := fresh in let Z := fresh in let Z' := fresh in let E := fresh in
      inversion Y as [? ? x ? Z Z']; subst; pose proof (has_fun _ _ _ _ X Z) as E; injection E as <-; clear Y Z
  end; match goal with X : est _ ?l (N_expr ?a), Y : est _ ?l (N_expr ?b) |- _ =>
      let E := fresh in pose proof (est_expr_fun _ _ _ X Y) as E; clear Y end.
Lemma same_left o k l e x : has o k (J_Object l) -> est false l (N_expr e) -> est_at false o k (N_expr x) -> e = x.
Proof.
  intros H E A. inversion A as [? ? y ? Z Z']; subst. pose proof (has_fun _ _ _ _ H Z) as Q. injection Q as <-.
  eapply est_expr_fun; eassumption.
Qed.
Ltac left_of := match goal with
  | X : has ?o ?k (J_Object ?l), Y : est false ?l (N_expr _), Z : est_at false ?o ?k (N_expr _) |- _ =>
      pose proof (same_left _ _ _ _ _ X Y Z); subst end.
Lemma assop_not_eq t : assop_tag_text t <> lit "=".
Proof. destruct t; vm_compute; discriminate. Qed.
Lemma bad_left_ok r o k : ok r o -> ~ bad_left r o k.
Proof.
  intros H B. destruct B as [o l e T O L E N|o t l e T O L E N|o l e T L E N|r o e I E N].
  - destruct H as [x H]. inversion H; subst; try (match goal with X : est_id _ _ |- _ => inversion X; subst end);
      try (exfalso; repeat same; fail).
    + left_of. eapply N; [eassumption|reflexivity].
    + eapply assop_not_eq. eapply has_text; eassumption.
  - destruct H as [x H]. inversion H; subst; try (match goal with X : est_id _ _ |- _ => inversion X; subst end);
      try (exfalso; repeat same; fail).
    + eapply assop_not_eq. eapply has_text; eassumption.
    + left_of. eapply N; reflexivity.
  - destruct H as [x H]. inversion H; subst; try (match goal with X : est_id _ _ |- _ => inversion X; subst end);
      try (exfalso; repeat same; fail); left_of; eapply N; reflexivity.
  - destruct I as [<-|[<-|[]]]; destruct H as [x H]; inversion H; subst; try (eapply expr_not_var; eassumption);
      match goal with X : est _ o (N_expr ?y) |- _ => lazymatch y with e => fail | _ => idtac end;
        pose proof (est_expr_fun _ _ _ E X); subst end; (eapply N; [eassumption|reflexivity]).
Qed.

Theorem fault_refused D e : fault D e -> forall s, ~ est false D (N_body s).
Proof.
  intros F s K0. assert (K : ok R_body D) by (cbn; eauto). clear K0 s.
  destruct F as [r o k kd P A L|r o k kd v e P A Hv N M|r o k r' a v e P A Hk I N M|r o k r' a v e P A Hk I N0 N M
    |o a e P Hv M|o e P N V M|o s e P Hk N M|r o w s P B|r o m n P B|r o s P T Hs N|r o w l t tg P A T N G
    |o k v x e P T Hk N Hd Hi E|r o k P B|r o a v i P I T K' Hd Iv Ei Hn];
  pose proof (part_ok _ _ _ K P) as H.
  - destruct (asks_ok _ _ _ _ H A) as (v & Hv & _). exact (L _ Hv).
  - destruct (asks_ok _ _ _ _ H A) as (w & Hw & W & _). rewrite (has_fun _ _ _ _ Hw Hv) in W. exact (N W).
  - destruct A as [A|A]; destruct (asks_ok _ _ _ _ H A) as (w & Hw & _ & W); specialize (W _ (has_fun _ _ _ _ Hw Hk)).
    + destruct (W _ I) as (x & -> & _). exact (N x eq_refl).
    + destruct W as [ps W]. destruct (params_object _ _ _ W I) as (x & ->). exact (N x eq_refl).
  - destruct (asks_ok _ _ _ _ H A) as (w & Hw & _ & W). specialize (W _ (has_fun _ _ _ _ Hw Hk)).
    destruct (W _ I) as [->|(x & -> & _)]; [now apply N0|exact (N x eq_refl)].
  - destruct H as [x H]. inversion H; subst; try (match goal with X : _ \/ _ |- _ => destruct X as [?|[? ?]] end); same.
  - destruct H as [x H]. inversion H; subst; [contradiction| |];
      match goal with X : est_value _ _ |- _ => inversion X; subst end;
      (edestruct V as [V1 V2]; [eassumption|]); first [apply V1; constructor; fail | apply V2; constructor].
  - destruct H as [x H]. inversion H; subst; (eapply N; [|eapply has_text; eassumption]); cbn; tauto.
  - exact (bad_string_ok _ _ _ _ H B).
  - exact (bad_length_ok _ _ _ _ H B).
  - apply ok_type in H as (t & It & Tt); [|exact T]. eapply N; [exact It|]. eapply has_text; [exact Hs|exact Tt].
  - destruct A as [| | | |]; apply N.
    + destruct H as [i H]. inversion H; subst. same. now left.
    + destruct H as [i H]. apply block_typed in H. same. now left.
    + destruct H as [i H]. apply expr_typed in H as (u & Iu & U). now rewrite (typed_fun _ _ _ T U).
    + destruct H as [i H]. apply stmt_typed in H as (u & Iu & U). now rewrite (typed_fun _ _ _ T U).
    + destruct H as [i H]. inversion H; subst.
      * match goal with X : est _ _ (N_stmt _) |- _ => apply stmt_typed in X as (u & Iu & U) end.
        rewrite (typed_fun _ _ _ T U). now right.
      * match goal with X : est _ _ (N_decl _) |- _ => apply decl_typed in X as (u & Iu & U) end.
        now rewrite (typed_fun _ _ _ T U).
  - destruct H as [h H]. inversion H; subst; try (eapply expr_not_var; eassumption).
    + apply N. eapply has_text; eassumption.
    + match goal with X : est_list _ _ _ _ |- _ => inversion X as [? ? js ? Hj Q]; subst end.
      pose proof (has_fun _ _ _ _ Hd Hj) as R. injection R as <-. apply (elems_iff _ N_dtor _ [_]) in Q.
      inversion Q as [|? ? ? ? (y & Ey & Y)]; subst. injection Ey as <-. inversion Y; subst.
      match goal with X : est_opt _ _ _ _ |- _ => cbn in X; inversion X; subst end. same.
  - exact (bad_left_ok _ _ _ H B).
  - assert (G : forall ds cs, est_list false o "declarations" (map N_dtor ds) -> Forall2 const_of ds cs -> False).
    { intros ds cs X C. inversion X as [? ? js ? Hj Q]; subst. pose proof (has_fun _ _ _ _ Hd Hj) as R. injection R as <-.
      apply elems_iff in Q. clear - Q C Iv Hn. revert cs C.
      induction Q as [|j d js ds (x & -> & Hx) Q IH]; intros cs C; [destruct Iv|].
      inversion C as [|? ? ? ? C1 C2]; subst. destruct Iv as [Iv|Iv]; [|eauto]. injection Iv as ->.
      inversion C1; subst. inversion Hx; subst.
      match goal with X : est_opt _ _ _ _ |- _ => cbn in X; inversion X; subst end.
      match goal with X : est_at _ _ _ _ |- _ => inversion X; subst end. same. }
    destruct I as [<-|[<-|[]]]; destruct H as [x H].
    + inversion H; subst; match goal with X : est _ o _ |- _ => inversion X; subst end; try (exfalso; repeat same; fail);
      try (match goal with X : est _ _ (N_block _) |- _ => apply block_typed in X end; repeat same; fail); kinds; eauto.
    + inversion H; subst; try (eapply expr_not_var; eassumption); kinds; eauto.
Qed.

Theorem refused_iff_fault o : (exists e, fault o e) <-> (forall s, ~ est false o (N_body s)).
Proof.
  split; [intros [e F]; exact (fault_refused _ _ F)|]. intros H.
  pose proof (into_script_safe o) as S. destruct (into_script o) as [s|e| |] eqn:E; try contradiction.
  - apply into_script_iff in E. destruct (H s E).
  - exists e. now apply into_script_blame.
Qed.
