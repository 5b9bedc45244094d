(** The ESTree conversion always ends, in a tree or an error: it never panics and its
    fuel, the depth of the document, suffices. *)
From Coq Require Import String Ascii List NArith ZArith Bool Lia.
From Verif Require Import Base F64 Word Token Punc Ast Track Node SpecTree Cover CoverProofs NodeProofs
  LexTheorems PropTree Unjson Estree SpecEstree EstreeProofs EstreeConv.
Import ListNotations.
Local Open Scope nat_scope.
Local Arguments lit _ : simpl never.
Local Arguments odepth _ : simpl never.
Local Arguments ex {A} m _ : simpl never.

Definition SR {E A} (r : res E A) (Q : A -> Prop) : Prop :=
  match r with Ok a => Q a | Err _ => True | _ => False end.
Definition W {A} (d : nat) (m : eM A) (Q : A -> Prop) : Prop :=
  forall o, odepth o <= d -> SR (m o) (fun p => odepth (snd p) <= d /\ Q (fst p)).
Definition any {A} (_ : A) : Prop := True.

Lemma SR_weaken {E A} (r : res E A) (P Q : A -> Prop) : SR r P -> (forall a, P a -> Q a) -> SR r Q.
Proof. destruct r; cbn; auto. Qed.
Lemma W_weaken {A} d (m : eM A) (P Q : A -> Prop) : W d m P -> (forall a, P a -> Q a) -> W d m Q.
Proof. intros H I o Ho. eapply SR_weaken; [apply (H o Ho)|]. intros [a o'] [? ?]. split; auto. Qed.
Lemma SR_any {E A} (r : res E A) (P : A -> Prop) : SR r P -> SR r any.
Proof. intros H. eapply SR_weaken; [exact H|]. intros; exact Logic.I. Qed.
Lemma W_any {A} d (m : eM A) (P : A -> Prop) : W d m P -> W d m any.
Proof. intros H. eapply W_weaken; [exact H|]. intros; exact Logic.I. Qed.

Lemma W_bind {A B} d (m : eM A) (f : A -> eM B) P Q :
  W d m P -> (forall a, P a -> W d (f a) Q) -> W d (bind m f) Q.
Proof.
  intros Hm Hf o Ho. specialize (Hm o Ho). unfold bind. destruct (m o) as [[a o']| | |]; cbn in *; auto.
  destruct Hm as [Ho' Pa]. exact (Hf a Pa o' Ho').
Qed.
Lemma W_ret {A} d (a : A) (Q : A -> Prop) : Q a -> W d (ret a) Q.
Proof. intros H o Ho. now split. Qed.
Lemma W_err {A} d e (Q : A -> Prop) : W d (err e) Q.
Proof. intros o Ho. exact Logic.I. Qed.
Lemma W_lift {A} d (r : eres A) Q : SR r Q -> W d (lift r) Q.
Proof. intros H o Ho. unfold lift. destruct r; cbn in *; auto. Qed.
Lemma W_get d : W d (get : eM object) (fun o => odepth o <= d).
Proof. intros o Ho. now split. Qed.
Lemma SR_and {E A B} (r : res E A) (f : A -> res E B) P Q :
  SR r P -> (forall a, P a -> SR (f a) Q) -> SR (and_then r f) Q.
Proof. intros H I. destruct r; cbn in *; auto. Qed.
Lemma SR_run {A} d (m : eM A) o Q : W d m Q -> odepth o <= d -> SR (run m o) Q.
Proof. intros H Ho. specialize (H o Ho). unfold run. destruct (m o) as [[a o']| | |]; cbn in *; tauto. Qed.
(* A computation on an inner object, whose rest is kept. *)
Lemma SR_pair {A} d (m : eM A) o Q : W d m Q -> odepth o <= d -> SR (m o) (fun p => odepth (snd p) <= d /\ Q (fst p)).
Proof. intros H Ho. exact (H o Ho). Qed.
Lemma SR_map {E A B} (f : A -> res E B) l Q : (forall a, In a l -> SR (f a) Q) -> SR (map_res f l) (Forall Q).
Proof.
  induction l as [|a l IH]; intros H; [constructor|]. cbn [map_res].
  eapply SR_and; [apply H; now left|]. intros b Hb. eapply SR_and; [apply IH; intros; apply H; now right|].
  intros bs Hbs. now constructor.
Qed.

Lemma W_field k d : W d (ex (extract_field k)) (fun v => json_depth v < d).
Proof.
  intros o Ho. unfold ex, extract_field. destruct (lookup k o) as [v|] eqn:L; [|exact Logic.I].
  cbn [from_json SR fst snd]. split; [pose proof (without_depth k o); lia|]. pose proof (lookup_depth _ _ _ L). lia.
Qed.
Lemma W_as {A} (f : json -> jres A) k d (Q : A -> Prop) :
  (forall v, json_depth v < d -> SR (f v) Q) -> W d (ex (extract_as f k)) Q.
Proof.
  intros H o Ho. unfold ex, extract_as, bind, extract_field. destruct (lookup k o) as [v|] eqn:L; [|exact Logic.I].
  unfold lift. specialize (H v). pose proof (lookup_depth _ _ _ L). pose proof (without_depth k o).
  destruct (f v); cbn [from_json SR fst snd] in *; try exact Logic.I; try (apply H; lia). split; [lia|apply H; lia].
Qed.
Lemma W_string k d : W d (ex (extract_string k)) any.
Proof. apply W_as. intros [] ?; exact Logic.I. Qed.
Lemma W_bool k d : W d (ex (extract_bool k)) any.
Proof. apply W_as. intros [] ?; exact Logic.I. Qed.
Lemma W_bool_opt k d : W d (ex (extract_bool_opt k)) any.
Proof. apply W_as. intros [] ?; exact Logic.I. Qed.
Lemma W_object k d : W d (ex (extract_object k)) (fun x => odepth x < d).
Proof. apply W_as. intros [] ?; try exact Logic.I. cbn. assumption. Qed.
Lemma W_object_opt k d : W d (ex (extract_object_opt k)) (fun x => forall y, x = Some y -> odepth y < d).
Proof. apply W_as. intros [] ?; try exact Logic.I; cbn; intros y E; [discriminate E|]. injection E as <-. assumption. Qed.
Lemma W_array k d : W d (ex (extract_array k)) (fun l => forall j, In j l -> json_depth j < d).
Proof.
  apply W_as. intros [] H; try exact Logic.I. cbn [into_array SR]. intros j Hj. rewrite adepth_eq in H.
  pose proof (adepth_in _ _ Hj). lia.
Qed.
Lemma SR_objects l d : (forall j, In j l -> json_depth j < d) -> SR (into_objects l) (Forall (fun o => odepth o < d)).
Proof.
  intros H. apply SR_map. intros j Hj. specialize (H j Hj). destruct j; cbn in *; try exact Logic.I. assumption.
Qed.
Lemma W_list {A} (f : object -> eres A) k d : (forall o, odepth o < d -> SR (f o) any) -> W d (extract_list f k) any.
Proof.
  intros H. eapply W_bind; [apply W_array|]. intros l Hl. eapply W_bind; [apply W_lift, (SR_objects _ d Hl)|].
  intros os Hos. rewrite Forall_forall in Hos. apply W_lift. eapply SR_any. apply SR_map. auto.
Qed.

Lemma SR_tag o : SR (tag_of o) any.
Proof.
  unfold tag_of, get_string, get_as, get_field. destruct (lookup _ o) as [v|]; [|exact Logic.I].
  destruct v; cbn [and_then into_string type_error from_json SR]; try exact Logic.I.
  destruct (tag_from_str _); exact Logic.I.
Qed.
Lemma SR_id o : SR (into_id o) any.
Proof.
  unfold into_id. eapply (SR_run (odepth o)); [|lia]. eapply W_bind; [apply W_lift, SR_tag|]. intros t _.
  destruct (negb _); [apply W_lift; exact Logic.I|]. eapply W_bind; [apply W_string|].
  intros s _. apply W_ret. exact Logic.I.
Qed.
Lemma SR_patt o : SR (into_patt o) any.
Proof. eapply SR_and; [apply SR_id|]. intros; exact Logic.I. Qed.

Ltac w1 := match goal with
  | |- W _ (bind (lift _) _) _ => eapply W_bind; [apply W_lift|]
  | |- W _ (bind _ _) _ => eapply W_bind
  | |- W _ (ret _) _ => apply (W_ret _ _ any); exact Logic.I
  | |- W _ (err _) _ => apply W_err
  | |- W _ (lift (Err _)) _ => apply W_lift; exact Logic.I
  | |- W _ (lift (node_type_error _ _)) _ => apply W_lift; exact Logic.I
  | |- W _ (lift (string_error _ _)) _ => apply W_lift; exact Logic.I
  | |- W _ (lift (est_type_error _ _)) _ => apply W_lift; exact Logic.I
  | |- W _ (lift (array_error _ _)) _ => apply W_lift; exact Logic.I
  | |- W _ (lift _) any => apply W_lift
  | |- W _ get _ => apply W_get
  | |- W _ (ex (extract_string _)) _ => apply W_string
  | |- W _ (ex (extract_bool _)) _ => apply W_bool
  | |- W _ (ex (extract_bool_opt _)) _ => apply W_bool_opt
  | |- W _ (ex (extract_object _)) _ => apply W_object
  | |- W _ (ex (extract_object_opt _)) _ => apply W_object_opt
  | |- W _ (ex (extract_array _)) _ => apply W_array
  | |- W _ (ex (extract_field _)) _ => apply W_field
  | |- SR (tag_of _) _ => apply SR_tag
  | |- SR (into_id _) _ => apply SR_id
  | |- SR (into_patt _) _ => apply SR_patt
  | |- SR (Ok _) any => exact Logic.I
  | |- SR (Err _) _ => exact Logic.I
  | |- SR (node_type_error _ _) _ => exact Logic.I
  | |- SR (est_type_error _ _) _ => exact Logic.I
  | |- SR (and_then _ _) _ => eapply SR_and
  | |- SR (run _ _) any => eapply SR_run; [|eassumption || lia]
  | |- forall _ : _, _ => intro; cbv beta in *
  | |- W _ (match ?x with _ => _ end) _ => destruct x
  | |- SR (match ?x with _ => _ end) _ => destruct x
  end.
Ltac w := repeat w1.

Lemma W_extract_id k d : W d (extract_id k) any.
Proof. unfold extract_id. w. Qed.
Lemma W_extract_id_opt k d : W d (extract_id_opt k) any.
Proof. unfold extract_id_opt. w. Qed.
Lemma W_extract_patt k d : W d (extract_patt k) any.
Proof. unfold extract_patt. w. Qed.
Lemma W_regexp d : W d into_regexp any.
Proof.
  unfold into_regexp. w1. { w. } intros r Hr. cbv beta in Hr. w1.
  { apply (SR_pair d); [apply W_string|lia]. } intros [p r'] [H1 _]. cbn [fst snd] in H1. w1.
  { apply (SR_pair d); [apply W_string|lia]. } intros [f r''] _. w.
Qed.
Lemma SR_lit o : SR (into_lit o) any.
Proof. unfold into_lit. eapply (SR_run (odepth o)); [|lia]. w; apply W_regexp. Qed.
Lemma SR_key o : SR (into_prop_key o) any.
Proof. unfold into_prop_key. w; apply SR_lit. Qed.
Lemma SR_const ds : SR (into_const ds) any.
Proof. unfold into_const. eapply SR_any. apply (SR_map _ _ any). intros d _. w. Qed.
Lemma W_params k d : W d (extract_params k) any.
Proof.
  unfold extract_params. w1; [w|]. intros l Hl. w1; [apply (SR_objects _ d Hl)|]. intros os Hos. w1.
  - instantiate (1 := any). destruct (rev os) as [|x xs] eqn:E; w.
    eapply (SR_run d); [apply W_extract_patt|]. rewrite Forall_forall in Hos.
    assert (In x os) as Hx by (apply in_rev; rewrite E; now left). specialize (Hos x Hx). cbv beta in Hos. lia.
  - intros [objs rest] _. w1; [apply (SR_map _ _ any); intros; apply SR_patt|]. intros ps _. w.
Qed.

Section Step.
Variable R : est_rec.
Variable d : nat.
Hypothesis HE : forall o, odepth o < d -> SR (r_expr R o) any.
Hypothesis HI : forall b o, odepth o < d -> SR (r_item R b o) any.
Hypothesis HS : forall o i, r_item R false o = Ok i -> exists s, i = I_Stmt s.

Lemma SR_stmt o : odepth o < d -> SR (into_stmt R o) any.
Proof.
  intros Ho. unfold into_stmt. specialize (HI false o Ho). destruct (r_item R false o) as [i| | |] eqn:E; cbn in *; auto.
  destruct (HS _ _ E) as [s ->]. exact Logic.I.
Qed.
Ltac w2 := match goal with
  | |- SR (r_expr R _) _ => apply HE; first [assumption|lia]
  | |- SR (into_stmt R _) _ => apply SR_stmt; first [assumption|lia]
  | |- SR (into_lit _) _ => apply SR_lit
  | |- SR (into_prop_key _) _ => apply SR_key
  | |- SR (into_const _) _ => apply SR_const
  | H : forall y, Some ?x = Some y -> _ |- _ => specialize (H x eq_refl)
  | |- W _ (extract_id _) _ => apply W_extract_id
  | |- W _ (extract_id_opt _) _ => apply W_extract_id_opt
  | |- W _ (extract_patt _) _ => apply W_extract_patt
  | |- W _ (extract_params _) _ => apply W_params
  end.
Ltac ww := repeat (w1 || w2).

Lemma W_expr k : W d (extract_expr R k) any.
Proof. unfold extract_expr. ww. Qed.
Lemma W_expr_opt k : W d (extract_expr_opt R k) any.
Proof. unfold extract_expr_opt. ww. Qed.
Lemma W_target k : W d (extract_assign_target R k) any.
Proof. unfold extract_assign_target. w1; [apply W_expr|]. ww. Qed.
Lemma W_tpatt k : W d (extract_assign_patt R k) any.
Proof. unfold extract_assign_patt. w1; [apply W_expr|]. ww. Qed.
Lemma W_stmt k : W d (extract_stmt R k) any.
Proof. unfold extract_stmt. ww. Qed.
Lemma W_stmt_opt k : W d (extract_stmt_opt R k) any.
Proof. unfold extract_stmt_opt. ww. Qed.
Lemma SR_eli o : odepth o < d -> SR (into_expr_list_item R o) any.
Proof.
  intros Ho. unfold into_expr_list_item. ww.
  eapply (SR_run d); [apply W_expr|lia].
Qed.
Lemma W_expr_list k : W d (extract_expr_list R k) any.
Proof. apply W_list, SR_eli. Qed.
Lemma W_exprs k : W d (extract_exprs R k) any.
Proof. apply W_list, HE. Qed.
Lemma W_stmt_list k : W d (extract_stmt_list R k) any.
Proof. apply W_list, HI. Qed.
Lemma W_holes k : W d (extract_expr_opt_list R k) any.
Proof.
  unfold extract_expr_opt_list. w1; [w|]. intros l Hl. apply W_lift. eapply SR_any. apply (SR_map _ _ any).
  intros j Hj. specialize (Hl j Hj). destruct j; cbn; try exact Logic.I.
  eapply SR_and; [apply SR_eli; exact Hl|]. intros; exact Logic.I.
Qed.
Lemma W_script k : W d (extract_script R k) any.
Proof. unfold extract_script. w1; [apply W_stmt_list|]. ww. Qed.
Lemma SR_fun {I} o (i : I) : odepth o <= d -> SR (into_fun R o i) any.
Proof.
  intros Ho. unfold into_fun. eapply (SR_run d); [|exact Ho]. ww.
  eapply (SR_run d); [apply W_script|lia].
Qed.
Lemma SR_block o : odepth o <= d -> SR (into_block R o) any.
Proof. intros Ho. unfold into_block. ww. eapply (SR_run d); [apply W_stmt_list|lia]. Qed.
Lemma W_block k : W d (extract_block R k) any.
Proof. unfold extract_block. ww. apply SR_block. lia. Qed.
Lemma SR_case o : odepth o <= d -> SR (into_case R o) any.
Proof. intros Ho. unfold into_case. eapply (SR_run d); [|exact Ho]. w1; [apply W_expr_opt|]. intros t _.
  w1; [apply W_stmt_list|]. ww. Qed.
Lemma SR_catch o : odepth o <= d -> SR (into_catch R o) any.
Proof. intros Ho. unfold into_catch. eapply (SR_run d); [|exact Ho]. ww. apply W_block. Qed.
Lemma W_catch_opt k : W d (extract_catch_opt R k) any.
Proof. unfold extract_catch_opt. ww. apply SR_catch. lia. Qed.
Lemma SR_dtor o : odepth o <= d -> SR (into_dtor R o) any.
Proof. intros Ho. unfold into_dtor. eapply (SR_run d); [|exact Ho]. ww. apply W_expr_opt. Qed.
Lemma SR_prop o : odepth o <= d -> SR (into_prop R o) any.
Proof.
  intros Ho. unfold into_prop. cbv zeta. eapply (SR_run d); [|exact Ho].
  w1; [w|]. intros key Hkey. w1; [w|]. intros val Hval. cbv beta in Hkey, Hval. w1; [w|]. intros kind _.
  destruct (str_eqb kind _); [|destruct (str_eqb kind _); [|destruct (str_eqb kind _)]].
  - ww. apply SR_fun. lia.
  - w1. { apply (SR_pair d); [apply W_object|lia]. } intros [b v'] [_ Hb]. cbn [fst snd] in Hb. w1.
    { eapply (SR_run d); [apply W_script|lia]. } ww.
  - w1; [apply SR_fun; lia|]. intros f _. ww.
  - ww.
Qed.

Ltac w3 := match goal with
  | |- W _ (extract_expr R _) _ => apply W_expr
  | |- W _ (extract_expr_opt R _) _ => apply W_expr_opt
  | |- W _ (extract_assign_target R _) _ => apply W_target
  | |- W _ (extract_assign_patt R _) _ => apply W_tpatt
  | |- W _ (extract_stmt R _) _ => apply W_stmt
  | |- W _ (extract_stmt_opt R _) _ => apply W_stmt_opt
  | |- W _ (extract_expr_list R _) _ => apply W_expr_list
  | |- W _ (extract_exprs R _) _ => apply W_exprs
  | |- W _ (extract_expr_opt_list R _) _ => apply W_holes
  | |- W _ (extract_stmt_list R _) _ => apply W_stmt_list
  | |- W _ (extract_prop_list R _) _ => apply W_list; intros; apply SR_prop; lia
  | |- W _ (extract_case_list R _) _ => apply W_list; intros; apply SR_case; lia
  | |- W _ (extract_dtor_list R _) _ => apply W_list; intros; apply SR_dtor; lia
  | |- W _ (extract_catch_opt R _) _ => apply W_catch_opt
  | |- W _ (extract_block R _) _ => apply W_block
  | |- SR (into_fun R _ _) _ => apply SR_fun; lia
  | |- SR (into_block R _) _ => apply SR_block; lia
  end.
Ltac www := repeat (w1 || w2 || w3).

Lemma SR_expr_body o : odepth o <= d -> SR (into_expr_body R o) any.
Proof.
  intros Ho. unfold into_expr_body. eapply SR_and; [apply SR_tag|]. intros t _. eapply (SR_run d); [|exact Ho].
  destruct t; www.
Qed.
Lemma SR_for_head o : odepth o < d -> SR (into_for_head R o) any.
Proof.
  intros Ho. unfold into_for_head. eapply SR_and; [apply SR_tag|]. intros t _.
  destruct t; try solve [www]. eapply (SR_run d); [|lia]. www.
Qed.
Lemma SR_for_in_head o : odepth o < d -> SR (into_for_in_head R o) any.
Proof.
  intros Ho. unfold into_for_in_head. eapply SR_and; [apply SR_tag|]. intros t _.
  destruct t; try solve [www]. eapply (SR_run d); [|lia]. w1; [w|]. intros ds Hds. cbv beta in Hds.
  w1; [w|]. intros kind _. destruct ds as [|x [|? ?]]; [www| |www]. specialize (Hds x (or_introl eq_refl)). w1.
  { instantiate (1 := fun y => odepth y < d). destruct x; cbn in *; try exact Logic.I. exact Hds. }
  intros y Hy. cbv beta in Hy. w1. { apply (SR_pair d); [apply W_extract_patt|lia]. } intros [lhs y'] [Hy' _].
  cbn [fst snd] in Hy'. w1. { apply (SR_pair d); [apply W_expr_opt|lia]. } intros [init y2] _. www.
Qed.
Lemma SR_for_of_head o : odepth o < d -> SR (into_for_of_head R o) any.
Proof.
  intros Ho. unfold into_for_of_head. eapply SR_and; [apply SR_tag|]. intros t _.
  destruct t; try solve [www]. eapply (SR_run d); [|lia]. w1; [w|]. intros ds Hds. cbv beta in Hds.
  w1; [w|]. intros kind _. destruct ds as [|x [|? ?]]; [www| |www]. specialize (Hds x (or_introl eq_refl)). w1.
  { instantiate (1 := fun y => odepth y < d). destruct x; cbn in *; try exact Logic.I. exact Hds. }
  intros y Hy. cbv beta in Hy. w1. { apply (SR_pair d); [apply W_extract_patt|lia]. } intros [lhs y'] _. www.
Qed.
Lemma SR_item_body b o : odepth o <= d -> SR (into_item_body R b o) any.
Proof.
  intros Ho. unfold into_item_body. eapply SR_and; [apply SR_tag|]. intros t _. cbv zeta.
  eapply (SR_run d); [|exact Ho].
  destruct t; try solve [www].
  - www; apply SR_for_head; assumption.
  - www; apply SR_for_in_head; assumption.
  - www; apply SR_for_of_head; assumption.
Qed.
End Step.

Theorem conv_safe n : (forall o, odepth o <= n -> SR (r_expr (est_rec_of n) o) any)
  /\ (forall b o, odepth o <= n -> SR (r_item (est_rec_of n) b o) any).
Proof.
  induction n as [|n [IH1 IH2]].
  - split; intros; rewrite odepth_eq in *; lia.
  - assert (HS : forall o i, r_item (est_rec_of n) false o = Ok i -> exists s, i = I_Stmt s).
    { intros o i H. destruct (conv_sound n) as [_ X]. exact (proj2 (X false o i H) eq_refl). }
    split; cbn [est_rec_of r_expr r_item]; intros.
    + apply (SR_expr_body _ (S n)); auto; intros; [apply IH1|apply IH2]; lia.
    + apply (SR_item_body _ (S n)); auto; intros; [apply IH1|apply IH2]; lia.
Qed.

Theorem into_script_safe o : SR (into_script o) any.
Proof.
  unfold into_script. destruct (conv_safe (json_depth (J_Object o))) as [H1 H2].
  eapply (SR_run (odepth o)); [|lia]. apply W_script. intros b x Hx. apply H2. unfold odepth in *. lia.
Qed.
