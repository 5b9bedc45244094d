(** Every error of the ESTree conversion describes a fault of the document. *)
From Coq Require Import String Ascii List NArith ZArith Bool Lia.
From Verif Require Import Base F64 Word Token Punc Ast Track Node SpecTree Cover CoverProofs NodeProofs
  LexTheorems PropTree Unjson Estree SpecEstree SpecBlame EstreeProofs EstreeConv.
Import ListNotations.
Local Open Scope nat_scope.
Local Arguments lit _ : simpl never.
Local Arguments ex {A} m _ : simpl never.

(** Fields removed from an object *)
Definition drop (ks : list string) (o : object) : object := fold_right (fun k o => without (lit k) o) o ks.
Definition fresh (k : string) (ks : list string) : Prop := existsb (String.eqb k) ks = false.
Lemma lookup_drop k ks o : fresh k ks -> lookup (lit k) (drop ks o) = lookup (lit k) o.
Proof.
  unfold fresh. induction ks as [|k' ks IH]; [reflexivity|]. cbn. intros H. apply orb_false_iff in H as [H1 H2].
  rewrite lookup_without; [auto|]. apply str_eqb_ne. intros E. apply lit_inj in E. subst.
  now rewrite String.eqb_refl in H1.
Qed.
Lemma has_fun o k v w : has o k v -> has o k w -> v = w.
Proof. intros H1 H2. apply has_lookup in H1. apply has_lookup in H2. congruence. Qed.
Lemma lacks_none o k : lookup (lit k) o = None -> lacks o k.
Proof. intros H v Hv. apply has_lookup in Hv. congruence. Qed.
Lemma typed_fun o s t : typed o s -> typed o t -> s = t.
Proof. intros H1 H2. pose proof (has_fun _ _ _ _ H1 H2) as E. injection E as E. now apply lit_inj. Qed.

Lemma type_error_mismatch {A} w v e : type_error (A := A) w v = Err e -> mismatch w v e.
Proof. intros H. injection H as <-. destruct v; do 2 eexists; repeat split; constructor. Qed.

Section Doc.
Variable D : object.

Definition B {A} (r : eres A) (Q : A -> Prop) : Prop :=
  match r with Ok a => Q a | Err e => fault D e | _ => True end.
(** From [o] without [ks] to [o] without [ks1]; [BT]: to anything. *)
Definition BX {A} (o : object) (ks : list string) (m : eM A) (ks1 : list string) (Q : A -> Prop) : Prop :=
  B (m (drop ks o)) (fun p => snd p = drop ks1 o /\ Q (fst p)).
Definition BT {A} (o : object) (ks : list string) (m : eM A) (Q : A -> Prop) : Prop :=
  B (m (drop ks o)) (fun p => Q (fst p)).
Definition any {A} (_ : A) : Prop := True.

Lemma B_weaken {A} (r : eres A) (P Q : A -> Prop) : B r P -> (forall a, P a -> Q a) -> B r Q.
Proof. destruct r; cbn; auto. Qed.
Lemma B_and {A C} (r : eres A) (f : A -> eres C) P Q :
  B r P -> (forall a, P a -> B (f a) Q) -> B (and_then r f) Q.
Proof. intros H I. destruct r; cbn in *; auto. Qed.
Lemma BX_bind {A C} o ks ks1 ks2 (m : eM A) (f : A -> eM C) P Q :
  BX o ks m ks1 P -> (forall a, P a -> BX o ks1 (f a) ks2 Q) -> BX o ks (bind m f) ks2 Q.
Proof.
  unfold BX, bind. intros H I. destruct (m (drop ks o)) as [[a o']| | |]; cbn in *; auto.
  destruct H as [-> H]. auto.
Qed.
Lemma BT_bind {A C} o ks ks1 (m : eM A) (f : A -> eM C) P Q :
  BX o ks m ks1 P -> (forall a, P a -> BT o ks1 (f a) Q) -> BT o ks (bind m f) Q.
Proof.
  unfold BX, BT, bind. intros H I. destruct (m (drop ks o)) as [[a o']| | |]; cbn in *; auto.
  destruct H as [-> H]. auto.
Qed.
Lemma BX_ret {A} o ks (a : A) (Q : A -> Prop) : Q a -> BX o ks (ret a) ks Q.
Proof. now split. Qed.
Lemma BT_ret {A} o ks (a : A) (Q : A -> Prop) : Q a -> BT o ks (ret a) Q.
Proof. intros H. exact H. Qed.
Lemma BT_err {A} o ks e (Q : A -> Prop) : fault D e -> BT o ks (err e) Q.
Proof. intros H. exact H. Qed.
Lemma BX_lift {A} o ks (r : eres A) Q : B r Q -> BX o ks (lift r) ks Q.
Proof. unfold BX, lift. destruct r; cbn; auto. Qed.
Lemma BT_lift {A} o ks (r : eres A) Q : B r Q -> BT o ks (lift r) Q.
Proof. unfold BT, lift. destruct r; cbn; auto. Qed.
Lemma BX_get o ks : BX o ks (get : eM object) ks (fun s => s = drop ks o).
Proof. now split. Qed.
Lemma B_run {A} (m : eM A) o ks Q : BT o ks m Q -> B (run m (drop ks o)) Q.
Proof. unfold BT, run. destruct (m (drop ks o)) as [[a o']| | |]; cbn; auto. Qed.
Lemma B_run0 {A} (m : eM A) o Q : BT o [] m Q -> B (run m o) Q.
Proof. exact (B_run m o [] Q). Qed.
Lemma BX_T {A} o ks ks1 (m : eM A) (P Q : A -> Prop) : BX o ks m ks1 P -> (forall a, P a -> Q a) -> BT o ks m Q.
Proof. unfold BX, BT. intros H I. destruct (m (drop ks o)) as [[a o']| | |]; cbn in *; auto. apply I, H. Qed.
(* an inner object, whose rest is kept *)
Lemma BX_pair {A} x o ks ks' ks1 (m : eM A) P : BX x ks' m ks1 P ->
  BX o ks (lift (m (drop ks' x))) ks (fun p => snd p = drop ks1 x /\ P (fst p)).
Proof. intros H. apply BX_lift. exact H. Qed.

Lemma BX_as {A} (f : json -> jres A) o ks r k kd (Q : A -> Prop) : part D r o -> asks r o k kd -> fresh k ks ->
  (forall v, has o k v -> match f v with
     | Ok a => Q a | Err e => ~ holds kd v /\ mismatch (wording kd) v e | _ => True end) ->
  BX o ks (ex (extract_as f (lit k))) (k :: ks) Q.
Proof.
  intros P K F H. unfold BX, ex, extract_as, bind, extract_field. rewrite (lookup_drop _ _ _ F).
  destruct (lookup (lit k) o) as [v|] eqn:L.
  - apply has_lookup in L. specialize (H v L). unfold lift. destruct (f v) as [a|e| |]; cbn; auto.
    destruct H as [H1 H2]. eapply F_type; eauto.
  - cbn. eapply F_missing; eauto. now apply lacks_none.
Qed.
Ltac mism := split; [intros HH; cbn in HH; repeat match goal with
    | H : _ \/ _ |- _ => destruct H as [H|H] | H : exists _, _ |- _ => destruct H as [? H] end; discriminate
  | now apply (@type_error_mismatch unit)].
Lemma BX_string o ks r k : part D r o -> asks r o k K_string -> fresh k ks ->
  BX o ks (ex (extract_string (lit k))) (k :: ks) (fun s => has o k (J_String s)).
Proof. intros P K F. eapply BX_as; eauto. intros v Hv. destruct v; cbn [into_string]; try exact Hv; mism. Qed.
Lemma BX_bool o ks r k : part D r o -> asks r o k K_bool -> fresh k ks ->
  BX o ks (ex (extract_bool (lit k))) (k :: ks) (fun b => flag o k b).
Proof. intros P K F. eapply BX_as; eauto. intros v Hv. destruct v; cbn [to_bool]; try exact Hv; mism. Qed.
Lemma BX_flag o ks r k : part D r o -> asks r o k K_flag -> fresh k ks ->
  BX o ks (ex (extract_bool_opt (lit k))) (k :: ks) any.
Proof. intros P K F. eapply BX_as; eauto. intros v Hv. destruct v; cbn [to_bool_opt]; try exact Logic.I; mism. Qed.
Lemma BX_object r' o ks r k : part D r o -> asks r o k (K_object r') -> fresh k ks ->
  BX o ks (ex (extract_object (lit k))) (k :: ks) (fun x => has o k (J_Object x) /\ part D r' x).
Proof.
  intros P K F. eapply BX_as; eauto. intros v Hv. destruct v; cbn [into_object]; try mism.
  split; [exact Hv|]. eapply P_object; eauto.
Qed.
Lemma BX_object_opt r' o ks r k : part D r o -> asks r o k (K_object_opt r') -> fresh k ks ->
  BX o ks (ex (extract_object_opt (lit k))) (k :: ks)
    (fun x => match x with Some x => has o k (J_Object x) /\ part D r' x | None => has o k J_Null end).
Proof.
  intros P K F. eapply BX_as; eauto. intros v Hv. destruct v; cbn [into_object_opt]; try mism; try exact Hv.
  split; [exact Hv|]. eapply P_object; eauto.
Qed.
Lemma BX_array o ks r k kd : part D r o -> asks r o k kd -> wording kd = "array"%string ->
  (forall v, holds kd v <-> exists a, v = J_Array a) -> fresh k ks ->
  BX o ks (ex (extract_array (lit k))) (k :: ks) (fun l => has o k (J_Array l)).
Proof.
  intros P K W H F. eapply BX_as; eauto. intros v Hv. specialize (H v).
  destruct v; cbn [into_array type_error]; try exact Hv;
    (rewrite W, H; split; [intros [? X]; discriminate X|now apply (@type_error_mismatch unit)]).
Qed.
Lemma BX_field o ks r k kd : part D r o -> asks r o k kd -> fresh k ks ->
  BX o ks (ex (extract_field (lit k))) (k :: ks) (fun v => has o k v).
Proof.
  intros P K F. unfold BX, ex, extract_field. rewrite (lookup_drop _ _ _ F).
  destruct (lookup (lit k) o) as [v|] eqn:L; cbn.
  - split; [reflexivity|]. now apply has_lookup.
  - eapply F_missing; eauto. now apply lacks_none.
Qed.

Lemma B_tag r o : part D r o -> has_type r = true ->
  B (tag_of o) (fun t => has o "type" (J_String (tag_text t)) /\ exists n, In n node_types /\ tag_text t = lit n).
Proof.
  intros P T. pose proof (A_type r o T) as K. unfold tag_of, get_string, get_as, get_field.
  destruct (lookup (lit "type") o) as [v|] eqn:L.
  - apply has_lookup in L. destruct v as [|b|z|n|fl|s|l|x]; cbn [and_then into_string from_json type_error B];
      try (eapply (F_type D r o "type" K_string); [exact P|exact K|exact L|intros [? X]; discriminate X
           |now apply (@type_error_mismatch unit)]).
    destruct (tag_from_str s) as [t|] eqn:E; cbn.
    + apply tag_text_iff in E. subst s. split; [exact L|apply tag_text_in].
    + eapply F_tag; eauto. intros n Hn ->. destruct (node_type_tag n Hn) as (t & Ht).
      apply tag_text_iff in Ht. congruence.
  - eapply F_missing; eauto. now apply lacks_none.
Qed.
Lemma B_map {A C} (f : A -> eres C) l Q : (forall a, In a l -> B (f a) (Q a)) -> B (map_res f l) (Forall2 Q l).
Proof.
  induction l as [|a l IH]; intros H; [constructor|]. cbn [map_res].
  eapply B_and; [apply H; now left|]. intros b Hb. eapply B_and; [apply IH; intros; apply H; now right|].
  intros bs Hbs. now constructor.
Qed.
Lemma B_objects o k r l : part D r o -> (exists r', asks r o k (K_list r')) \/ asks r o k K_params ->
  has o k (J_Array l) -> B (into_objects l) (fun os => l = map J_Object os).
Proof.
  intros P K H. unfold into_objects.
  assert (X : B (map_res (fun v => from_json (into_object v)) l) (Forall2 (fun v x => v = J_Object x) l)).
  { apply B_map. intros v Hv.
    assert (G : (forall x, v <> J_Object x) -> forall e, mismatch "object" v e -> fault D (EE_Json e)).
    { intros N e M. destruct K as [[r' K]|K]; [eapply (F_element D r o k r')|eapply (F_element D r o k R_any)]; eauto. }
    destruct v; cbn [into_object from_json B type_error]; try reflexivity;
      (eapply G; [discriminate|now apply (@type_error_mismatch unit)]). }
  eapply B_weaken; [exact X|]. intros os F. clear - F. induction F; cbn; [reflexivity|]. now subst.
Qed.
Lemma BX_list {A} r' (f : object -> eres A) o ks r k Q : part D r o -> asks r o k (K_list r') -> fresh k ks ->
  (forall x, part D r' x -> B (f x) (Q x)) ->
  BX o ks (extract_list f (lit k)) (k :: ks)
    (fun l => exists os, has o k (J_Array (map J_Object os)) /\ Forall2 Q os l).
Proof.
  intros P K F H. unfold extract_list. eapply BX_bind.
  - eapply (BX_array o ks r k (K_list r')); eauto; reflexivity.
  - intros l Hl. cbv beta in Hl. eapply BX_bind; [apply BX_lift; eapply B_objects; eauto|].
    intros os ->. apply BX_lift. eapply B_weaken.
    + apply (B_map f os Q). intros x Hx. apply H. eapply P_element; eauto. now apply in_map.
    + intros bs Hbs. eauto.
Qed.

Lemma node_fault r o wanted l t : part D r o -> admits r wanted l ->
  has o "type" (J_String (tag_text t)) -> (forall n, In n l -> tag_text t <> lit n) ->
  fault D (EE_NodeTypeMismatch (lit wanted) t).
Proof.
  intros P Ad H N. destruct (tag_text_in t) as (n & _ & E). eapply (F_node D r o wanted l n); eauto.
  - unfold typed. now rewrite <- E.
  - intros I. exact (N n I E).
Qed.
Lemma B_id o : part D R_id o -> B (into_id o) (fun i => est_id o i).
Proof.
  intros P. destruct (into_id o) as [i|e| |] eqn:E; [now apply into_id_iff| |exact Logic.I|exact Logic.I].
  change (B (Err e : eres id) any). rewrite <- E. unfold into_id. apply B_run0. eapply BT_bind.
  - apply BX_lift. apply (B_tag R_id o P eq_refl).
  - intros t [Ht _]. destruct (tag_eqb t Tg_Identifier) eqn:T; cbn [negb].
    + apply tag_eqb_iff in T. subst t. eapply BT_bind.
      * eapply BX_string; [exact P|now apply A_name|reflexivity].
      * intros s _. apply BT_ret. exact Logic.I.
    + apply BT_lift. cbn. eapply node_fault; [exact P|constructor|exact Ht|].
      intros n [<-|[]] E'. change (lit "Identifier") with (tag_text Tg_Identifier) in E'.
      assert (t = Tg_Identifier).
      { pose proof (proj2 (tag_text_iff (tag_text Tg_Identifier) t) E') as X1.
        pose proof (proj2 (tag_text_iff (tag_text Tg_Identifier) Tg_Identifier) eq_refl) as X2. congruence. }
      subst. rewrite (proj2 (tag_eqb_iff _ _) eq_refl) in T. discriminate.
Qed.
Lemma B_patt o : part D R_id o -> B (into_patt o) (fun p => exists i, p = Simple i /\ est_id o i).
Proof.
  intros P. unfold into_patt. eapply B_and; [now apply B_id|]. intros i Hi. cbn. eauto.
Qed.
Lemma BX_id o ks r k : part D r o -> asks r o k (K_object R_id) -> fresh k ks ->
  BX o ks (extract_id (lit k)) (k :: ks) (fun i => est_id_at o k i).
Proof.
  intros P K F. unfold extract_id. eapply BX_bind; [eapply BX_object; eauto|]. intros x [Hx Px].
  apply BX_lift. eapply B_weaken; [now apply B_id|]. intros i Hi. econstructor; eauto.
Qed.
Lemma BX_id_opt o ks r k : part D r o -> asks r o k (K_object_opt R_id) -> fresh k ks ->
  BX o ks (extract_id_opt (lit k)) (k :: ks) any.
Proof.
  intros P K F. unfold extract_id_opt. eapply BX_bind; [eapply BX_object_opt; eauto|]. intros [x|] Hx.
  - destruct Hx as [Hx Px]. eapply BX_bind; [apply BX_lift; now apply B_id|]. intros i _. apply BX_ret. exact Logic.I.
  - apply BX_ret. exact Logic.I.
Qed.
Lemma BX_patt o ks r k : part D r o -> asks r o k (K_object R_id) -> fresh k ks ->
  BX o ks (extract_patt (lit k)) (k :: ks) (fun p => exists i, p = Simple i /\ est_id_at o k i).
Proof.
  intros P K F. unfold extract_patt. eapply BX_bind; [eapply BX_object; eauto|]. intros x [Hx Px].
  apply BX_lift. eapply B_weaken; [now apply B_patt|]. intros p (i & -> & Hi). exists i. split; [reflexivity|].
  econstructor; eauto.
Qed.

Lemma BX_regexp o ks : part D R_lit o -> asks R_lit o "regex" (K_object R_regex) -> fresh "regex" ks ->
  BX o ks into_regexp ("regex"%string :: ks) any.
Proof.
  intros P K F. unfold into_regexp. eapply BX_bind; [eapply BX_object; eauto|]. intros x [Hx Px].
  eapply BX_bind.
  { apply (BX_pair x o _ [] ["pattern"%string]). eapply BX_string; [exact Px|constructor|reflexivity]. }
  intros [p x'] [E _]. cbn [snd] in E. subst x'. eapply BX_bind.
  { apply (BX_pair x o _ ["pattern"%string] ["flags"; "pattern"]%string).
    eapply BX_string; [exact Px|constructor|reflexivity]. }
  intros [fl x'] _. apply BX_ret. exact Logic.I.
Qed.
Lemma B_lit o : part D R_lit o -> B (into_lit o) (fun e => est_value o e).
Proof.
  intros P. destruct (into_lit o) as [e|er| |] eqn:E; [now apply into_lit_iff| |exact Logic.I|exact Logic.I].
  change (B (Err er : eres expr) any). rewrite <- E. clear E. unfold into_lit. apply B_run0. eapply BT_bind.
  { eapply BX_field; [exact P|constructor|reflexivity]. }
  intros v Hv. cbv beta in Hv. eapply BT_bind; [apply BX_get|]. intros s ->. destruct v as [|[]| | | | |a|x];
    try (apply BT_ret; exact Logic.I).
  - destruct (contains_key (lit "regex") (drop ["value"%string] o)) eqn:C; cbn [negb]; [|apply BT_ret; exact Logic.I].
    eapply BX_T; [apply BX_regexp|intros; exact Logic.I]; [exact P| |reflexivity]. constructor. left. split; [exact Hv|].
    intros N. apply lacks_lookup in N. unfold contains_key in *. rewrite lookup_drop in C by reflexivity.
    destruct (lookup (lit "regex") o); discriminate.
  - apply BT_lift. cbn. eapply F_value; eauto. now apply (@type_error_mismatch unit).
  - eapply BX_T; [apply BX_regexp|intros; exact Logic.I]; [exact P| |reflexivity]. constructor. right. eauto.
Qed.
Lemma tag_ne o t n : has o "type" (J_String (tag_text t)) -> tag_text t <> lit n -> ~ typed o n.
Proof. intros H N T. apply N. pose proof (has_fun _ _ _ _ H T) as E. congruence. Qed.
Lemma tag_differs a b : a <> b -> tag_text a <> tag_text b.
Proof.
  intros N E. apply N. pose proof (proj2 (tag_text_iff (tag_text b) a) E) as X1.
  pose proof (proj2 (tag_text_iff (tag_text b) b) eq_refl) as X2. congruence.
Qed.
Lemma B_key o : part D R_key o -> B (into_prop_key o) any.
Proof.
  intros P. unfold into_prop_key. eapply B_and; [apply (B_tag R_key o P eq_refl)|]. intros t [Ht _].
  destruct (tag_eqb t Tg_Identifier) eqn:T.
  - apply tag_eqb_iff in T. subst t. eapply B_and; [apply B_id; eapply P_also; [exact P|constructor; [cbn; tauto|exact Ht]]|].
    intros; exact Logic.I.
  - assert (N : ~ typed o "Identifier").
    { eapply tag_ne; [exact Ht|]. apply (tag_differs t Tg_Identifier). intros ->.
      rewrite (proj2 (tag_eqb_iff _ _) eq_refl) in T. discriminate. }
    eapply B_and; [apply B_lit; eapply P_also; [exact P|now constructor]|].
    intros e He. assert (G : (forall n, e <> E_Number None n) -> (forall s, e <> E_String None s) ->
        fault D (EE_Json (TypeMismatch (lit "identifier, number literal, or string literal") Ty_Object))).
    { intros G1 G2. eapply F_key; [exact P|exact N| |do 2 eexists; repeat split; constructor].
      intros v Hv. inversion He; subst; try (exfalso; first [eapply G1; reflexivity|eapply G2; reflexivity]);
        try match goal with H : has _ "value" J_Null \/ _ |- _ => destruct H as [H|[? H]] end;
        match goal with H : has _ "value" _ |- _ => pose proof (has_fun _ _ _ _ Hv H); subst v end;
        split; intros X; inversion X. }
    inversion He; subst; cbn; try exact Logic.I; apply G; discriminate.
Qed.

Lemma BX_params o ks r k : part D r o -> asks r o k K_params -> fresh k ks ->
  BX o ks (extract_params (lit k)) (k :: ks) any.
Proof.
  intros P K F. unfold extract_params. eapply BX_bind.
  { eapply (BX_array o ks r k K_params); eauto; reflexivity. }
  intros l Hl. cbv beta in Hl. eapply BX_bind; [apply BX_lift; eapply B_objects; eauto|].
  intros os ->. cbv beta.
  eapply (BX_bind _ _ _ _ _ _ (fun x => forall y, In y (fst x) -> part D R_id y)).
  - destruct (rev os) as [|x xs] eqn:E.
    + apply BX_ret. cbn. intros y Hy. apply in_rev in Hy. rewrite E in Hy. destruct Hy.
    + assert (Eos : os = rev xs ++ [x]) by (rewrite <- (rev_involutive os), E; reflexivity).
      assert (PL : part D R_last x).
      { eapply (P_last D r o k (map J_Object (rev xs)) x); eauto. rewrite Eos, map_app in Hl. exact Hl. }
      assert (PB : forall y, In y (rev xs) -> part D R_id y).
      { intros y Hy. apply in_split in Hy as (l1 & l2 & E2). rewrite Eos, E2 in Hl.
        rewrite <- app_assoc, <- app_comm_cons, map_app in Hl. cbn [map] in Hl.
        eapply (P_param D r o k _ y); eauto. intros Z. destruct l2; discriminate Z. }
      eapply BX_bind; [apply BX_lift; apply (B_tag R_last x PL eq_refl)|]. intros t [Ht _].
      destruct (tag_eqb t Tg_RestElement) eqn:T.
      * apply tag_eqb_iff in T. subst t. eapply BX_bind.
        { apply BX_lift. apply (B_run0 _ x any). eapply BX_T; [eapply BX_patt|intros; exact Logic.I];
            [exact PL|now constructor|reflexivity]. }
        intros p _. apply BX_ret. exact PB.
      * apply BX_ret. cbn. intros y Hy. rewrite Eos in Hy. apply in_app_or in Hy as [Hy|[<-|[]]]; [auto|].
        rewrite Eos, map_app in Hl. eapply (P_param D r o k _ x []); eauto. intros _.
        eapply tag_ne; [exact Ht|]. apply (tag_differs t Tg_RestElement). intros ->.
        rewrite (proj2 (tag_eqb_iff _ _) eq_refl) in T. discriminate.
  - intros [objs rest] H. cbn [fst] in H. cbv beta. eapply BX_bind.
    { apply BX_lift. apply (B_map into_patt objs (fun _ _ => True)). intros y Hy. eapply B_weaken; [apply B_patt; auto|].
      intros; exact Logic.I. }
    intros ps _. apply BX_ret. exact Logic.I.
Qed.
Lemma BX_parameters o ks r k : part D r o -> asks r o k K_params -> fresh k ks ->
  BX o ks (extract_params (lit k)) (k :: ks) (fun ps => exists js, has o k (J_Array js) /\ est_params js ps).
Proof.
  intros P K F. pose proof (BX_params o ks r k P K F) as X. unfold BX in *.
  destruct (extract_params (lit k) (drop ks o)) as [[ps o']| | |] eqn:E; cbn in *; auto. destruct X as [X _].
  split; [exact X|]. apply extract_params_iff in E as (js & Hj & E & _). exists js. split; [|exact E].
  apply has_lookup in Hj. rewrite (lookup_drop _ _ _ F) in Hj. now apply has_lookup.
Qed.

Section Step.
Variable R : est_rec.
Hypothesis HE : forall o, part D R_expr o -> B (r_expr R o) (fun e => est false o (N_expr e)).
Hypothesis HI : forall b o, part D (R_item b) o -> B (r_item R b o) any.

Lemma B_stmt o : part D (R_item false) o -> B (into_stmt R o) any.
Proof.
  intros P. unfold into_stmt. eapply B_and; [now apply HI|]. intros [s|dd] _; exact Logic.I.
Qed.
Lemma BX_expr o ks r k : part D r o -> asks r o k (K_object R_expr) -> fresh k ks ->
  BX o ks (extract_expr R (lit k)) (k :: ks) (fun e => exists x, has o k (J_Object x) /\ est false x (N_expr e)).
Proof.
  intros P K F. unfold extract_expr. eapply BX_bind; [eapply BX_object; eauto|]. intros x [Hx Px].
  apply BX_lift. eapply B_weaken; [now apply HE|]. intros e He. eauto.
Qed.
Lemma BX_expr_opt o ks r k : part D r o -> asks r o k (K_object_opt R_expr) -> fresh k ks ->
  BX o ks (extract_expr_opt R (lit k)) (k :: ks) (fun e => match e with
    | Some e => exists x, has o k (J_Object x) /\ est false x (N_expr e) | None => has o k J_Null end).
Proof.
  intros P K F. unfold extract_expr_opt. eapply BX_bind; [eapply BX_object_opt; eauto|]. intros [x|] Hx.
  - destruct Hx as [Hx Px]. eapply BX_bind; [apply BX_lift; now apply HE|]. intros e He. apply BX_ret. eauto.
  - apply BX_ret. exact Hx.
Qed.
Lemma BX_target o ks r k : part D r o -> asks r o k (K_object R_expr) -> fresh k ks ->
  (forall x e, has o k (J_Object x) -> est false x (N_expr e) -> (forall t, e <> target_expr t) -> bad_left r o k) ->
  BX o ks (extract_assign_target R (lit k)) (k :: ks) any.
Proof.
  intros P K F N. unfold extract_assign_target. eapply BX_bind; [eapply BX_expr; eauto|]. intros e (x & Hx & He).
  destruct (into_assign_target e) as [er|t] eqn:E; [|apply BX_ret; exact Logic.I].
  unfold BX, err. cbn. eapply F_left; [exact P|]. eapply N; eauto. intros t ->.
  pose proof (proj2 (target_iff _ t) eq_refl). congruence.
Qed.
Lemma BX_tpatt o ks r k : part D r o -> asks r o k (K_object R_expr) -> fresh k ks ->
  (forall x e, has o k (J_Object x) -> est false x (N_expr e) ->
     (forall p, rests_unlocated p -> e <> patt_expr p) -> bad_left r o k) ->
  BX o ks (extract_assign_patt R (lit k)) (k :: ks) any.
Proof.
  intros P K F N. unfold extract_assign_patt. eapply BX_bind; [eapply BX_expr; eauto|]. intros e (x & Hx & He).
  destruct (into_assign_patt e) as [er|t] eqn:E; [|apply BX_ret; exact Logic.I].
  unfold BX, err. cbn. eapply F_left; [exact P|]. eapply N; eauto. intros p U ->.
  pose proof (proj2 (patt_iff _ p) (conj eq_refl U)). congruence.
Qed.
Lemma BX_stmt o ks r k : part D r o -> asks r o k (K_object (R_item false)) -> fresh k ks ->
  BX o ks (extract_stmt R (lit k)) (k :: ks) any.
Proof.
  intros P K F. unfold extract_stmt. eapply BX_bind; [eapply BX_object; eauto|]. intros x [Hx Px].
  apply BX_lift. now apply B_stmt.
Qed.
Lemma BX_stmt_opt o ks r k : part D r o -> asks r o k (K_object_opt (R_item false)) -> fresh k ks ->
  BX o ks (extract_stmt_opt R (lit k)) (k :: ks) any.
Proof.
  intros P K F. unfold extract_stmt_opt. eapply BX_bind; [eapply BX_object_opt; eauto|]. intros [x|] Hx.
  - destruct Hx as [Hx Px]. eapply BX_bind; [apply BX_lift; now apply B_stmt|]. intros e He. apply BX_ret. exact Logic.I.
  - apply BX_ret. exact Logic.I.
Qed.
Lemma not_tag o t u : has o "type" (J_String (tag_text t)) -> t <> u -> forall n, tag_text u = lit n -> ~ typed o n.
Proof. intros H N n E. eapply tag_ne; [exact H|]. rewrite <- E. now apply tag_differs. Qed.
Lemma B_elem o : part D R_elem o -> B (into_expr_list_item R o) any.
Proof.
  intros P. unfold into_expr_list_item. eapply B_and; [apply (B_tag R_elem o P eq_refl)|]. intros t [Ht _].
  assert (G : t <> Tg_SpreadElement -> B (and_then (r_expr R o) (fun e => Ok (L_Expr e))) any).
  { intros N. eapply B_and; [apply HE; eapply P_also; [exact P|]|intros; exact Logic.I].
    eapply AP_expr; [left; reflexivity|]. eapply not_tag; [exact Ht|exact N|reflexivity]. }
  destruct t; try (apply G; discriminate). clear G.
  eapply B_and; [apply (B_run0 _ o any)|intros; exact Logic.I].
  eapply BX_T; [eapply BX_expr|intros; exact Logic.I]; [exact P|now constructor|reflexivity].
Qed.
Lemma BX_elems o ks r k : part D r o -> asks r o k (K_list R_elem) -> fresh k ks ->
  BX o ks (extract_expr_list R (lit k)) (k :: ks) any.
Proof.
  intros P K F. pose proof (BX_list R_elem (into_expr_list_item R) o ks r k (fun _ _ => True) P K F) as X.
  unfold BX in *. eapply B_weaken; [apply X; intros; eapply B_weaken; [now apply B_elem|auto]|].
  intros a [? _]. now split.
Qed.
Lemma BX_exprs o ks r k : part D r o -> asks r o k (K_list R_expr) -> fresh k ks ->
  BX o ks (extract_exprs R (lit k)) (k :: ks) any.
Proof.
  intros P K F. pose proof (BX_list R_expr (r_expr R) o ks r k (fun _ _ => True) P K F) as X.
  unfold BX in *. eapply B_weaken; [apply X; intros; eapply B_weaken; [now apply HE|auto]|].
  intros a [? _]. now split.
Qed.
Lemma BX_items o ks r k : part D r o -> asks r o k (K_list (R_item true)) -> fresh k ks ->
  BX o ks (extract_stmt_list R (lit k)) (k :: ks) any.
Proof.
  intros P K F. pose proof (BX_list (R_item true) (into_stmt_list_item R) o ks r k (fun _ _ => True) P K F) as X.
  unfold BX in *. eapply B_weaken; [apply X; intros; eapply B_weaken; [now apply HI|auto]|].
  intros a [? _]. now split.
Qed.
Lemma BX_holes o ks r k : part D r o -> asks r o k (K_holes R_elem) -> fresh k ks ->
  BX o ks (extract_expr_opt_list R (lit k)) (k :: ks) any.
Proof.
  intros P K F. unfold extract_expr_opt_list. eapply BX_bind.
  { eapply (BX_array o ks r k (K_holes R_elem)); eauto; reflexivity. }
  intros l Hl. cbv beta in Hl. apply BX_lift. eapply B_weaken; [|intros; exact Logic.I].
  apply (B_map _ l (fun _ _ => True)). intros v Hv.
  assert (G : v <> J_Null -> (forall x, v <> J_Object x) -> forall e, mismatch "object or null" v e -> fault D (EE_Json e)).
  { intros N1 N2 e M. eapply F_hole; eauto. }
  destruct v; cbn [into_object_opt from_json type_error and_then];
    try (cbn [B]; apply G; [discriminate|discriminate|now apply (@type_error_mismatch unit)]); try exact Logic.I.
  eapply B_and; [apply B_elem; eapply P_element; eauto|]. intros; exact Logic.I.
Qed.
Lemma BX_script o ks : part D R_body o -> fresh "body" ks ->
  BX o ks (extract_script R (lit "body")) ("body"%string :: ks) any.
Proof.
  intros P F. unfold extract_script. eapply BX_bind; [eapply BX_items; [exact P|constructor|exact F]|].
  intros l _. destruct (split_prefix l item_is_directive). apply BX_ret. exact Logic.I.
Qed.
Ltac inl := repeat first [left; reflexivity | right].
Lemma B_fun {I} o ks (i : I) : part D R_fun o ->
  fresh "generator" ks -> fresh "params" ks -> fresh "body" ks ->
  B (into_fun R (drop ks o) i) (fun f => exists js, has o "params" (J_Array js) /\ est_params js (fn_params f)).
Proof.
  intros P F1 F2 F3. unfold into_fun. apply B_run. eapply BT_bind.
  { eapply BX_flag; [exact P|constructor; inl|exact F1]. }
  intros g _. eapply BT_bind.
  { eapply BX_parameters; [exact P|constructor; inl|]. unfold fresh in *. cbn. exact F2. }
  intros ps Hps. eapply BT_bind.
  { eapply (BX_object R_body); [exact P|constructor; inl|]. unfold fresh in *. cbn. exact F3. }
  intros x [Hx Px]. eapply BT_bind.
  { apply BX_lift. apply (B_run0 _ x any). eapply BX_T; [apply BX_script|intros; exact Logic.I]; [exact Px|reflexivity]. }
  intros b _. apply BT_ret. exact Hps.
Qed.
Lemma B_fun0 {I} o (i : I) : part D R_fun o ->
  B (into_fun R o i) (fun f => exists js, has o "params" (J_Array js) /\ est_params js (fn_params f)).
Proof. intros P. apply (B_fun o [] i P); reflexivity. Qed.
Lemma B_block o : part D R_block o -> B (into_block R o) any.
Proof.
  intros P. unfold into_block. eapply B_and; [apply (B_tag R_block o P eq_refl)|]. intros t [Ht _].
  assert (G : t <> Tg_BlockStatement -> B (node_type_error (A := block) "block statement" t) any).
  { intros N. cbn. eapply node_fault; [exact P|constructor|exact Ht|].
    intros n [<-|[]]. now apply (tag_differs t Tg_BlockStatement). }
  destruct t; try (apply G; discriminate). clear G.
  eapply B_and; [apply (B_run0 _ o any)|intros; exact Logic.I].
  eapply BX_T; [eapply BX_items|intros; exact Logic.I]; [exact P|now constructor|reflexivity].
Qed.
Lemma BX_block o ks r k : part D r o -> asks r o k (K_object R_block) -> fresh k ks ->
  BX o ks (extract_block R (lit k)) (k :: ks) any.
Proof.
  intros P K F. unfold extract_block. eapply BX_bind; [eapply BX_object; eauto|]. intros x [Hx Px].
  apply BX_lift. now apply B_block.
Qed.
Lemma B_case o : part D R_case o -> B (into_case R o) any.
Proof.
  intros P. unfold into_case. apply B_run0. eapply BT_bind.
  { eapply BX_expr_opt; [exact P|constructor; inl|reflexivity]. }
  intros e _. eapply BT_bind. { eapply BX_items; [exact P|constructor; inl|reflexivity]. }
  intros l _. apply BT_ret. exact Logic.I.
Qed.
Lemma B_catch o : part D R_catch o -> B (into_catch R o) any.
Proof.
  intros P. unfold into_catch. apply B_run0. eapply BT_bind.
  { eapply BX_patt; [exact P|constructor; inl|reflexivity]. }
  intros e _. eapply BT_bind. { eapply BX_block; [exact P|constructor; inl|reflexivity]. }
  intros l _. apply BT_ret. exact Logic.I.
Qed.
Lemma BX_catch_opt o ks r k : part D r o -> asks r o k (K_object_opt R_catch) -> fresh k ks ->
  BX o ks (extract_catch_opt R (lit k)) (k :: ks) any.
Proof.
  intros P K F. unfold extract_catch_opt. eapply BX_bind; [eapply BX_object_opt; eauto|]. intros [x|] Hx.
  - destruct Hx as [Hx Px]. eapply BX_bind; [apply BX_lift; now apply B_catch|]. intros e He. apply BX_ret. exact Logic.I.
  - apply BX_ret. exact Logic.I.
Qed.
Definition dtor_at (o : object) (d : dtor) : Prop := exists l i e, d = Dt_Simple l i e /\ est_id_at o "id" i
  /\ (e = None -> has o "init" J_Null).
Lemma B_dtor o : part D R_dtor o -> B (into_dtor R o) (dtor_at o).
Proof.
  intros P. unfold into_dtor. apply B_run0. eapply BT_bind.
  { eapply BX_patt; [exact P|constructor; inl|reflexivity]. }
  intros p (i & -> & Hi). eapply BT_bind. { eapply BX_expr_opt; [exact P|constructor; inl|reflexivity]. }
  intros e He. cbn [Parser.dtor_from_init_opt]. destruct e as [e|]; apply BT_ret; do 3 eexists; repeat split; eauto; discriminate.
Qed.
Lemma BX_dtors o ks r k : part D r o -> asks r o k (K_list R_dtor) -> fresh k ks ->
  BX o ks (extract_dtor_list R (lit k)) (k :: ks)
    (fun ds => exists os, has o k (J_Array (map J_Object os)) /\ Forall2 dtor_at os ds).
Proof. intros P K F. unfold extract_dtor_list. eapply BX_list; eauto. apply B_dtor. Qed.
Lemma B_const r o os ds : part D r o -> In r [R_item true; R_for] -> typed o "VariableDeclaration" ->
  text o "kind" "const" -> has o "declarations" (J_Array (map J_Object os)) -> Forall2 dtor_at os ds ->
  B (into_const ds) any.
Proof.
  intros P Hr Ht Hk Hd F. unfold into_const. eapply B_weaken; [|intros; exact Logic.I].
  apply (B_map _ ds (fun _ _ => True)). intros d Hin.
  assert (G : exists x, In x os /\ dtor_at x d).
  { clear - F Hin. induction F as [|x y os ds H F IH]; [destruct Hin|]. destruct Hin as [<-|Hin].
    - exists x. split; [now left|exact H].
    - destruct (IH Hin) as (z & Hz & Hd). exists z. split; [now right|exact Hd]. }
  destruct G as (x & Hx & l & i & e & -> & Hi & He). destruct e as [e|]; [exact Logic.I|]. cbn.
  eapply F_constant; eauto. now apply in_map.
Qed.
Lemma Forall2_len {A C} (Q : A -> C -> Prop) l r : Forall2 Q l r -> length l = length r.
Proof. induction 1; cbn; congruence. Qed.
Lemma arity_of o js ps : has o "params" (J_Array js) -> est_params js ps -> arity o (length (pa_list ps)).
Proof.
  intros H E. inversion E as [js' ps' F|js' ps' r i F T Hi]; subst; cbn [pa_list].
  - exists js, []. rewrite app_nil_r. split; [exact H|]. split; [now rewrite (Forall2_len _ _ _ F)|]. split; [now left|].
    intros _ a r ->. apply Forall2_app_inv_l in F as (l1 & l2 & _ & F & _). inversion F as [|? ? ? ? F1 _]; subst.
    inversion F1 as [? ? I]; subst. inversion I; subst. intros X.
    match goal with T : typed r "Identifier" |- _ => pose proof (typed_fun _ _ _ T X) end. discriminate.
  - exists js', [J_Object r]. split; [exact H|]. split; [now rewrite (Forall2_len _ _ _ F)|]. split; [right; eauto|].
    discriminate.
Qed.

Lemma kind_ne o k s : has o k (J_String s) -> forall t, s <> lit t -> ~ text o k t.
Proof. intros H t N X. pose proof (has_fun _ _ _ _ H X) as E. apply N. congruence. Qed.
Lemma text_fun o k a b : text o k a -> text o k b -> a = b.
Proof. intros H1 H2. pose proof (has_fun _ _ _ _ H1 H2) as E. injection E as E. now apply lit_inj. Qed.
Lemma flag_ne o k b c : flag o k b -> b <> c -> ~ flag o k c.
Proof. intros H N X. pose proof (has_fun _ _ _ _ H X) as E. apply N. congruence. Qed.
Lemma eqb_false a b : str_eqb a b = false -> a <> b.
Proof. intros H ->. now rewrite str_eqb_refl' in H. Qed.

Lemma B_prop o : part D R_prop o -> B (into_prop R o) any.
Proof.
  intros P. unfold into_prop. cbv zeta. apply B_run0. eapply BT_bind.
  { eapply (BX_object R_any); [exact P|constructor; inl|reflexivity]. }
  intros key [Hkey _]. eapply BT_bind. { eapply (BX_object R_any); [exact P|constructor; inl|reflexivity]. }
  intros val [Hval _]. eapply BT_bind. { eapply BX_string; [exact P|constructor; inl|reflexivity]. }
  intros kind Hkind. cbv beta in Hkind.
  assert (PK : ~ (text o "kind" "init" /\ flag o "method" false /\ flag o "shorthand" true) -> part D R_key key).
  { intros N. eapply P_object; [exact P|left; apply A_key; exact N|exact Hkey]. }
  assert (REG : forall ks v, ~ (text o "kind" "init" /\ flag o "method" false /\ flag o "shorthand" true) ->
    BT o ks (k <- lift (into_prop_key key) ;; ret (Pr_Regular None k v)) any).
  { intros ks v N. eapply BT_bind; [apply BX_lift; apply B_key; auto|]. intros k _. apply BT_ret. exact Logic.I. }
  destruct (str_eqb kind (lit "init")) eqn:E1; [|destruct (str_eqb kind (lit "get")) eqn:E2; [|destruct (str_eqb kind (lit "set")) eqn:E3]].
  - apply str_eqb_iff' in E1. subst kind. change (text o "kind" "init") in Hkind. eapply BT_bind.
    { eapply BX_bool; [exact P|now apply A_method|reflexivity]. }
    intros [] Hm; cbv beta in Hm.
    + eapply BT_bind. { apply BX_lift, B_key, PK. intros (_ & X & _). pose proof (has_fun _ _ _ _ X Hm). congruence. }
      intros k _. eapply BT_bind.
      { apply BX_lift, B_fun0. eapply P_object; [exact P|left; apply A_function; left; now split|exact Hval]. }
      intros f _. apply BT_ret. exact Logic.I.
    + eapply BT_bind. { eapply BX_bool; [exact P|now apply A_shorthand|reflexivity]. }
      intros [] Hs; cbv beta in Hs.
      * eapply BT_bind. { apply BX_lift, B_id. eapply P_object; [exact P|left; now apply A_key_short|exact Hkey]. }
        intros i _. apply BT_ret. exact Logic.I.
      * eapply BT_bind. { apply BX_lift, HE. eapply P_object; [exact P|left; now apply A_init|exact Hval]. }
        intros e _. apply REG. intros (_ & _ & X). pose proof (has_fun _ _ _ _ X Hs). congruence.
  - apply str_eqb_iff' in E2. subst kind. change (text o "kind" "get") in Hkind. eapply BT_bind.
    { apply (BX_pair val o _ [] ["body"%string]). eapply (BX_object R_body); [|apply A_getter|reflexivity].
      eapply P_object; [exact P|left; now apply A_get|exact Hval]. }
    intros [b v'] [_ [Hb Pb]]. cbn [fst snd] in *. eapply BT_bind.
    { apply BX_lift. apply (B_run0 _ b any). eapply BX_T; [apply BX_script|intros; exact Logic.I]; [exact Pb|reflexivity]. }
    intros sc _. apply REG. intros (X & _). pose proof (text_fun _ _ _ _ X Hkind). discriminate.
  - apply str_eqb_iff' in E3. subst kind. change (text o "kind" "set") in Hkind. eapply BT_bind.
    { apply BX_lift, B_fun0. eapply P_object; [exact P|left; apply A_function; now right|exact Hval]. }
    intros f (js & Hjs & Hf). pose proof (arity_of _ _ _ Hjs Hf) as AR.
    assert (NK : ~ (text o "kind" "init" /\ flag o "method" false /\ flag o "shorthand" true)).
    { intros (X & _). pose proof (text_fun _ _ _ _ X Hkind). discriminate. }
    destruct (pa_list (fn_params f)) as [|p [|p2 ps]] eqn:E; [| now apply REG|];
      (apply BT_lift; cbn; eapply F_length; [exact P|]; eapply BL_set; eauto; discriminate).
  - apply BT_lift. cbn. eapply F_kind; [exact P|exact Hkind| |do 2 eexists; repeat split; constructor].
    intros k [<-|[<-|[<-|[]]]]; now apply eqb_false.
Qed.

Ltac ask := first
  [ eapply A_expr; [eassumption|inl]
  | eapply A_item; [eassumption|inl]
  | eapply A_for; [inl|eassumption|inl]
  | now constructor ].
Ltac b1 := match goal with
  | |- BT _ _ (bind (lift _) _) _ => eapply BT_bind; [apply BX_lift|]
  | |- BX _ _ (bind (lift _) _) _ _ => eapply BX_bind; [apply BX_lift|]
  | |- BT _ _ (bind _ _) _ => eapply BT_bind
  | |- BX _ _ (bind _ _) _ _ => eapply BX_bind
  | |- BT _ _ (ret _) any => apply BT_ret; exact Logic.I
  | |- BX _ _ (ret _) _ _ => apply (BX_ret _ _ _ any); exact Logic.I
  | |- BX _ _ get _ _ => apply BX_get
  | P : part D ?r ?o |- BX ?o _ (ex (extract_string _)) _ _ => eapply (BX_string o _ r); [exact P|ask|reflexivity]
  | P : part D ?r ?o |- BX ?o _ (ex (extract_bool _)) _ _ => eapply (BX_bool o _ r); [exact P|ask|reflexivity]
  | P : part D ?r ?o |- BX ?o _ (ex (extract_object _)) _ _ => eapply (BX_object _ o _ r); [exact P|ask|reflexivity]
  | P : part D ?r ?o |- BX ?o _ (ex (extract_object_opt _)) _ _ => eapply (BX_object_opt _ o _ r); [exact P|ask|reflexivity]
  | P : part D ?r ?o |- BX ?o _ (extract_expr R _) _ _ => eapply (BX_expr o _ r); [exact P|ask|reflexivity]
  | P : part D ?r ?o |- BX ?o _ (extract_expr_opt R _) _ _ => eapply (BX_expr_opt o _ r); [exact P|ask|reflexivity]
  | P : part D ?r ?o |- BX ?o _ (extract_stmt R _) _ _ => eapply (BX_stmt o _ r); [exact P|ask|reflexivity]
  | P : part D ?r ?o |- BX ?o _ (extract_stmt_opt R _) _ _ => eapply (BX_stmt_opt o _ r); [exact P|ask|reflexivity]
  | P : part D ?r ?o |- BX ?o _ (extract_id _) _ _ => eapply (BX_id o _ r); [exact P|ask|reflexivity]
  | P : part D ?r ?o |- BX ?o _ (extract_id_opt _) _ _ => eapply (BX_id_opt o _ r); [exact P|ask|reflexivity]
  | P : part D ?r ?o |- BX ?o _ (extract_expr_list R _) _ _ => eapply (BX_elems o _ r); [exact P|ask|reflexivity]
  | P : part D ?r ?o |- BX ?o _ (extract_exprs R _) _ _ => eapply (BX_exprs o _ r); [exact P|ask|reflexivity]
  | P : part D ?r ?o |- BX ?o _ (extract_expr_opt_list R _) _ _ => eapply (BX_holes o _ r); [exact P|ask|reflexivity]
  | P : part D ?r ?o |- BX ?o _ (extract_dtor_list R _) _ _ => eapply (BX_dtors o _ r); [exact P|ask|reflexivity]
  | P : part D ?r ?o |- BX ?o _ (extract_block R _) _ _ => eapply (BX_block o _ r); [exact P|ask|reflexivity]
  | P : part D ?r ?o |- BX ?o _ (extract_catch_opt R _) _ _ => eapply (BX_catch_opt o _ r); [exact P|ask|reflexivity]
  | P : part D ?r ?o |- BX ?o _ (extract_prop_list R _) _ _ =>
      eapply (BX_list R_prop _ o _ r _ (fun _ => any)); [exact P|ask|reflexivity|apply B_prop]
  | P : part D ?r ?o |- BX ?o _ (extract_case_list R _) _ _ =>
      eapply (BX_list R_case _ o _ r _ (fun _ => any)); [exact P|ask|reflexivity|apply B_case]
  | |- B (into_block R _) _ => apply B_block
  | |- forall _ : _, _ => let a := fresh "a" in let H := fresh "H" in intros a H; cbv beta in H
  end.
Ltac bb := repeat b1.

Ltac node_bad P Ht := apply BT_lift; cbn [B node_type_error]; eapply node_fault;
  [exact P|constructor|exact Ht|];
  let n := fresh in let X := fresh in let Y := fresh in
  intros n X Y; repeat (destruct X as [<-|X]; [apply lit_inj in Y; discriminate Y|]); destruct X.

Lemma B_expr_body o : part D R_expr o -> B (into_expr_body R o) any.
Proof.
  intros P. unfold into_expr_body. eapply B_and; [apply (B_tag R_expr o P eq_refl)|]. intros t [Ht _].
  apply B_run0. destruct t; cbn [tag_text] in Ht; try solve [node_bad P Ht].
  - eapply BT_bind; [apply BX_lift; apply B_id; eapply P_also; [exact P|apply AP_id; [cbn; tauto|exact Ht]]|]. bb.
  - apply BT_lift. eapply B_weaken; [apply B_lit; eapply P_also; [exact P|now constructor]|]. intros; exact Logic.I.
  - b1; [b1|]. intros s Hs. cbv beta in Hs. unfold op_from_str. destruct (binop_tag_from_str s) as [op|] eqn:E; cbn [option_map]; [bb|].
    apply BT_lift. cbn. eapply F_string; [exact P|]. apply B_binary; auto. intros op ->.
    rewrite (proj2 (C48_binop_text _ op) eq_refl) in E. discriminate.
  - b1; [b1|]. intros s Hs. cbv beta in Hs. b1; [b1|]. intros rt _. destruct (str_eqb s (lit "=")) eqn:E1.
    + apply str_eqb_iff' in E1. subst s. eapply BT_bind; [eapply (BX_tpatt o _ R_expr); [exact P|ask|reflexivity|]|bb].
      intros. eapply BA_assign; eauto.
    + unfold op_from_str. destruct (assop_tag_from_str s) as [op|] eqn:E; cbn [option_map].
      * apply C48_assop_text in E. subst s. eapply BT_bind; [eapply (BX_target o _ R_expr); [exact P|ask|reflexivity|]|bb].
        intros. eapply BA_op; eauto.
      * apply BT_lift. cbn. eapply F_string; [exact P|]. apply B_assign; auto using eqb_false. intros op ->.
        rewrite (proj2 (C48_assop_text _ op) eq_refl) in E. discriminate.
  - b1; [b1|]. intros s Hs. cbv beta in Hs. unfold op_from_str. destruct (logop_tag_from_str s) as [op|] eqn:E; cbn [option_map]; [bb|].
    apply BT_lift. cbn. eapply F_string; [exact P|]. apply B_logical; auto. intros op ->.
    rewrite (proj2 (C48_logop_text _ op) eq_refl) in E. discriminate.
  - b1; [b1|]. intros s Hs. cbv beta in Hs. unfold op_from_str. destruct (unop_tag_from_str s) as [op|] eqn:E; cbn [option_map]; [bb|].
    apply BT_lift. cbn. eapply F_string; [exact P|]. apply B_unary; auto. intros op ->.
    rewrite (proj2 (C48_unop_text _ op) eq_refl) in E. discriminate.
  - b1; [b1|]. intros s Hs. cbv beta in Hs. eapply BT_bind; [eapply (BX_target o _ R_expr); [exact P|ask|reflexivity|]|].
    { intros. eapply BA_update; eauto. }
    intros tg _. b1; [b1|]. intros pre _. destruct (str_eqb s (lit "++")) eqn:E1; [bb|].
    destruct (str_eqb s (lit "--")) eqn:E2; [bb|]. apply BT_lift. cbn. eapply F_string; [exact P|].
    apply B_update; auto using eqb_false.
  - b1; [b1|]. intros ob _. b1; [b1|]. intros [] Hc; cbv beta in Hc.
    + eapply BT_bind; [eapply (BX_expr o _ R_expr); [exact P|now apply A_brack|reflexivity]|bb].
    + eapply BT_bind; [eapply (BX_id o _ R_expr); [exact P|now apply A_dot|reflexivity]|bb].
  - bb.
  - bb.
  - bb.
  - b1; [b1|]. intros i _. b1; [b1|]. intros self ->. eapply BT_bind; [apply BX_lift; apply B_fun|bb];
      [eapply P_also; [exact P|now constructor]|reflexivity|reflexivity|reflexivity].
  - bb.
  - bb.
  - bb.
  - bb.
  - b1; [b1|]. intros m Hm. b1; [b1|]. intros p Hp. cbv beta in Hm, Hp. cbv zeta.
    apply id_name_at in Hm as (xm & sm & Hxm & Tm & Nm & ->). apply id_name_at in Hp as (xp & sp & Hxp & Tp & Np & ->).
    cbn [id_name]. rewrite !name_string_from.
    destruct (str_eqb sm (lit "new") && str_eqb sp (lit "target")) eqn:E; [bb|].
    apply BT_lift. cbn. eapply F_string; [exact P|]. eapply B_meta; eauto. intros [-> ->].
    rewrite !str_eqb_refl' in E. discriminate.
Qed.

Lemma B_for_head o : part D R_for o -> B (into_for_head R o) any.
Proof.
  intros P. unfold into_for_head. eapply B_and; [apply (B_tag R_for o P eq_refl)|]. intros t [Ht _].
  assert (G : t <> Tg_VariableDeclaration -> B (and_then (r_expr R o) (fun e => Ok (FH_Expr None e))) any).
  { intros N. eapply B_and; [apply HE; eapply P_also; [exact P|]|intros; exact Logic.I].
    eapply AP_expr; [right; left; reflexivity|]. eapply not_tag; [exact Ht|exact N|reflexivity]. }
  destruct t; try (apply G; discriminate). clear G. cbn [tag_text] in Ht.
  apply B_run0. b1; [b1|]. intros ds (os & Hd & F). b1; [b1|]. intros kind Hk. cbv beta in Hk.
  destruct (str_eqb kind (lit "var")) eqn:E1; [bb|]. destruct (str_eqb kind (lit "let")) eqn:E2; [bb|].
  destruct (str_eqb kind (lit "const")) eqn:E3.
  - apply str_eqb_iff' in E3. subst kind. eapply BT_bind; [apply BX_lift; eapply (B_const R_for o); eauto; cbn; tauto|bb].
  - apply BT_lift. cbn. eapply F_string; [exact P|]. apply B_kind; auto; [cbn; tauto|].
    intros k [<-|[<-|[<-|[]]]]; now apply eqb_false.
Qed.
Lemma B_for_in_head o : part D R_for_in o -> B (into_for_in_head R o) any.
Proof.
  intros P. unfold into_for_in_head. eapply B_and; [apply (B_tag R_for_in o P eq_refl)|]. intros t [Ht _].
  assert (G : t <> Tg_VariableDeclaration -> B (and_then (r_expr R o) (fun e =>
           match into_assign_patt e with
           | inr p => Ok (FI_Patt p)
           | inl _ => Err (EE_InvalidLHS (lit "left"))
           end)) any).
  { intros N. eapply B_and; [apply HE; eapply P_also; [exact P|]|].
    - eapply AP_expr; [right; right; left; reflexivity|]. eapply not_tag; [exact Ht|exact N|reflexivity].
    - intros e He. destruct (into_assign_patt e) as [er|p] eqn:E; [|exact Logic.I]. cbn.
      eapply F_left; [exact P|]. eapply BA_for; [cbn; tauto|exact He|]. intros p U ->.
      pose proof (proj2 (patt_iff _ p) (conj eq_refl U)). congruence. }
  destruct t; try (apply G; discriminate). clear G. cbn [tag_text] in Ht.
  apply B_run0. eapply BT_bind.
  { eapply (BX_array o _ R_for_in _ (K_list R_dtor)); [exact P|ask|reflexivity|reflexivity|reflexivity]. }
  intros ds Hd. cbv beta in Hd. b1; [b1|]. intros kind Hk. cbv beta in Hk.
  assert (L : length ds <> 1 -> BT o ["kind"; "declarations"]%string (lift (array_error (A := for_in_head) 1 (length ds))) any).
  { intros N. apply BT_lift. cbn. eapply F_length; [exact P|]. apply BL_for; auto. cbn; tauto. }
  destruct ds as [|v [|v2 ds]]; [apply L; discriminate| |apply L; discriminate]. clear L.
  eapply BT_bind.
  { apply BX_lift. instantiate (1 := fun x => v = J_Object x).
    assert (M : (forall x, v <> J_Object x) -> forall e, mismatch "object" v e -> fault D (EE_Json e)).
    { intros N e M. eapply (F_element D R_for_in o "declarations" R_dtor); [exact P|left; ask|exact Hd|now left|exact N|exact M]. }
    destruct v; cbn [into_object from_json type_error B]; try reflexivity;
      (apply M; [discriminate|now apply (@type_error_mismatch unit)]). }
  intros x ->. assert (Px : part D R_dtor x).
  { eapply (P_element D R_for_in o "declarations"); [exact P|left; ask|exact Hd|now left]. }
  eapply BT_bind. { apply (BX_pair x o _ [] ["id"%string]). eapply BX_patt; [exact Px|constructor; inl|reflexivity]. }
  intros [lhs x'] [E (i & Ei & Hi)]. cbn [fst snd] in *. subst x' lhs. eapply BT_bind.
  { apply (BX_pair x o _ ["id"%string] ["init"; "id"]%string). eapply BX_expr_opt; [exact Px|constructor; inl|reflexivity]. }
  intros [init x'] [_ Hinit]. cbn [fst snd] in Hinit. destruct init as [e|].
  - destruct Hinit as (y & Hy & Hye). destruct (str_eqb kind (lit "var")) eqn:E1; [bb|].
    apply BT_err. eapply F_initializer; eauto using eqb_false.
  - destruct (str_eqb kind (lit "var")) eqn:E1; [bb|]. destruct (str_eqb kind (lit "let")) eqn:E2; [bb|].
    destruct (str_eqb kind (lit "const")) eqn:E3; [bb|].
    apply BT_lift. cbn. eapply F_string; [exact P|]. apply B_kind; auto; [cbn; tauto|].
    intros k [<-|[<-|[<-|[]]]]; now apply eqb_false.
Qed.
Lemma B_for_of_head o : part D R_for_of o -> B (into_for_of_head R o) any.
Proof.
  intros P. unfold into_for_of_head. eapply B_and; [apply (B_tag R_for_of o P eq_refl)|]. intros t [Ht _].
  assert (G : t <> Tg_VariableDeclaration -> B (and_then (r_expr R o) (fun e =>
           match into_assign_patt e with
           | inr p => Ok (FO_Patt p)
           | inl _ => Err (EE_InvalidLHS (lit "left"))
           end)) any).
  { intros N. eapply B_and; [apply HE; eapply P_also; [exact P|]|].
    - eapply AP_expr; [right; right; right; left; reflexivity|]. eapply not_tag; [exact Ht|exact N|reflexivity].
    - intros e He. destruct (into_assign_patt e) as [er|p] eqn:E; [|exact Logic.I]. cbn.
      eapply F_left; [exact P|]. eapply BA_for; [cbn; tauto|exact He|]. intros p U ->.
      pose proof (proj2 (patt_iff _ p) (conj eq_refl U)). congruence. }
  destruct t; try (apply G; discriminate). clear G. cbn [tag_text] in Ht.
  apply B_run0. eapply BT_bind.
  { eapply (BX_array o _ R_for_of _ (K_list R_dtor_of)); [exact P|ask|reflexivity|reflexivity|reflexivity]. }
  intros ds Hd. cbv beta in Hd. b1; [b1|]. intros kind Hk. cbv beta in Hk.
  assert (L : length ds <> 1 -> BT o ["kind"; "declarations"]%string (lift (array_error (A := for_of_head) 1 (length ds))) any).
  { intros N. apply BT_lift. cbn. eapply F_length; [exact P|]. apply BL_for; auto. cbn; tauto. }
  destruct ds as [|v [|v2 ds]]; [apply L; discriminate| |apply L; discriminate]. clear L.
  eapply BT_bind.
  { apply BX_lift. instantiate (1 := fun x => v = J_Object x).
    assert (M : (forall x, v <> J_Object x) -> forall e, mismatch "object" v e -> fault D (EE_Json e)).
    { intros N e M. eapply (F_element D R_for_of o "declarations" R_dtor_of); [exact P|left; ask|exact Hd|now left|exact N|exact M]. }
    destruct v; cbn [into_object from_json type_error B]; try reflexivity;
      (apply M; [discriminate|now apply (@type_error_mismatch unit)]). }
  intros x ->. assert (Px : part D R_dtor_of x).
  { eapply (P_element D R_for_of o "declarations"); [exact P|left; ask|exact Hd|now left]. }
  eapply BT_bind. { apply (BX_pair x o _ [] ["id"%string]). eapply BX_patt; [exact Px|constructor; inl|reflexivity]. }
  intros [lhs x'] _.
  destruct (str_eqb kind (lit "var")) eqn:E1; [bb|]. destruct (str_eqb kind (lit "let")) eqn:E2; [bb|].
  destruct (str_eqb kind (lit "const")) eqn:E3; [bb|].
  apply BT_lift. cbn. eapply F_string; [exact P|]. apply B_kind; auto; [cbn; tauto|].
  intros k [<-|[<-|[<-|[]]]]; now apply eqb_false.
Qed.

Lemma B_item_body b o : part D (R_item b) o -> B (into_item_body R b o) any.
Proof.
  intros P. unfold into_item_body. eapply B_and; [apply (B_tag (R_item b) o P eq_refl)|]. intros t [Ht _].
  cbv zeta. apply B_run0. destruct t; cbn [tag_text] in Ht; try solve [destruct b; node_bad P Ht]; try solve [bb].
  - destruct b; cbn [negb]; [|node_bad P Ht].
    b1; [b1|]. intros i _. b1; [b1|]. intros self ->. eapply BT_bind; [apply BX_lift; apply B_fun|bb];
      [eapply P_also; [exact P|now constructor]|reflexivity|reflexivity|reflexivity].
  - b1; [b1|]. intros ds (os & Hd & F). b1; [b1|]. intros kind Hk. cbv beta in Hk.
    destruct (str_eqb kind (lit "var")) eqn:E1; [bb|]. destruct (str_eqb kind (lit "let")) eqn:E2.
    + destruct b; cbn [negb]; [bb|]. apply str_eqb_iff' in E2. subst kind. apply BT_lift. cbn.
      eapply F_string; [exact P|]. apply B_nested; auto. cbn; tauto.
    + destruct (str_eqb kind (lit "const")) eqn:E3.
      * apply str_eqb_iff' in E3. subst kind. destruct b; cbn [negb].
        -- eapply BT_bind; [apply BX_lift; eapply (B_const (R_item true) o); eauto; cbn; tauto|bb].
        -- apply BT_lift. cbn. eapply F_string; [exact P|]. apply B_nested; auto. cbn; tauto.
      * apply BT_lift. cbn. eapply F_string; [exact P|]. apply B_kind; auto; [destruct b; cbn; tauto|].
        intros k [<-|[<-|[<-|[]]]]; now apply eqb_false.
  - eapply BT_bind; [|bb]. b1; [b1|]. intros x Hx. b1.
    { instantiate (2 := ["init"%string]). destruct x as [x|]; [|b1]. destruct Hx as [_ Px]. b1; [now apply B_for_head|bb]. }
    bb.
  - eapply BT_bind; [|bb]. b1; [b1|]. intros x [_ Px]. b1; [now apply B_for_in_head|]. bb.
  - eapply BT_bind; [|bb]. b1; [b1|]. intros x [_ Px]. b1; [now apply B_for_of_head|]. bb.
  - eapply BT_bind; [|bb]. b1; [apply B_block; eapply P_also; [exact P|now constructor]|]. bb.
  - eapply BT_bind; [|bb]. b1; [b1|]. intros x1 _. b1; [b1|]. intros x2 _. b1; [b1|]. intros x Hx. b1.
    { destruct x as [x|]; [|b1]. destruct Hx as [_ Px]. b1; [now apply B_block|bb]. }
    bb.
Qed.
End Step.

Theorem conv_blame n :
  (forall o, part D R_expr o -> B (r_expr (est_rec_of n) o) (fun e => est false o (N_expr e)))
  /\ (forall b o, part D (R_item b) o -> B (r_item (est_rec_of n) b o) any).
Proof.
  induction n as [|n [IH1 IH2]]; [split; intros; exact Logic.I|].
  split.
  - intros o P. pose proof (proj1 (conv_sound (S n)) o) as S.
    destruct (r_expr (est_rec_of (Datatypes.S n)) o) as [e|er| |] eqn:E; [now apply S| |exact Logic.I|exact Logic.I].
    change (B (Err er : eres expr) any). rewrite <- E. cbn [est_rec_of r_expr]. now apply B_expr_body.
  - intros b o P. cbn [est_rec_of r_item]. now apply B_item_body.
Qed.
End Doc.

Theorem into_script_blame o e : into_script o = Err e -> fault o e.
Proof.
  intros H. unfold into_script in H. destruct (conv_blame o (json_depth (J_Object o))) as [H1 H2].
  assert (X : B o (run (extract_script (est_rec_of (json_depth (J_Object o))) (lit "body")) o) any).
  { apply (B_run0 o _ o any). eapply BX_T; [eapply BX_script|intros; exact Logic.I]; [exact H2|constructor|reflexivity]. }
  rewrite H in X. exact X.
Qed.
