(** Proofs about the derive macros. *)
From Coq Require Import String Ascii List NArith Bool Lia Arith FinFun.
From Coq Require Import DecimalString DecimalNat.
From Verif Require Import Base Word Token Punc Ast Track Node NodeProofs SpecTree Derive Easter SpecDerive.
Import ListNotations.
Local Open Scope string_scope.
Local Open Scope list_scope.
Local Open Scope nat_scope.

(** ** Selecting an arm *)

Lemma path_eqb_iff a b : path_eqb a b = true <-> a = b.
Proof.
  revert b. induction a as [|x a IH]; intros [|y b]; cbn; split; try discriminate; try reflexivity.
  - intros H. apply andb_true_iff in H. destruct H as [H1 H2]. apply String.eqb_eq in H1. apply IH in H2. congruence.
  - intros H. injection H as -> ->. rewrite String.eqb_refl. apply IH. reflexivity.
Qed.
Lemma path_eqb_refl a : path_eqb a a = true. Proof. apply path_eqb_iff. reflexivity. Qed.

Definition pat_path (p : pat) : list ident :=
  match p with Pat_Struct x _ _ => x | Pat_Tuple x _ => x | Pat_Path x => x end.
Definition val_path (v : val) : option (list ident) :=
  match v with V_Struct p _ => Some p | V_Tuple p _ => Some p | V_Unit p => Some p | _ => None end.

Lemma match_path p v e : match_pat p v = Some e -> val_path v = Some (pat_path p).
Proof.
  destruct p, v; cbn; try discriminate; destruct (path_eqb path path0) eqn:E; cbn; try discriminate;
    apply path_eqb_iff in E; subst; reflexivity.
Qed.

Lemma select_at (R : list ident * variant_data -> arm -> Prop) vs arms p d v :
  Forall2 R vs arms -> (forall x a, R x a -> pat_path (arm_pat a) = fst x) ->
  NoDup (map fst vs) -> In (p, d) vs -> val_path v = Some p ->
  exists a, R (p, d) a
    /\ select arms v = match match_pat (arm_pat a) v with Some e => Some (e, arm_body a) | None => None end.
Proof.
  intros H HR Hn Hin Hp. induction H as [|x a vs arms Hx H IH]; [destruct Hin|].
  cbn in Hn. apply NoDup_cons_iff in Hn. destruct Hn as [Hnx Hn]. cbn [select].
  assert (Hlater : forall w b, In w vs -> match_pat (arm_pat a) v = Some b -> val_path v = Some (fst w) -> False).
  { intros w b Hw Hm Hv. apply match_path in Hm. rewrite Hv in Hm. injection Hm as Hm. rewrite (HR _ _ Hx) in Hm.
    apply Hnx. rewrite <- Hm. apply in_map, Hw. }
  destruct Hin as [->|Hin].
  - exists a. split; [exact Hx|]. destruct (match_pat (arm_pat a) v) eqn:E; [reflexivity|].
    clear -H HR Hnx Hp. induction H as [|y b vs arms Hy H IH]; [reflexivity|]. cbn.
    destruct (match_pat (arm_pat b) v) eqn:E.
    + exfalso. apply match_path in E. rewrite Hp in E. injection E as E. rewrite (HR _ _ Hy) in E.
      apply Hnx. left. cbn. congruence.
    + apply IH. intros K. apply Hnx. right. exact K.
  - destruct (match_pat (arm_pat a) v) eqn:E; [destruct (Hlater _ _ Hin eq_refl Hp)|]. apply IH; assumption.
Qed.

(** ** Names bound to fields *)

Definition entries (m : mutability) (xs : list ident) (i : nat) : bindings :=
  combine xs (map (pair m) (seq i (length xs))).

Lemma resolve_entries m xs i j x :
  NoDup xs -> nth_error xs j = Some x -> resolve (entries m xs i) m x = Some (i + j).
Proof.
  revert i j. induction xs as [|y xs IH]; intros i j Hn Hj; [destruct j; discriminate|].
  apply NoDup_cons_iff in Hn. destruct Hn as [Hy Hn]. cbn. destruct j as [|j].
  - injection Hj as ->. rewrite String.eqb_refl, Nat.add_0_r. destruct m; reflexivity.
  - cbn in Hj. destruct (String.eqb_spec x y) as [->|_].
    + exfalso. apply Hy. eapply nth_error_In, Hj.
    + rewrite Nat.add_succ_r. apply (IH (S i) j Hn Hj).
Qed.

Lemma bind_tuple_entries m xs i : bind_tuple (map (Sub_Ref m) xs) i = entries m xs i.
Proof. revert i. induction xs as [|x xs IH]; intros i; cbn; [reflexivity|]. f_equal. apply IH. Qed.

Lemma index_of_app x pre post : ~ In x pre -> index_of x (pre ++ x :: post) = Some (length pre).
Proof.
  induction pre as [|y pre IH]; intros H; cbn.
  - rewrite String.eqb_refl. reflexivity.
  - destruct (String.eqb_spec x y) as [->|_]; [destruct H; left; reflexivity|].
    rewrite IH; [reflexivity|]. intros K. apply H. right. exact K.
Qed.
Lemma bind_named_entries m (xs pre : list ident) :
  NoDup (pre ++ xs) ->
  bind_named (pre ++ xs) (map (fun x => (x, Sub_Ref m x)) xs) = Some (entries m xs (length pre)).
Proof.
  revert pre. induction xs as [|x xs IH]; intros pre H; [reflexivity|]. cbn [map bind_named].
  rewrite index_of_app.
  2:{ apply NoDup_remove_2 in H. intros K. apply H, in_or_app. left. exact K. }
  specialize (IH (pre ++ [x])). rewrite <- app_assoc in IH. cbn in IH. rewrite IH by exact H.
  rewrite app_length. cbn. rewrite Nat.add_1_r. reflexivity.
Qed.
Lemma index_of_some x l i : index_of x l = Some i -> nth_error l i = Some x.
Proof.
  revert i. induction l as [|y l IH]; intros i; cbn; [discriminate|].
  destruct (String.eqb_spec x y) as [->|_]; [intros H; injection H as <-; reflexivity|].
  destruct (index_of x l); [|discriminate]. intros H. injection H as <-. apply IH. reflexivity.
Qed.
Lemma index_of_in x l : In x l -> exists i, index_of x l = Some i.
Proof.
  intros H. destruct (in_split _ _ H) as (pre & post & ->). clear H.
  induction pre as [|y pre (i & IH)]; cbn; [rewrite String.eqb_refl; eauto|].
  destruct (String.eqb x y); [eauto|]. rewrite IH. cbn. eauto.
Qed.

Lemma field_ident_inj i j : field_ident i = field_ident j -> i = j.
Proof.
  unfold field_ident. intros H. injection H as H.
  assert (E : NilEmpty.uint_of_string (NilEmpty.string_of_uint (Nat.to_uint i))
              = NilEmpty.uint_of_string (NilEmpty.string_of_uint (Nat.to_uint j))) by congruence.
  rewrite !NilEmpty.usu in E. injection E as E. apply Unsigned.to_uint_inj, E.
Qed.
Lemma field_idents_differ n : NoDup (map field_ident (seq 0 n)).
Proof.
  apply FinFun.Injective_map_NoDup; [intros a b; apply field_ident_inj|apply seq_NoDup].
Qed.

(** ** [untrack] *)

Lemma replace_at {A} (pre : list A) a b post : replace (length pre) b (pre ++ a :: post) = pre ++ b :: post.
Proof. induction pre as [|c pre IH]; cbn; [reflexivity|]. rewrite IH. reflexivity. Qed.

Lemma run_each call e xs pre post :
  length xs = length post ->
  (forall j x, nth_error xs j = Some x -> resolve e Mutable x = Some (length pre + j)) ->
  run_calls call e (map untrack_call xs) (pre ++ post) = option_map (List.app pre) (map_opt call post).
Proof.
  revert pre post. induction xs as [|x xs IH]; intros pre [|w post] Hl Hr; try discriminate.
  - cbn. reflexivity.
  - cbn [map untrack_call run_calls]. rewrite String.eqb_refl.
    rewrite (Hr 0 x eq_refl), Nat.add_0_r, nth_error_app2, Nat.sub_diag by lia. cbn [nth_error map_opt].
    destruct (call w) as [w'|]; [|reflexivity]. rewrite replace_at.
    replace (pre ++ w' :: post) with ((pre ++ [w']) ++ post) by (rewrite <- app_assoc; reflexivity).
    rewrite IH.
    + destruct (map_opt call post); cbn; [rewrite <- app_assoc|]; reflexivity.
    + cbn in Hl. lia.
    + intros j y Hj. rewrite (Hr (S j) y Hj), app_length. cbn. f_equal. lia.
Qed.
Lemma map_opt_iff {A B} (f : A -> option B) l r :
  map_opt f l = Some r <-> Forall2 (fun a b => f a = Some b) l r.
Proof.
  revert r. induction l as [|a l IH]; intros r; cbn; split.
  - intros H. injection H as <-. constructor.
  - intros H. inversion H. reflexivity.
  - destruct (f a) eqn:E; [|discriminate]. destruct (map_opt f l); [|discriminate].
    intros H. injection H as <-. constructor; [exact E|]. apply IH. reflexivity.
  - intros H. inversion H as [|? b ? bs Hb Hbs]; subst. rewrite Hb. apply IH in Hbs. rewrite Hbs. reflexivity.
Qed.
Lemma Forall2_len {A B} (R : A -> B -> Prop) l r : Forall2 R l r -> length l = length r.
Proof. induction 1; cbn; congruence. Qed.

Lemma fields_struct (R : val -> val -> Prop) fs r :
  Forall2 R (map snd fs) r ->
  Forall2 (fun a b => fst a = fst b /\ R (snd a) (snd b)) fs (combine (map (@fst ident val) fs) r).
Proof.
  revert r. induction fs as [|[x a] fs IH]; intros r H; inversion H; subst; cbn; constructor; auto.
Qed.
Lemma fields_struct_inv (R : val -> val -> Prop) fs fs' :
  Forall2 (fun a b : ident * val => fst a = fst b /\ R (snd a) (snd b)) fs fs' ->
  Forall2 R (map snd fs) (map snd fs') /\ combine (map fst fs) (map snd fs') = fs'.
Proof.
  induction 1 as [|[x a] [y b] fs fs' [E H] _ (IH1 & IH2)]; cbn in *; [split; [constructor|reflexivity]|].
  subst. split; [constructor; assumption|]. rewrite IH2. reflexivity.
Qed.

Theorem run_untrack_iff d p vd v call v' :
  declarable d -> In (p, vd) (variants d) -> built p vd v ->
  run_untrack call (im_arms (expand_untrack d)) v = Some v'
  <-> fieldwise (fun a b => call a = Some b) v v'.
Proof.
  intros [Hd Hf] Hin Hb.
  assert (Hv : val_path v = Some p).
  { destruct vd, v; cbn in Hb; try (destruct Hb; fail); cbn; intuition congruence. }
  assert (Harms : Forall2 (fun x a => a = expand_untrack_data (fst x) (snd x)) (variants d) (im_arms (expand_untrack d))).
  { unfold variants, expand_untrack. cbn. destruct (mi_body d) as [data|vs]; [repeat constructor|].
    clear. induction vs as [|[x vd] vs IH]; cbn; constructor; [reflexivity|exact IH]. }
  destruct (select_at _ _ _ p vd v Harms) as (a & -> & Hs); try assumption.
  { intros [x y] ? ->. destruct y; reflexivity. }
  unfold run_untrack. rewrite Hs. clear Hs Harms. cbn [fst snd].
  destruct vd as [fs|ts|], v as [q l|q l|q| | | | |]; cbn in Hb; try (destruct Hb; fail).
  - destruct Hb as [-> Hl]. cbn. rewrite path_eqb_refl. cbn [andb orb].
    replace (forallb _ _) with true.
    2:{ symmetry. apply forallb_forall. intros x Hx. apply existsb_exists. exists x. split; [|apply String.eqb_refl].
        rewrite map_map. change (In x (map fst fs)). rewrite <- Hl. exact Hx. }
    replace (map (fun f => (fst f, Sub_Ref Mutable (fst f))) fs)
      with (map (fun x => (x, Sub_Ref Mutable x)) (map fst l)) by (rewrite Hl, map_map; reflexivity).
    replace (map (fun f => untrack_call (fst f)) fs) with (map untrack_call (map fst l)) by (rewrite Hl, map_map; reflexivity).
    pose proof (Hf _ _ Hin) as Hnd. rewrite <- Hl in Hnd.
    pose proof (bind_named_entries Mutable (map fst l) [] Hnd) as Hbn. cbn [List.app length] in Hbn. rewrite Hbn.
    pose proof (run_each call (entries Mutable (map fst l) 0) (map fst l) [] (map snd l)) as Hre.
    cbn [List.app] in Hre. rewrite Hre; clear Hre.
    2:{ rewrite !map_length. reflexivity. }
    2:{ intros j x Hj. cbn [length]. apply resolve_entries; assumption. }
    cbn [app]. replace (option_map (fun m => m) (map_opt call (map snd l))) with (map_opt call (map snd l)) by (destruct (map_opt _ _); reflexivity).
    split.
    + destruct (map_opt call (map snd l)) as [r|] eqn:E; [|discriminate]. cbn. intros H. injection H as <-.
      apply map_opt_iff in E. constructor. apply (fields_struct (fun a b => call a = Some b)) in E. exact E.
    + intros H. inversion H as [? ? fs' H2| |]; subst. apply (fields_struct_inv (fun a b => call a = Some b)) in H2. destruct H2 as [H2 E].
      apply map_opt_iff in H2. rewrite H2. cbn. rewrite E. reflexivity.
  - destruct Hb as [-> Hl]. cbn. rewrite path_eqb_refl, !map_length, seq_length, Hl, Nat.eqb_refl. cbn [andb].
    rewrite bind_tuple_entries.
    pose proof (run_each call (entries Mutable (map field_ident (seq 0 (length ts))) 0) (map field_ident (seq 0 (length ts))) [] l) as Hre.
    cbn [List.app] in Hre. rewrite Hre; clear Hre.
    2:{ rewrite map_length, seq_length. congruence. }
    2:{ intros j x Hj. cbn [length]. apply resolve_entries; [apply field_idents_differ|exact Hj]. }
    split.
    + destruct (map_opt call l) as [r|] eqn:E; [|discriminate]. cbn. intros H. injection H as <-.
      apply map_opt_iff in E. constructor. exact E.
    + intros H. inversion H as [|? ? fs' H2|]; subst. apply map_opt_iff in H2. rewrite H2. reflexivity.
  - subst q. cbn. rewrite path_eqb_refl. cbn. split.
    + intros H. injection H as <-. constructor.
    + intros H. inversion H. reflexivity.
Qed.

(** ** [tracking_ref], [tracking_mut] *)

Lemma is_location_iff t : is_location_type t = true <-> t = location_type.
Proof.
  split.
  - destruct t as [o [|[s [|? ?]] [|? ?]]]; cbn; try discriminate. intros H. apply andb_true_iff in H.
    destruct H as [H1 H2]. apply String.eqb_eq in H1, H2. subst. reflexivity.
  - intros ->. reflexivity.
Qed.
Lemma trackable_iff p d m : (exists a, expand_tracking_data p d m = inl a) <-> trackable d.
Proof.
  destruct d as [fs|[|t ts]|]; cbn.
  - match goal with |- context [existsb ?f fs] => destruct (existsb f fs) eqn:E end.
    + split; [intros _|eauto]. apply existsb_exists in E. destruct E as ([x t] & Hin & H). cbn in H.
      apply andb_true_iff in H. destruct H as [H1 H2]. apply String.eqb_eq in H1. apply is_location_iff in H2.
      subst. exact Hin.
    + split; [intros [a H]; discriminate|]. intros H. exfalso.
      rewrite (proj2 (existsb_exists _ _)) in E; [discriminate|]. exists ("location", location_type). split; [exact H|reflexivity].
  - split; [intros [a H]; discriminate|congruence].
  - split; [discriminate|eauto].
  - split; [intros [a H]; discriminate|tauto].
Qed.
Lemma collect_inl {A B} (f : A -> expansion B) l r : collect f l = inl r <-> Forall2 (fun a b => f a = inl b) l r.
Proof.
  revert r. induction l as [|a l IH]; intros r; cbn; split.
  - intros H. injection H as <-. constructor.
  - intros H. inversion H. reflexivity.
  - destruct (f a) eqn:E; [|discriminate]. destruct (collect f l); [|discriminate].
    intros H. injection H as <-. constructor; [exact E|]. apply IH. reflexivity.
  - intros H. inversion H as [|? b ? bs Hb Hbs]; subst. rewrite Hb. apply IH in Hbs. rewrite Hbs. reflexivity.
Qed.
Lemma expand_tracking_arms d m i :
  expand_tracking d m = inl i ->
  Forall2 (fun x a => expand_tracking_data (fst x) (snd x) m = inl a) (variants d) (im_arms i).
Proof.
  unfold expand_tracking, variants. destruct (mi_body d) as [data|vs].
  - destruct (expand_tracking_data _ _ _) eqn:E; [|discriminate]. intros H. injection H as <-. cbn. constructor; [exact E|constructor].
  - destruct (collect _ vs) as [arms|] eqn:E; [|discriminate]. intros H. injection H as <-. cbn.
    apply collect_inl in E. clear -E. induction E; cbn; constructor; assumption.
Qed.
Theorem expand_tracking_iff d m :
  (exists i, expand_tracking d m = inl i) <-> forall p vd, In (p, vd) (variants d) -> trackable vd.
Proof.
  split.
  - intros [i H] p vd Hin. apply expand_tracking_arms in H. clear -H Hin.
    induction H as [|x a vs arms Hx H IH]; [destruct Hin|]. destruct Hin as [->|Hin]; [|exact (IH Hin)].
    eapply (trackable_iff p). eexists. exact Hx.
  - unfold expand_tracking, variants. destruct (mi_body d) as [data|vs]; intros H.
    + destruct (proj2 (trackable_iff [mi_ident d] data m)) as [a E].
      { eapply H. left. reflexivity. }
      rewrite E. eauto.
    + assert (K : exists arms, collect (fun v => expand_tracking_data [mi_ident d; fst v] (snd v) m) vs = inl arms).
      { induction vs as [|[x vd] vs IH]; [exists []; reflexivity|]. cbn.
        destruct (proj2 (trackable_iff [mi_ident d; x] vd m)) as [a E].
        { eapply H. left. reflexivity. }
        rewrite E. destruct IH as [arms K]; [intros p q Hq; apply (H p q); right; exact Hq|]. rewrite K. eauto. }
      destruct K as [arms ->]. eauto.
Qed.

Theorem run_tracking_iff d m i path vd v call p :
  declarable d -> expand_tracking d m = inl i -> In (path, vd) (variants d) -> built path vd v ->
  run_tracking m call (im_arms i) v = Some p <-> tracked_place vd v call p.
Proof.
  intros [Hd Hf] He Hin Hb.
  assert (Hv : val_path v = Some path).
  { destruct vd, v; cbn in Hb; try (destruct Hb; fail); cbn; intuition congruence. }
  apply expand_tracking_arms in He.
  destruct (select_at _ _ _ path vd v He) as (a & Ha & Hs); try assumption.
  { intros [x y] ? Hx. destruct y as [fs|[|t ts]|]; cbn in Hx; try discriminate.
    - match type of Hx with context [existsb ?f fs] => destruct (existsb f fs) end; [|discriminate]. injection Hx as <-. reflexivity.
    - injection Hx as <-. reflexivity. }
  unfold run_tracking. rewrite Hs. clear Hs He. cbn [fst snd] in Ha.
  assert (Ht : trackable vd) by (eapply (trackable_iff path); eexists; exact Ha).
  destruct vd as [fs|[|t ts]|], v as [q l|q l|q| | | | |]; cbn in Hb; try (destruct Hb; fail); cbn in Ht; try tauto.
  - destruct Hb as [-> Hl]. cbn in Ha. match type of Ha with context [existsb ?f fs] => destruct (existsb f fs) end; [|discriminate]. injection Ha as <-. cbn.
    rewrite path_eqb_refl. cbn [andb orb].
    destruct (index_of_in "location" (map fst l)) as [j Hj].
    { rewrite Hl. change "location" with (fst ("location", location_type)). apply in_map, Ht. }
    pose proof (index_of_some _ _ _ Hj) as Hj'. rewrite Hj. cbn.
    replace (match m with Immutable => _ | Mutable => _ end) with (Some j) by (destruct m; reflexivity). cbn.
    split.
    + intros H. injection H as <-. exists j. split; [reflexivity|]. exact Hj'.
    + intros (k & -> & Hk). f_equal. f_equal.
      pose proof (Hf _ _ Hin) as Hnd. rewrite <- Hl in Hnd.
      rewrite NoDup_nth_error in Hnd. apply Hnd; [|exact (eq_trans Hj' (eq_sym Hk))].
      apply nth_error_Some. intros K. pose proof (eq_trans (eq_sym K) Hj') as K'. discriminate K'.
  - destruct Hb as [-> Hl]. destruct l as [|w l]; [discriminate|]. cbn in Ha. injection Ha as <-. cbn.
    rewrite path_eqb_refl, repeat_length. injection Hl as Hl. rewrite Hl, Nat.eqb_refl. cbn [andb].
    destruct (is_location_type t) eqn:E.
    + apply is_location_iff in E. destruct m; cbn;
        (split; [intros H; injection H as <-; split; [reflexivity|congruence]|intros [H _]; rewrite (H E); reflexivity]).
    + assert (Ht' : t <> location_type) by (intros K; apply is_location_iff in K; congruence).
      destruct m; cbn;
        (split;
         [destruct (call w) as [r|]; [|discriminate]; cbn; intros H; injection H as <-;
          split; [congruence|]; intros _; exists r; split; reflexivity
         |intros [_ H]; destruct (H Ht') as (r & -> & ->); reflexivity]).
Qed.
