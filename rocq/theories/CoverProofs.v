(** Proofs about reinterpreting expressions as assignment targets and patterns. *)
From Coq Require Import String Ascii List NArith Bool.
From Verif Require Import Base Word Token Punc Ast Track Cover Node NodeProofs SpecTree.
Import ListNotations.

Theorem target_iff e t : into_assign_target e = inr t <-> e = target_expr t.
Proof.
  split.
  - destruct e; cbn; intros H; try discriminate; injection H as <-; reflexivity.
  - intros ->. destruct t; reflexivity.
Qed.
Theorem target_error e x : into_assign_target e = inl x -> x = InvalidAssignTarget (expr_loc e).
Proof. destruct e; cbn; intros H; try discriminate; injection H as <-; reflexivity. Qed.

(** What is proved of every expression. *)
Definition ok (e : expr) : Prop :=
  forall p, into_assign_patt e = inr p <-> e = patt_expr p /\ rests_unlocated p.
Definition okv (v : prop_val) : Prop := match v with PV_Init e => ok e | _ => True end.
Definition oki (i : eli) : Prop := match i with L_Expr e => ok e | L_Spread _ e => ok e end.
Definition okp (p : prop) : Prop := match p with Pr_Regular _ _ v => okv v | _ => True end.
Definition okn (n : node) : Prop :=
  match n with
  | N_expr e => ok e
  | N_eli i => oki i
  | N_prop p => okp p
  | N_pval v => okv v
  | _ => True
  end.

Definition as_celt (oe : option eli) : celt := match oe with None => CHole | Some i => into_celt i end.
Definition as_elt (op : option (patt target)) : option eli :=
  option_map (fun p => L_Expr (patt_expr p)) op.
Definition as_prop (p : prop_patt target) : prop :=
  match p with
  | PP_Regular l k q => Pr_Regular l k (PV_Init (patt_expr q))
  | PP_Shorthand i => Pr_Shorthand i
  end.

Lemma cover_elts_iff es ps : (forall i, In (Some i) es -> oki i) ->
  (cover_elts (map as_celt es) = inr ps <->
   es = map as_elt ps /\ (forall p, In (Some p) ps -> rests_unlocated p)).
Proof.
  revert ps. induction es as [|oe es IH]; intros ps Hok; cbn [map cover_elts].
  - split.
    + intros H. injection H as <-. split; [reflexivity|]. intros p [].
    + intros [H _]. destruct ps; [reflexivity|discriminate].
  - assert (IH' := fun ps => IH ps (fun i Hi => Hok i (or_intror Hi))). clear IH.
    destruct oe as [[e|l e]|]; cbn [as_celt into_celt].
    + assert (He : ok e) by exact (Hok _ (or_introl eq_refl)). unfold ok in He.
      destruct (into_assign_patt e) as [x|p] eqn:Ep.
      * split; [discriminate|]. intros [H Hr]. destruct ps as [|[p|] ps]; try discriminate.
        injection H as H1 H2. exfalso.
        assert (inl x = inr p) by (apply He; split; [exact H1|apply Hr; left; reflexivity]). discriminate.
      * destruct (proj1 (He p) eq_refl) as [-> Hru].
        destruct (cover_elts (map as_celt es)) as [x|qs] eqn:Eq.
        -- split; [discriminate|]. intros [H Hr]. destruct ps as [|[q|] ps]; try discriminate.
           injection H as H1 H2. exfalso.
           assert (inl x = inr ps) by (apply IH'; split; [exact H2|intros; apply Hr; right; assumption]).
           discriminate.
        -- split.
           ++ intros H. injection H as <-. destruct (proj1 (IH' qs) eq_refl) as [-> Hq].
              split; [reflexivity|]. intros q [H|H]; [injection H as <-; exact Hru|apply Hq, H].
           ++ intros [H Hr]. destruct ps as [|[q|] ps]; try discriminate.
              injection H as H1 H2.
              assert (G : inr p = inr q :> cres _)
                by (apply He; split; [exact H1|apply Hr; left; reflexivity]).
              injection G as <-.
              assert (G : inr qs = inr ps :> cres _)
                by (apply IH'; split; [exact H2|intros; apply Hr; right; assumption]).
              injection G as <-. reflexivity.
    + split; [discriminate|]. intros [H _]. destruct ps as [|[p|] ps]; discriminate.
    + destruct (cover_elts (map as_celt es)) as [x|qs] eqn:Eq.
      * split; [discriminate|]. intros [H Hr]. destruct ps as [|[q|] ps]; try discriminate.
        injection H as H2. exfalso.
        assert (inl x = inr ps) by (apply IH'; split; [exact H2|intros; apply Hr; right; assumption]).
        discriminate.
      * split.
        -- intros H. injection H as <-. destruct (proj1 (IH' qs) eq_refl) as [-> Hq].
           split; [reflexivity|]. intros q [H|H]; [discriminate|apply Hq, H].
        -- intros [H Hr]. destruct ps as [|[q|] ps]; try discriminate.
           injection H as H2.
           assert (G : inr qs = inr ps :> cres _)
             by (apply IH'; split; [exact H2|intros; apply Hr; right; assumption]).
           injection G as <-. reflexivity.
Qed.

Lemma cover_props_iff ps qs : (forall p, In p ps -> okp p) ->
  (cover_props (map into_assign_prop ps) = inr qs <->
   ps = map as_prop qs /\ (forall l k q, In (PP_Regular l k q) qs -> rests_unlocated q)).
Proof.
  revert qs. induction ps as [|p ps IH]; intros qs Hok; cbn [map cover_props].
  - split.
    + intros H. injection H as <-. split; [reflexivity|]. intros ? ? ? [].
    + intros [H _]. destruct qs; [reflexivity|discriminate].
  - assert (IH' := fun qs => IH qs (fun p Hp => Hok p (or_intror Hp))). clear IH.
    assert (Hp : forall q, into_assign_prop p = inr q <->
       p = as_prop q /\ (forall l k r, q = PP_Regular l k r -> rests_unlocated r)).
    { assert (Hp := Hok p (or_introl eq_refl)). intros q.
      destruct p as [l k v|f|i]; cbn [into_assign_prop].
      - destruct v as [e| |]; cbn [into_prop_val].
        + cbn in Hp. unfold ok in Hp. split.
          * destruct (into_assign_patt e) as [x|r] eqn:Er; [discriminate|].
            intros H. injection H as <-. destruct (proj1 (Hp r) eq_refl) as [-> Hr].
            split; [reflexivity|]. intros l' k' r' H. injection H as <- <- <-. exact Hr.
          * intros [H Hr]. destruct q as [l' k' r|i]; [|discriminate].
            injection H as -> -> ->.
            rewrite (proj2 (Hp r)); [reflexivity|]. split; [reflexivity|eapply Hr; reflexivity].
        + split; [discriminate|]. intros [H _]. destruct q; discriminate.
        + split; [discriminate|]. intros [H _]. destruct q; discriminate.
      - split; [discriminate|]. intros [H _]. destruct q; discriminate.
      - split.
        + intros H. injection H as <-. split; [reflexivity|]. discriminate.
        + intros [H _]. destruct q; [discriminate|]. injection H as ->. reflexivity. }
    destruct (into_assign_prop p) as [x|q] eqn:Ep.
    + split; [discriminate|]. intros [H Hr]. destruct qs as [|q qs]; [discriminate|].
      injection H as H1 H2. exfalso.
      assert (inl x = inr q) by (apply Hp; split; [exact H1|intros l k r ->; eapply Hr; left; reflexivity]).
      discriminate.
    + destruct (proj1 (Hp q) eq_refl) as [-> Hq]. clear Ep.
      split.
      * destruct (cover_props (map into_assign_prop ps)) as [x|rs] eqn:Er; [discriminate|].
        intros H. injection H as <-. destruct (proj1 (IH' rs) eq_refl) as [-> Hr].
        split; [reflexivity|]. intros l k r [H|H]; [eapply Hq; exact H|eapply Hr; exact H].
      * intros [H Hr]. destruct qs as [|q' qs]; [discriminate|].
        cbn [map] in H. assert (H1 : as_prop q = as_prop q') by congruence.
        assert (H2 : ps = map as_prop qs) by congruence. clear H.
        assert (G : inr q = inr q' :> cres _).
        { apply Hp. split; [exact H1|]. intros l k r ->. eapply Hr. left. reflexivity. }
        injection G as <-.
        rewrite (proj2 (IH' qs)); [reflexivity|]. split; [exact H2|].
        intros l k r Hi. eapply Hr. right. exact Hi.
Qed.

Lemma list_last {A} (l : list A) : l = [] \/ exists l' x, l = l' ++ [x].
Proof.
  induction l as [|a l IH] using rev_ind; [left; reflexivity|right; eauto]. Qed.

Lemma as_elt_map ps :
  map (option_map (fun p => L_Expr (patt_expr_of cpatt_expr p))) ps = map as_elt ps.
Proof. reflexivity. Qed.

Lemma no_spread ps es l e : map as_elt ps = es ++ [Some (L_Spread l e)] -> False.
Proof.
  intros H. assert (Hi : In (Some (L_Spread l e)) (map as_elt ps)).
  { rewrite H. apply in_or_app. right. left. reflexivity. }
  apply in_map_iff in Hi. destruct Hi as ([p|] & Hp & _); discriminate.
Qed.

Lemma cover_arr_iff l es p : (forall i, In (Some i) es -> oki i) ->
  (cover_arr l (map as_celt es) = inr p <-> E_Arr l es = patt_expr p /\ rests_unlocated p).
Proof.
  intros Hok.
  assert (Hplain : (forall es' e, es <> es' ++ [Some (L_Spread None e)]) ->
    (match cover_elts (map as_celt es) with
     | inl x => inl x | inr ps => inr (Compound (C_Arr l ps None)) end = inr p
     <-> E_Arr l es = patt_expr p /\ rests_unlocated p)).
  { intros Hlast. assert (Hc := fun ps => cover_elts_iff es ps Hok). split.
    - destruct (cover_elts (map as_celt es)) as [x|ps] eqn:Ec; [discriminate|].
      intros H. injection H as <-. destruct (proj1 (Hc ps) eq_refl) as [-> Hr].
      split; [cbn [patt_expr patt_expr_of cpatt_expr]; rewrite app_nil_r; reflexivity|].
      constructor; [exact Hr|]. discriminate.
    - intros [H Hr]. destruct p as [t|[l' ps r|l' qs]].
      + destruct t; discriminate.
      + cbn [patt_expr patt_expr_of cpatt_expr] in H. injection H as <- H.
        inversion Hr as [|? ? ? Hr1 Hr2|]; subst. destruct r as [r|].
        * exfalso. destruct (Hr2 r eq_refl) as [Hl _]. destruct r as [lr pr]. cbn in Hl. subst lr. eapply Hlast. reflexivity.
        * rewrite app_nil_r in *. rewrite (proj2 (Hc ps)); [reflexivity|].
          split; [reflexivity|exact Hr1].
      + discriminate. }
  unfold cover_arr. destruct (list_last es) as [->|(es' & x & ->)].
  - apply Hplain. intros [|? ?] ?; discriminate.
  - rewrite map_app, rev_app_distr in *. cbn [map rev app] in *.
    destruct x as [[e|[sp|] e]|]; cbn [as_celt into_celt] in *.
    + apply Hplain. intros es2 e2 H. apply app_inj_tail in H. destruct H; discriminate.
    + apply Hplain. intros es2 e2 H. apply app_inj_tail in H. destruct H; discriminate.
    + clear Hplain.
      assert (He : ok e) by (apply (Hok (L_Spread None e)); apply in_or_app; right; left; reflexivity).
      assert (Hok' : forall i, In (Some i) es' -> oki i)
        by (intros i Hi; apply Hok, in_or_app; left; exact Hi).
      assert (Hc := fun ps => cover_elts_iff es' ps Hok'). rewrite rev_involutive.
      unfold ok in He. split.
      * destruct (into_assign_patt e) as [x|q] eqn:Eq; [discriminate|].
        destruct (cover_elts (map as_celt es')) as [x|ps] eqn:Ec; [discriminate|].
        intros H. injection H as <-.
        destruct (proj1 (Hc ps) eq_refl) as [-> Hr]. destruct (proj1 (He q) eq_refl) as [-> Hq].
        split; [reflexivity|]. constructor; [exact Hr|].
        intros x H. injection H as <-. split; [reflexivity|exact Hq].
      * intros [H Hr]. destruct p as [t|[l' ps r|l' qs]].
        -- destruct t; discriminate.
        -- cbn [patt_expr patt_expr_of cpatt_expr] in H.
           assert (Hl : l = l') by congruence.
           assert (H1 : es' ++ [Some (L_Spread None e)] =
             map as_elt ps ++ match r with
                  | Some r => [Some (L_Spread (rp_loc r) (patt_expr (rp_patt r)))]
                  | None => []
                  end) by (rewrite <- as_elt_map; unfold patt_expr; congruence).
           subst l'. inversion Hr as [|? ? ? Hr1 Hr2|]; subst. destruct r as [r|].
           ++ apply app_inj_tail in H1. destruct H1 as [H1 H2].
              injection H2 as H2 H3. destruct (Hr2 r eq_refl) as [Hl Hp].
              rewrite (proj2 (He (rp_patt r))) by (split; assumption).
              rewrite (proj2 (Hc ps)) by (split; assumption).
              destruct r as [lr pr]. cbn in *. subst lr. reflexivity.
           ++ exfalso. rewrite app_nil_r in H1. symmetry in H1. exact (no_spread _ _ _ _ H1).
        -- discriminate.
    + apply Hplain. intros es2 e2 H. apply app_inj_tail in H. destruct H; discriminate.
Qed.

Lemma simple_iff e :
  (match e with E_Arr _ _ | E_Obj _ _ => False | _ => True end) -> ok e.
Proof.
  intros He p. split.
  - destruct e; try contradiction; cbn; intros H; try discriminate; injection H as <-;
      split; try reflexivity; constructor.
  - intros [H _]. destruct p as [t|[l es r|l ps]].
    + subst e. destruct t; reflexivity.
    + subst e. contradiction.
    + subst e. contradiction.
Qed.

Lemma all_ok n : okn n.
Proof.
  induction n as [n IH] using node_ind'. destruct n; try exact I; cbn [okn].
  - destruct e; try (apply simple_iff; exact I); intros p.
    + cbn [into_assign_patt]. change (map _ elts) with (map as_celt elts). apply cover_arr_iff.
      intros i Hi. apply (IH (N_eli i)). cbn [children expr_children]. unfold of_holes.
      apply in_flat_map. exists (Some i). split; [exact Hi|left; reflexivity].
    + assert (Hok : forall q, In q props -> okp q).
      { intros q Hq. apply (IH (N_prop q)). cbn [children expr_children]. apply in_map, Hq. }
      assert (Hc := fun qs => cover_props_iff props qs Hok). cbn [into_assign_patt]. split.
      * destruct (cover_props (map into_assign_prop props)) as [x|qs] eqn:Ec; [discriminate|].
        intros H. injection H as <-. destruct (proj1 (Hc qs) eq_refl) as [-> Hr].
        split; [reflexivity|]. constructor. exact Hr.
      * intros [H Hr]. destruct p as [t|[l' es r|l' ps]].
        -- destruct t; discriminate.
        -- discriminate.
        -- cbn [patt_expr patt_expr_of cpatt_expr] in H.
           assert (Hl : l = l') by congruence. subst l'.
           assert (H1 : props = map as_prop ps) by exact (f_equal (fun e => match e with E_Obj _ x => x | _ => [] end) H).
           inversion Hr as [| |? ? Hr1]; subst. rewrite (proj2 (Hc ps)); [reflexivity|].
           split; [reflexivity|exact Hr1].
  - destruct e as [e|l e]; exact (IH (N_expr e) (or_introl eq_refl)).
  - destruct p as [l k v| |]; cbn; [|exact I|exact I].
    exact (IH (N_pval v) (or_intror (or_introl eq_refl))).
  - destruct v as [e| |]; cbn; [|exact I|exact I]. exact (IH (N_expr e) (or_introl eq_refl)).
Qed.

Theorem patt_iff e p : into_assign_patt e = inr p <-> e = patt_expr p /\ rests_unlocated p.
Proof. apply (all_ok (N_expr e)). Qed.

Theorem patt_lossless e p : into_assign_patt e = inr p -> patt_expr p = e.
Proof. intros H. apply patt_iff in H. destruct H as [-> _]. reflexivity. Qed.

(** An array literal that ends with a spread. *)
Theorem rest_accepted l es rest q r :
  into_assign_patt (E_Arr l es) = inr q ->
  (forall e', In (Some (L_Spread None e')) es -> False) ->
  into_assign_patt rest = inr r ->
  exists p, into_assign_patt (E_Arr l (es ++ [Some (L_Spread None rest)])) = inr p
            /\ patt_expr p = E_Arr l (es ++ [Some (L_Spread None rest)]).
Proof.
  intros Hq Hno Hr. apply patt_iff in Hq. destruct Hq as [Hq Hru]. apply patt_iff in Hr.
  destruct Hr as [-> Hrr]. destruct q as [t|[l' ps x|l' ps]]; [destruct t; discriminate| |discriminate].
  cbn [patt_expr patt_expr_of cpatt_expr] in Hq. assert (l = l') by congruence. subst l'.
  inversion Hru as [|? ? ? H1 H2|]; subst.
  assert (He : es = map as_elt ps ++ match x with
                  | Some r => [Some (L_Spread (rp_loc r) (patt_expr (rp_patt r)))]
                  | None => []
                  end) by (rewrite <- as_elt_map; unfold patt_expr; congruence).
  destruct x as [x|].
  - exfalso. destruct (H2 x eq_refl) as [Hl _]. destruct x as [lx px]. cbn in Hl. subst lx. eapply Hno. rewrite He.
    apply in_or_app. right. left. reflexivity.
  - rewrite app_nil_r in He. subst es.
    exists (Compound (C_Arr l ps (Some (RestPatt None r)))).
    assert (E : patt_expr (Compound (C_Arr l ps (Some (RestPatt None r)))) =
                E_Arr l (map as_elt ps ++ [Some (L_Spread None (patt_expr r))])) by reflexivity.
    split; [|exact E]. apply patt_iff. split; [symmetry; exact E|].
    constructor; [exact H1|]. intros y Hy. injection Hy as <-. split; [reflexivity|exact Hrr].
Qed.

(** With a location on it, the spread is refused. *)
Theorem rest_located l es sp rest :
  forall p, into_assign_patt (E_Arr l (es ++ [Some (L_Spread (Some sp) rest)])) <> inr p.
Proof.
  intros p H. apply patt_iff in H. destruct H as [H Hru].
  destruct p as [t|[l' ps x|l' ps]]; [destruct t; discriminate| |discriminate].
  cbn [patt_expr patt_expr_of cpatt_expr] in H.
  assert (He : es ++ [Some (L_Spread (Some sp) rest)] = map as_elt ps ++ match x with
                  | Some r => [Some (L_Spread (rp_loc r) (patt_expr (rp_patt r)))]
                  | None => []
                  end) by (rewrite <- as_elt_map; unfold patt_expr; congruence).
  destruct x as [x|].
  - apply app_inj_tail in He. destruct He as [_ He].
    inversion Hru as [|? ? ? H1 H2|]; subst. destruct (H2 x eq_refl) as [Hl _].
    destruct x as [lx px]. cbn in Hl. subst lx. discriminate.
  - rewrite app_nil_r in He. symmetry in He. exact (no_spread _ _ _ _ He).
Qed.
