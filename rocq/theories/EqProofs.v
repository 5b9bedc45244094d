(** The comparison of trees decides their equality. *)
From Coq Require Import String Ascii List NArith ZArith QArith Qpower Permutation Sorted Bool Lia.
From Verif Require Import Base Chars F64 Word Token Punc Ast Track Node NodeProofs SpecTree TreeProofs AstEq SpecEq.
Import ListNotations.
Local Open Scope nat_scope.

(** ** Leaves *)

Lemma str_eqb_iff a b : str_eqb a b = true <-> a = b.
Proof.
  revert b; induction a as [|x a IH]; intros [|y b]; cbn; try (split; congruence).
  rewrite andb_true_iff, N.eqb_eq, IH. split; [intros [-> ->]; reflexivity | injection 1; auto].
Qed.
Lemma posn_eqb_iff a b : posn_eqb a b = true <-> a = b.
Proof.
  destruct a, b. unfold posn_eqb. cbn. rewrite !andb_true_iff, !N.eqb_eq.
  split; [intros [[-> ->] ->]; reflexivity | injection 1; auto].
Qed.
Lemma span_eqb_iff a b : span_eqb a b = true <-> a = b.
Proof.
  destruct a, b. unfold span_eqb. cbn. rewrite andb_true_iff, !posn_eqb_iff.
  split; [intros [-> ->]; reflexivity | injection 1; auto].
Qed.
Lemma opt_eqb_iff {A} (eqb : A -> A -> bool) : (forall x y, eqb x y = true <-> x = y) ->
  forall a b, opt_eqb eqb a b = true <-> a = b.
Proof.
  intros H [x|] [y|]; cbn; try (split; congruence). rewrite H. split; [intros ->; reflexivity | injection 1; auto].
Qed.
Lemma loc_eqb_iff a b : loc_eqb a b = true <-> a = b.
Proof. apply opt_eqb_iff, span_eqb_iff. Qed.
Lemma semi_eqb_iff a b : semi_eqb a b = true <-> a = b.
Proof.
  destruct a, b; cbn; try (split; congruence). rewrite (opt_eqb_iff _ posn_eqb_iff).
  split; [intros ->; reflexivity | injection 1; auto].
Qed.
Lemma atom_eqb_iff a b : atom_eqb a b = true <-> a = b.
Proof. split; [apply internal_atom_dec_bl | apply internal_atom_dec_lb]. Qed.
Lemma name_eqb_iff a b : name_eqb a b = true <-> a = b.
Proof.
  destruct a, b; cbn; try (split; congruence).
  - rewrite atom_eqb_iff. split; [intros ->; reflexivity | injection 1; auto].
  - rewrite str_eqb_iff. split; [intros ->; reflexivity | injection 1; auto].
Qed.
Lemma id_eqb_iff a b : id_eqb a b = true <-> a = b.
Proof.
  destruct a, b. unfold id_eqb. cbn. rewrite andb_true_iff, loc_eqb_iff, name_eqb_iff.
  split; [intros [-> ->]; reflexivity | injection 1; auto].
Qed.
Lemma dot_key_eqb_iff a b : dot_key_eqb a b = true <-> a = b.
Proof.
  destruct a, b. unfold dot_key_eqb. cbn. rewrite andb_true_iff, loc_eqb_iff, str_eqb_iff.
  split; [intros [-> ->]; reflexivity | injection 1; auto].
Qed.
Lemma op_eqb_iff {T} (eqb : T -> T -> bool) : (forall x y, eqb x y = true <-> x = y) ->
  forall a b, op_eqb eqb a b = true <-> a = b.
Proof.
  intros H [l x] [m y]. unfold op_eqb. cbn. rewrite andb_true_iff, H.
  change (opt_eqb span_eqb l m) with (loc_eqb l m). rewrite loc_eqb_iff.
  split; [intros [-> ->]; reflexivity | injection 1; auto].
Qed.
Lemma unop_eqb_iff a b : op_eqb unop_tag_eqb a b = true <-> a = b.
Proof. apply op_eqb_iff. intros. split; [apply internal_unop_tag_dec_bl | apply internal_unop_tag_dec_lb]. Qed.
Lemma binop_eqb_iff a b : op_eqb binop_tag_eqb a b = true <-> a = b.
Proof. apply op_eqb_iff. intros. split; [apply internal_binop_tag_dec_bl | apply internal_binop_tag_dec_lb]. Qed.
Lemma logop_eqb_iff a b : op_eqb logop_tag_eqb a b = true <-> a = b.
Proof. apply op_eqb_iff. intros. split; [apply internal_logop_tag_dec_bl | apply internal_logop_tag_dec_lb]. Qed.
Lemma assop_eqb_iff a b : op_eqb assop_tag_eqb a b = true <-> a = b.
Proof. apply op_eqb_iff. intros. split; [apply internal_assop_tag_dec_bl | apply internal_assop_tag_dec_lb]. Qed.

(** ** Literals *)

Lemma two_pos : ~ Qeq (inject_Z 2) 0.
Proof. intro H. discriminate H. Qed.
Lemma qpower_nz e : ~ Qeq (Qpower (inject_Z 2) e) 0.
Proof. apply Qpower_not_0, two_pos. Qed.
Lemma qpower_N (k : N) : Qeq (Qpower (inject_Z 2) (Z.of_N k)) (inject_Z (Z.of_N (2 ^ k))).
Proof.
  rewrite N2Z.inj_pow. change (Z.of_N 2) with 2%Z. symmetry. apply Zpower_Qpower. lia.
Qed.
Lemma finite_value_shift s m e em : (em <= e)%Z ->
  Qeq (finite_value s m e)
      (Qmult (inject_Z (if s then Z.opp (Z.of_N (m * 2 ^ Z.to_N (e - em))%N)
                        else Z.of_N (m * 2 ^ Z.to_N (e - em))%N))
             (Qpower (inject_Z 2) em)).
Proof.
  intros H. unfold finite_value.
  replace e with (Z.of_N (Z.to_N (e - em)) + em)%Z at 1 by lia.
  rewrite Qpower_plus by apply two_pos. rewrite qpower_N, Qmult_assoc, <- inject_Z_mult.
  destruct s; rewrite N2Z.inj_mul; [rewrite Z.mul_opp_l|]; reflexivity.
Qed.
Lemma f64_eqb_iff a b : f64_eqb a b = true <-> same_number a b.
Proof.
  destruct a as [|s|s m e], b as [|t|t n f]; cbn [f64_eqb];
    try (split; [discriminate | inversion 1]).
  - rewrite Bool.eqb_true_iff. split; [intros ->; constructor | inversion 1; reflexivity].
  - rewrite andb_true_iff, orb_true_iff, !N.eqb_eq, Bool.eqb_true_iff.
    set (em := Z.min e f). set (m' := (m * 2 ^ Z.to_N (e - em))%N). set (n' := (n * 2 ^ Z.to_N (f - em))%N).
    assert (E : Qeq (finite_value s m e) (finite_value t n f) <->
                (if s then Z.opp (Z.of_N m') else Z.of_N m') = (if t then Z.opp (Z.of_N n') else Z.of_N n')).
    { rewrite (finite_value_shift s m e em), (finite_value_shift t n f em) by lia. fold m' n'.
      split; intros H.
      - apply Qmult_inj_r in H; [apply inject_Z_injective; exact H|apply qpower_nz].
      - rewrite H. reflexivity. }
    split.
    + intros H. constructor. apply E. destruct s, t, H as [H [H'|H']]; try discriminate; lia.
    + inversion 1; subst. match goal with H : Qeq _ _ |- _ => apply E in H end.
      destruct s, t; (split; [lia|]); first [left; reflexivity | right; lia].
Qed.

Lemma same_number_sym a b : same_number a b -> same_number b a.
Proof. destruct 1; constructor. symmetry. assumption. Qed.
Lemma same_number_trans a b c : same_number a b -> same_number b c -> same_number a c.
Proof. destruct 1; inversion 1; subst; constructor. etransitivity; eassumption. Qed.
Lemma same_number_refl a : a <> FNan -> same_number a a.
Proof. destruct a; [congruence|constructor|constructor; reflexivity]. Qed.

Lemma insert_perm c l : Permutation (insert_sorted c l) (c :: l).
Proof.
  induction l as [|d l IH]; cbn; [reflexivity|]. destruct (c <=? d)%N; [reflexivity|].
  rewrite IH. apply perm_swap.
Qed.
Lemma alpha_perm l : Permutation (alphabetize l) l.
Proof. induction l as [|c l IH]; cbn; [reflexivity|]. rewrite insert_perm, IH. reflexivity. Qed.
Lemma insert_sorted_ok c l : StronglySorted N.le l -> StronglySorted N.le (insert_sorted c l).
Proof.
  induction 1 as [|d l H IH F]; cbn; [repeat constructor|].
  destruct (N.leb_spec c d).
  - constructor; [constructor; assumption|]. constructor; [assumption|].
    eapply Forall_impl; [|exact F]. cbn. lia.
  - constructor; [assumption|]. rewrite Forall_forall in *. intros x Hx.
    apply (Permutation_in _ (insert_perm c l)) in Hx. destruct Hx as [<-|Hx]; [lia|auto].
Qed.
Lemma alpha_sorted l : StronglySorted N.le (alphabetize l).
Proof. induction l; cbn; [constructor|]. apply insert_sorted_ok. assumption. Qed.
Lemma sorted_unique (a b : list N) :
  StronglySorted N.le a -> StronglySorted N.le b -> Permutation a b -> a = b.
Proof.
  intros Ha. revert b. induction Ha as [|x a Ha IH Fa]; intros b Hb P.
  - apply Permutation_nil in P. congruence.
  - destruct Hb as [|y b Hb Fb]; [apply Permutation_sym, Permutation_nil in P; discriminate|].
    rewrite Forall_forall in *.
    assert (x = y).
    { assert (In x (y :: b)) as Hx by (apply (Permutation_in _ P); left; reflexivity).
      assert (In y (x :: a)) as Hy by (apply (Permutation_in _ (Permutation_sym P)); left; reflexivity).
      destruct Hx as [->|Hx]; [reflexivity|]. destruct Hy as [->|Hy]; [reflexivity|].
      specialize (Fa _ Hy). specialize (Fb _ Hx). lia. }
    subst y. f_equal. apply IH; [assumption|]. eapply Permutation_cons_inv; exact P.
Qed.
Lemma flags_eqb_iff a b : str_eqb (alphabetize a) (alphabetize b) = true <-> Permutation a b.
Proof.
  rewrite str_eqb_iff. split; intros H.
  - rewrite <- (alpha_perm a), <- (alpha_perm b), H. reflexivity.
  - apply sorted_unique; try apply alpha_sorted. rewrite !alpha_perm. exact H.
Qed.

(** ** One level at a time *)

Definition E (n m : node) : Prop := node_eqb n m = true.

Lemma list_eqb_iff {A} (eqb : A -> A -> bool) a b :
  list_eqb eqb a b = true <-> Forall2 (fun x y => eqb x y = true) a b.
Proof.
  revert b; induction a as [|x a IH]; intros [|y b]; cbn; try (split; [congruence|inversion 1]).
  - split; [constructor|reflexivity].
  - rewrite andb_true_iff, IH. split; [intros [? ?]; constructor; assumption | inversion 1; auto].
Qed.
Lemma Forall2_len {A B} (R : A -> B -> Prop) a b : Forall2 R a b -> length a = length b.
Proof. induction 1; cbn; congruence. Qed.
Lemma each_of_len {A B C} (v : C) (a : list A) (b : list B) : length a = length b -> each v a = each v b.
Proof. revert b; induction a; intros [|? ?]; cbn; try congruence. intros [= H]. f_equal. apply IHa, H. Qed.

Section Lists.
Context {A : Type} (f : A -> node) (eqb : A -> A -> bool).
Hypothesis Hf : forall x y, eqb x y = node_eqb (f x) (f y).

Lemma list_kids a b : list_eqb eqb a b = true <-> Forall2 E (of_list f a) (of_list f b).
Proof.
  rewrite list_eqb_iff. unfold of_list, E. split.
  - induction 1; cbn; constructor; [rewrite <- Hf|]; assumption.
  - revert b; induction a as [|x a IH]; intros [|y b]; cbn; inversion 1; subst; constructor;
      [rewrite Hf|apply IH]; assumption.
Qed.
Lemma list_each {C} (v : C) a b : list_eqb eqb a b = true -> each v a = each v b.
Proof. rewrite list_eqb_iff. intros H. apply each_of_len, (Forall2_len _ _ _ H). Qed.
Lemma opt_kids a b : opt_eqb eqb a b = true <-> Forall2 E (of_opt f a) (of_opt f b).
Proof.
  destruct a as [x|], b as [y|]; cbn; unfold E.
  - rewrite Hf. split; [constructor; [assumption|constructor] | inversion 1; assumption].
  - split; [discriminate|inversion 1].
  - split; [discriminate|inversion 1].
  - split; [constructor|reflexivity].
Qed.
Lemma opt_opt {C} (v : C) a b : opt_eqb eqb a b = true -> opt v a = opt v b.
Proof. destruct a, b; cbn; try discriminate; reflexivity. Qed.
Lemma holes_kids {C} (v : C) a b :
  list_eqb (opt_eqb eqb) a b = true <-> holes v a = holes v b /\ Forall2 E (of_holes f a) (of_holes f b).
Proof.
  unfold of_holes, E. revert b; induction a as [|x a IH]; intros [|y b]; cbn.
  - split; [split; [reflexivity|constructor]|reflexivity].
  - split; [discriminate|intros [H _]; discriminate].
  - split; [discriminate|intros [H _]; discriminate].
  - rewrite andb_true_iff, IH. destruct x as [x|], y as [y|]; cbn.
    + rewrite Hf. split.
      * intros [H [X H']]. split; [f_equal; exact X|constructor; assumption].
      * intros [[= H] H']. inversion H'; subst. repeat split; assumption.
    + split; intros [H _]; discriminate.
    + split; intros [H _]; discriminate.
    + split; [intros [_ [X H]]; split; [f_equal; exact X|assumption] | intros [[= H] H']; repeat split; assumption].
Qed.
End Lists.

Lemma Forall2_split {A} (R : A -> A -> Prop) a b c d :
  length a = length c -> Forall2 R (a ++ b) (c ++ d) <-> Forall2 R a c /\ Forall2 R b d.
Proof.
  intros L. split; [|intros [? ?]; apply Forall2_app; assumption].
  revert c L; induction a as [|x a IH]; intros [|y c] L; cbn in *; try discriminate.
  - intros H. split; [constructor|exact H].
  - inversion 1; subst. destruct (IH c) as [? ?]; [congruence|assumption|]. split; [constructor|]; assumption.
Qed.

(** ** Locations are compared *)

Ltac bools :=
  repeat match goal with
  | H : _ && _ = true |- _ => apply andb_true_iff in H; destruct H
  | H : loc_eqb _ _ = true |- _ => apply loc_eqb_iff in H
  | H : semi_eqb _ _ = true |- _ => apply semi_eqb_iff in H
  | H : id_eqb _ _ = true |- _ => apply id_eqb_iff in H
  | H : dot_key_eqb _ _ = true |- _ => apply dot_key_eqb_iff in H
  | H : Bool.eqb _ _ = true |- _ => apply eqb_prop in H
  | H : op_eqb unop_tag_eqb _ _ = true |- _ => apply unop_eqb_iff in H
  | H : op_eqb binop_tag_eqb _ _ = true |- _ => apply binop_eqb_iff in H
  | H : op_eqb logop_tag_eqb _ _ = true |- _ => apply logop_eqb_iff in H
  | H : op_eqb assop_tag_eqb _ _ = true |- _ => apply assop_eqb_iff in H
  end.

Lemma expr_eqb_loc a b : expr_eqb a b = true -> expr_loc a = expr_loc b.
Proof.
  intros H. apply loc_eqb_iff. destruct (loc_eqb (expr_loc a) (expr_loc b)) eqn:X; [reflexivity|].
  destruct a; cbn [expr_eqb] in H; rewrite X in H; discriminate H.
Qed.
Lemma target_eqb_loc a b : target_eqb a b = true -> target_loc a = target_loc b.
Proof. destruct a, b; cbn; intros H; try discriminate; bools; congruence. Qed.
Lemma cpatt_eqb_loc {T} (f : T -> T -> bool) a b : cpatt_eqb f a b = true -> cpatt_loc a = cpatt_loc b.
Proof. destruct a, b; cbn; intros H; try discriminate; bools; congruence. Qed.
Lemma func_eqb_loc {I B} (fi : I -> I -> bool) (fb : B -> B -> bool) a b : func_eqb fi fb a b = true -> fn_loc a = fn_loc b.
Proof. unfold func_eqb. intros H; bools; congruence. Qed.
Lemma block_eqb_loc a b : block_eqb a b = true -> block_loc a = block_loc b.
Proof. destruct a, b; cbn; intros H; bools; congruence. Qed.
Lemma stmt_eqb_loc a b : stmt_eqb a b = true -> stmt_loc a = stmt_loc b.
Proof. destruct a, b; cbn [stmt_eqb]; intros H; try discriminate; bools; try (cbn; congruence). apply block_eqb_loc, H. Qed.
Lemma decl_eqb_loc a b : decl_eqb a b = true -> decl_loc a = decl_loc b.
Proof. destruct a, b; cbn [decl_eqb]; intros H; try discriminate; bools; try (cbn; congruence). apply (func_eqb_loc _ _ _ _ H). Qed.
Lemma item_eqb_loc a b : item_eqb a b = true -> item_loc a = item_loc b.
Proof. destruct a, b; cbn [item_eqb item_loc]; intros H; try discriminate; [apply decl_eqb_loc|apply stmt_eqb_loc]; exact H. Qed.
Lemma export_eqb_loc a b : export_eqb a b = true -> export_loc a = export_loc b.
Proof. destruct a, b; cbn [export_eqb export_loc]; intros H; try discriminate; bools; try congruence. apply decl_eqb_loc; exact H. Qed.
Lemma import_eqb_loc a b : import_eqb a b = true -> import_loc a = import_loc b.
Proof. destruct a, b; cbn; intros H; bools; congruence. Qed.
Lemma patt_i_loc a b : patt_eqb id_eqb a b = true -> patt_id_loc a = patt_id_loc b.
Proof. destruct a, b; cbn; intros H; try discriminate; bools; [congruence|apply (cpatt_eqb_loc _ _ _ H)]. Qed.
Lemma patt_t_loc a b : patt_eqb target_eqb a b = true -> patt_target_loc a = patt_target_loc b.
Proof. destruct a, b; cbn; intros H; try discriminate; [apply target_eqb_loc; exact H|apply (cpatt_eqb_loc _ _ _ H)]. Qed.
Lemma node_eqb_loc n m : node_eqb n m = true -> node_loc n = node_loc m.
Proof.
  destruct n, m; cbn [node_eqb node_loc]; intros H; try discriminate H;
    eauto using expr_eqb_loc, target_eqb_loc, func_eqb_loc, block_eqb_loc, stmt_eqb_loc, decl_eqb_loc,
      item_eqb_loc, export_eqb_loc, import_eqb_loc, patt_i_loc, patt_t_loc;
    repeat match goal with
    | a : eli, b : eli |- _ => destruct a, b
    | a : prop, b : prop |- _ => destruct a, b
    | a : prop_val, b : prop_val |- _ => destruct a, b
    | a : for_head, b : for_head |- _ => destruct a, b
    | a : for_in_head, b : for_in_head |- _ => destruct a, b
    | a : for_of_head, b : for_of_head |- _ => destruct a, b
    | a : catch, b : catch |- _ => destruct a, b
    | a : case, b : case |- _ => destruct a, b
    | a : dtor, b : dtor |- _ => destruct a, b
    | a : const_dtor, b : const_dtor |- _ => destruct a, b
    | a : prop_patt _, b : prop_patt _ |- _ => destruct a, b
    | a : prop_key, b : prop_key |- _ => destruct a, b
    | a : mod_item, b : mod_item |- _ => destruct a, b
    end; try discriminate H;
    cbn in H |- *; unfold rest_eqb, module_eqb, body_eqb, params_eqb, dir_eqb in *; bools; try congruence;
    eauto using expr_eqb_loc, target_eqb_loc, func_eqb_loc, block_eqb_loc, stmt_eqb_loc, decl_eqb_loc,
      item_eqb_loc, export_eqb_loc, import_eqb_loc, patt_i_loc, patt_t_loc.
Qed.

(** ** One level of the comparison *)

Lemma of_list_len {A} (f : A -> node) a : length (of_list f a) = length a.
Proof. apply map_length. Qed.
Lemma of_opt_len {A B} (f : A -> node) (v : B) a b : opt v a = opt v b -> length (of_opt f a) = length (of_opt f b).
Proof. destruct a, b; cbn; congruence. Qed.
Lemma of_holes_len {A B} (f : A -> node) (v : B) a b :
  holes v a = holes v b -> length (of_holes f a) = length (of_holes f b).
Proof.
  revert b; induction a as [|[x|] a IH]; intros [|[y|] b]; cbn; try congruence; intros [= H];
    unfold of_holes in *; cbn; [f_equal|]; apply IH, H.
Qed.

Ltac leaf_bools :=
  repeat match goal with
  | H : _ && _ = true |- _ => apply andb_true_iff in H; destruct H
  | H : loc_eqb _ _ = true |- _ => apply loc_eqb_iff in H
  | H : semi_eqb _ _ = true |- _ => apply semi_eqb_iff in H
  | H : Bool.eqb _ _ = true |- _ => apply eqb_prop in H
  | H : name_eqb _ _ = true |- _ => apply name_eqb_iff in H
  | H : str_eqb (alphabetize _) _ = true |- _ => apply flags_eqb_iff in H
  | H : str_eqb _ _ = true |- _ => apply str_eqb_iff in H
  | H : f64_eqb _ _ = true |- _ => apply f64_eqb_iff in H
  | H : list_eqb _ _ _ = true |- _ => progress (try (apply (holes_kids N_eli eli_eqb) with (v := no_eli) in H;
        [destruct H|reflexivity]))
  end.
Ltac all_cases :=
  repeat match goal with
  | a : expr, b : expr |- _ => destruct a, b
  | a : eli, b : eli |- _ => destruct a, b
  | a : stmt, b : stmt |- _ => destruct a, b
  | a : prop, b : prop |- _ => destruct a, b
  | a : prop_val, b : prop_val |- _ => destruct a, b
  end.
Ltac shapes_eq :=
  repeat match goal with
  | H : list_eqb ?e ?a ?b = true |- context [each ?v ?a] => rewrite (list_each e v a b H)
  | H : opt_eqb ?e ?a ?b = true |- context [opt ?v ?a] => rewrite (opt_opt e v a b H)
  | H : list_eqb ?e ?a ?b = true |- context [option_map (each ?v) (Some ?a)] => cbn [option_map]
  end.
Ltac kid := unfold E; cbn [node_eqb]; first [assumption | reflexivity | idtac].
Ltac kids_of_eqb :=
  repeat first
    [ apply Forall2_nil
    | apply Forall2_cons; [kid|]
    | apply Forall2_app
    | match goal with
      | H : list_eqb ?e ?a ?b = true |- Forall2 E (of_list ?f ?a) (of_list ?f ?b) =>
          apply (list_kids f e); [reflexivity|exact H]
      | H : opt_eqb ?e ?a ?b = true |- Forall2 E (of_opt ?f ?a) (of_opt ?f ?b) =>
          apply (opt_kids f e); [reflexivity|exact H]
      | H : list_eqb (opt_eqb ?e) ?a ?b = true |- Forall2 E (of_holes ?f ?a) (of_holes ?f ?b) =>
          apply (holes_kids f e (fun _ _ => eq_refl) tt); exact H
      end ].
Lemma holes_eq {A C} (e : A -> A -> bool) (v : C) a b : list_eqb (opt_eqb e) a b = true -> holes v a = holes v b.
Proof.
  revert b; induction a as [|x a IH]; intros [|y b]; cbn; try congruence.
  intros H. apply andb_true_iff in H. destruct H as [H H']. f_equal; [apply (opt_opt e v _ _ H)|apply IH, H'].
Qed.


Ltac and_bools := repeat match goal with H : _ && _ = true |- _ => apply andb_true_iff in H; destruct H end.
Ltac shape_goal :=
  repeat match goal with
  | H : list_eqb (opt_eqb ?e) ?a ?b = true |- context [holes ?v ?a] => rewrite (holes_eq e v a b H)
  | H : list_eqb ?e ?a ?b = true |- context [each ?v ?a] => rewrite (list_each e v a b H)
  | H : opt_eqb ?e ?a ?b = true |- context [opt ?v ?a] => rewrite (opt_opt e v a b H)
  end.

Definition step_ok (n m : node) : Prop :=
  node_semi n = node_semi m /\ same_data n m /\ Forall2 E (children n) (children m).

Lemma step_expr a b : E (N_expr a) (N_expr b) -> step_ok (N_expr a) (N_expr b).
Proof.
  unfold E, step_ok. cbn [node_eqb]. intros H.
  destruct (loc_eqb (expr_loc a) (expr_loc b)) eqn:L; [|exfalso; destruct a; cbn [expr_eqb] in H; rewrite L in H; discriminate H].
  assert (H' := H). destruct a; cbn [expr_eqb] in H'; rewrite L in H'; cbn [negb] in H'; destruct b; try discriminate H'.
  all: (split; [reflexivity|]).
  all: repeat match goal with a : option (list eli) |- _ => destruct a end; try discriminate H'; and_bools.
  all: split; [cbn [same_data shape expr_shape option_map]; shape_goal; try reflexivity
              | cbn [children expr_children]; unfold of_opt; kids_of_eqb].
  all: unfold number_literal_eqb, string_literal_eqb, regexp_literal_eqb in *; leaf_bools; auto.
  all: match goal with H : match ?l with [] => _ | _ => _ end = true |- _ => destruct l; [constructor|discriminate] end.
Qed.
Lemma step_eli a b : E (N_eli a) (N_eli b) -> step_ok (N_eli a) (N_eli b).
Proof.
  unfold E, step_ok. intros H. destruct a, b; cbn in H; try discriminate H; and_bools.
  all: split; [reflexivity|split; [reflexivity|cbn; kids_of_eqb]].
Qed.
Lemma step_stmt a b : E (N_stmt a) (N_stmt b) -> step_ok (N_stmt a) (N_stmt b).
Proof.
  unfold E, step_ok. cbn [node_eqb]. intros H. destruct a; cbn [stmt_eqb] in H; destruct b; try discriminate H; and_bools.
  all: split; [cbn; repeat match goal with H : semi_eqb _ _ = true |- _ => apply semi_eqb_iff in H; subst end; reflexivity|].
  all: split; [cbn [same_data shape stmt_shape]; shape_goal; try reflexivity
              | cbn [children stmt_children]; kids_of_eqb].
Qed.
Lemma step_patt {T} (simple : T -> node) np nr npp no (ft : T -> T -> bool)
  (Hs : forall x y, ft x y = node_eqb (simple x) (simple y))
  (Hp : forall x y, patt_eqb ft x y = node_eqb (np x) (np y))
  (Hr : forall x y, rest_eqb (patt_eqb ft) x y = node_eqb (nr x) (nr y))
  (Hpp : forall x y, prop_patt_eqb (patt_eqb ft) x y = node_eqb (npp x) (npp y)) a b :
  patt_eqb ft a b = true ->
  patt_shape no a = patt_shape no b /\ Forall2 E (patt_children simple np nr npp a) (patt_children simple np nr npp b).
Proof.
  intros H. destruct a as [t|[l es r|l ps]], b as [t'|[l' es' r'|l' ps']]; cbn in H; try discriminate H; and_bools; cbn [patt_shape patt_children].
  - split; [reflexivity|]. constructor; [|constructor]. unfold E. rewrite <- Hs. exact H.
  - change (list_eqb (opt_eqb (patt_eqb ft)) es es' = true) in H1.
    change (opt_eqb (rest_eqb (patt_eqb ft)) r r' = true) in H0.
    split; [apply (f_equal2 (fun x y => Compound (C_Arr None x y)));
            [exact (holes_eq _ _ _ _ H1)|exact (opt_opt _ _ _ _ H0)]|]. apply Forall2_app.
    + apply (holes_kids np _ Hp tt) in H1. apply H1.
    + apply (opt_kids nr _ Hr) in H0. apply H0.
  - change (list_eqb (prop_patt_eqb (patt_eqb ft)) ps ps' = true) in H0.
    split; [apply (f_equal (fun x => Compound (C_Obj None x))); exact (list_each _ _ _ _ H0)|].
    apply (list_kids npp _ Hpp) in H0. apply H0.
Qed.
Lemma step_pp {T} (np : patt T -> node) (no : T) (ft : T -> T -> bool)
  (Hp : forall x y, patt_eqb ft x y = node_eqb (np x) (np y)) a b :
  prop_patt_eqb (patt_eqb ft) a b = true ->
  pp_shape no a = pp_shape no b /\ Forall2 E (pp_children np a) (pp_children np b).
Proof.
  destruct a, b; cbn; intros H; try discriminate H; and_bools; (split; [reflexivity|]).
  - constructor; [assumption|]. constructor; [|constructor]. unfold E. rewrite <- Hp. assumption.
  - constructor; [assumption|constructor].
Qed.
Lemma step_func {I} (idn : I -> list node) (v : I -> I) (fi : I -> I -> bool) a b :
  (forall x y, fi x y = true -> v x = v y /\ Forall2 E (idn x) (idn y)) ->
  func_eqb fi (body_eqb item_eqb) a b = true ->
  func_shape (v (fn_id a)) a = func_shape (v (fn_id b)) b /\ Forall2 E (func_children idn a) (func_children idn b).
Proof.
  intros Hi H. unfold func_eqb in H. and_bools. destruct (Hi _ _ H3) as [X Y].
  apply eqb_prop in H0. split; [unfold func_shape; congruence|].
  unfold func_children. apply Forall2_app; [exact Y|]. kids_of_eqb.
Qed.
Lemma step_node n m : E n m -> step_ok n m.
Proof.
  destruct n, m; try discriminate; intros H; try (apply step_expr, H); try (apply step_eli, H); try (apply step_stmt, H);
    unfold E in H; cbn [node_eqb] in H; unfold step_ok; cbn [node_semi].
  all: try (destruct (step_patt N_id N_ipatt N_irest N_ipp no_id id_eqb ltac:(reflexivity) ltac:(reflexivity) ltac:(reflexivity) ltac:(reflexivity) _ _ H) as [X Y];
            split; [reflexivity|split; [cbn [same_data shape]; f_equal; exact X | exact Y]]).
  all: try (destruct (step_patt N_target N_tpatt N_trest N_tpp no_target target_eqb ltac:(reflexivity) ltac:(reflexivity) ltac:(reflexivity) ltac:(reflexivity) _ _ H) as [X Y];
            split; [reflexivity|split; [cbn [same_data shape]; f_equal; exact X | exact Y]]).
  all: try (destruct (step_pp N_ipatt no_id id_eqb ltac:(reflexivity) _ _ H) as [X Y];
            split; [reflexivity|split; [cbn [same_data shape]; f_equal; exact X | exact Y]]).
  all: try (destruct (step_pp N_tpatt no_target target_eqb ltac:(reflexivity) _ _ H) as [X Y];
            split; [reflexivity|split; [cbn [same_data shape]; f_equal; exact X | exact Y]]).
  all: lazymatch type of H with
    | id_eqb _ _ = true => unfold id_eqb in H
    | dot_key_eqb _ _ = true => unfold dot_key_eqb in H
    | dir_eqb _ _ = true => unfold dir_eqb in H
    | params_eqb _ _ = true => unfold params_eqb in H
    | body_eqb _ _ _ = true => unfold body_eqb in H
    | module_eqb _ _ = true => unfold module_eqb, body_eqb in H
    | rest_eqb _ _ _ = true => unfold rest_eqb in H
    | func_eqb (opt_eqb id_eqb) _ _ _ = true =>
        destruct (step_func (of_opt N_id) (opt no_id) (opt_eqb id_eqb) _ _
          (fun x y h => conj (opt_opt id_eqb no_id x y h) (proj1 (opt_kids N_id id_eqb (fun _ _ => eq_refl) x y) h)) H) as [X Y]
    | func_eqb prop_key_eqb _ _ _ = true =>
        destruct (step_func (fun k => [N_pk k]) (fun _ => no_key) prop_key_eqb _ _
          (fun x y h => conj eq_refl (Forall2_cons (R := E) (N_pk x) (N_pk y) h (Forall2_nil E))) H) as [X Y]
    | func_eqb id_eqb _ _ _ = true =>
        destruct (step_func (fun k => [N_id k]) (fun _ => no_id) id_eqb _ _
          (fun x y h => conj eq_refl (Forall2_cons (R := E) (N_id x) (N_id y) h (Forall2_nil E))) H) as [X Y]
    | op_eqb unop_tag_eqb _ _ = true => apply unop_eqb_iff in H; subst
    | op_eqb binop_tag_eqb _ _ = true => apply binop_eqb_iff in H; subst
    | op_eqb logop_tag_eqb _ _ = true => apply logop_eqb_iff in H; subst
    | op_eqb assop_tag_eqb _ _ = true => apply assop_eqb_iff in H; subst
    | _ ?a ?b = true => destruct a, b;
        cbn [prop_eqb prop_val_eqb target_eqb block_eqb for_head_eqb for_in_head_eqb for_of_head_eqb catch_eqb case_eqb item_eqb
            decl_eqb dtor_eqb const_dtor_eqb prop_key_eqb import_eqb export_eqb mod_item_eqb] in H; try discriminate H
    end.
  all: and_bools.
  all: cbn [node_semi]; try match goal with H : semi_eqb _ _ = true |- _ => apply semi_eqb_iff in H end;
       (split; [congruence|]).
  all: cbn [same_data shape children prop_children pval_children target_children].
  all: try (split; [congruence|exact Y]).
  all: split; [ | solve [kids_of_eqb]].
  all: try reflexivity.
  all: unfold string_literal_eqb, number_literal_eqb in *; leaf_bools; try assumption; try congruence.
  all: unfold patt in *; shape_goal; try reflexivity.
  apply (f_equal N_params), (f_equal2 (Params None)); [exact (list_each _ _ _ _ H1)|exact (opt_opt _ _ _ _ H0)].
Qed.

(** ** And back *)

Ltac split_f2 :=
  repeat match goal with
  | H : Forall2 _ (_ :: _) (_ :: _) |- _ => inversion H; clear H; subst
  | H : Forall2 _ [] [] |- _ => clear H
  | H : Forall2 _ [] (_ :: _) |- _ => inversion H
  | H : Forall2 _ (_ :: _) [] |- _ => inversion H
  | H : Forall2 E (of_list ?f ?a ++ _) (of_list ?f ?b ++ _), X : each ?v ?a = each ?v ?b |- _ =>
      apply Forall2_split in H; [destruct H|rewrite !of_list_len; exact (each_len v a b X)]
  | H : Forall2 E (of_opt ?f ?a ++ _) (of_opt ?f ?b ++ _), X : opt ?v ?a = opt ?v ?b |- _ =>
      apply Forall2_split in H; [destruct H|exact (of_opt_len f v a b X)]
  | H : Forall2 E (of_holes ?f ?a ++ _) (of_holes ?f ?b ++ _), X : holes ?v ?a = holes ?v ?b |- _ =>
      apply Forall2_split in H; [destruct H|exact (of_holes_len f v a b X)]
  end.
Ltac back :=
  repeat match goal with |- _ && _ = true => apply andb_true_iff; split end;
  try match goal with
  | |- loc_eqb _ _ = true => apply loc_eqb_iff; congruence
  | |- semi_eqb _ _ = true => apply semi_eqb_iff; congruence
  | H : Forall2 E (of_list ?f ?a) (of_list ?f ?b) |- list_eqb ?e ?a ?b = true =>
      apply (list_kids f e); [reflexivity|exact H]
  | H : Forall2 E (of_opt ?f ?a) (of_opt ?f ?b) |- opt_eqb ?e ?a ?b = true =>
      apply (opt_kids f e); [reflexivity|exact H]
  | H : Forall2 E (of_holes ?f ?a) (of_holes ?f ?b), X : holes ?v ?a = holes ?v ?b |- list_eqb (opt_eqb ?e) ?a ?b = true =>
      apply (holes_kids f e (fun _ _ => eq_refl) v); split; [exact X|exact H]
  | H : E _ _ |- _ = true => exact H
  end.

Ltac noinj := repeat match goal with
  | H : N_expr _ = N_expr _ |- _ => injection H; clear H; intros
  | H : N_stmt _ = N_stmt _ |- _ => injection H; clear H; intros
  | H : E_Arr _ _ = E_Arr _ _ |- _ => injection H; clear H; intros end.
Lemma back_expr a b : expr_loc a = expr_loc b -> step_ok (N_expr a) (N_expr b) -> E (N_expr a) (N_expr b).
Proof.
  unfold E, step_ok. cbn [node_eqb]. intros L [_ [D K]].
  destruct a; cbn [expr_eqb]; (replace (loc_eqb _ _) with true by (symmetry; apply loc_eqb_iff; exact L)); cbn [negb];
    destruct b; cbn [same_data shape expr_shape] in D; try discriminate D; cbn [children expr_children] in K.
  all: repeat match goal with a : option (list eli) |- _ => destruct a end; cbn in K; try reflexivity.
  all: try (injection D; clear D; intros).
  all: split_f2; back.
  all: unfold number_literal_eqb, string_literal_eqb, regexp_literal_eqb; cbn in D;
       try (apply f64_eqb_iff; exact D); try (apply str_eqb_iff; congruence).
  all: try (destruct l1; [reflexivity|]; match goal with H : Forall2 _ _ _ |- _ => inversion H end).
  destruct D as [D D']. apply andb_true_iff; split; [apply str_eqb_iff; exact D|apply flags_eqb_iff; exact D'].
Qed.
Lemma back_stmt a b : stmt_loc a = stmt_loc b -> step_ok (N_stmt a) (N_stmt b) -> E (N_stmt a) (N_stmt b).
Proof.
  unfold E, step_ok. cbn [node_eqb]. intros L [Sm [D K]].
  destruct a; cbn [stmt_eqb]; destruct b; cbn [same_data shape stmt_shape] in D; try discriminate D;
    cbn [children stmt_children] in K; cbn [stmt_loc] in L; cbn [node_semi] in Sm.
  all: try (injection D; clear D; intros).
  all: split_f2; back.
Qed.
Lemma back_patt {T} (simple : T -> node) np nr npp no (ft : T -> T -> bool)
  (Hs : forall x y, ft x y = node_eqb (simple x) (simple y))
  (Hp : forall x y, patt_eqb ft x y = node_eqb (np x) (np y))
  (Hr : forall x y, rest_eqb (patt_eqb ft) x y = node_eqb (nr x) (nr y))
  (Hpp : forall x y, prop_patt_eqb (patt_eqb ft) x y = node_eqb (npp x) (npp y)) (lc : T -> loc) a b :
  patt_of_loc lc cpatt_loc a = patt_of_loc lc cpatt_loc b ->
  patt_shape no a = patt_shape no b -> Forall2 E (patt_children simple np nr npp a) (patt_children simple np nr npp b) ->
  patt_eqb ft a b = true.
Proof.
  intros L S K. destruct a as [t|[l es r|l ps]], b as [t'|[l' es' r'|l' ps']]; cbn [patt_shape] in S; try discriminate S;
    cbn [patt_children] in K; cbn in L.
  - split_f2. cbn. rewrite Hs. assumption.
  - injection S; clear S; intros S1 S2. apply Forall2_split in K; [destruct K as [K1 K2]|exact (of_holes_len np _ es es' S2)].
    change (loc_eqb l l' && list_eqb (opt_eqb (patt_eqb ft)) es es' && opt_eqb (rest_eqb (patt_eqb ft)) r r' = true).
    apply andb_true_iff; split; [apply andb_true_iff; split|].
    + apply loc_eqb_iff. exact L.
    + apply (proj2 (holes_kids np (patt_eqb ft) Hp (Simple no : patt T) es es')). split; [exact S2|exact K1].
    + apply (proj2 (opt_kids nr _ Hr r r')). exact K2.
  - change (loc_eqb l l' && list_eqb (prop_patt_eqb (patt_eqb ft)) ps ps' = true).
    apply andb_true_iff; split; [apply loc_eqb_iff; exact L|]. apply (proj2 (list_kids npp _ Hpp ps ps')). exact K.
Qed.
Lemma back_pp {T} (np : patt T -> node) (no : T) (ft : T -> T -> bool)
  (Hp : forall x y, patt_eqb ft x y = node_eqb (np x) (np y)) a b :
  prop_patt_loc a = prop_patt_loc b ->
  pp_shape no a = pp_shape no b -> Forall2 E (pp_children np a) (pp_children np b) ->
  prop_patt_eqb (patt_eqb ft) a b = true.
Proof.
  intros L S K. destruct a, b; cbn [pp_shape] in S; try discriminate S; cbn [pp_children] in K; cbn in L |- *; split_f2; back.
  rewrite Hp. assumption.
Qed.
Lemma back_func {I} (idn : I -> list node) (v : I -> I) (fi : I -> I -> bool) a b :
  (forall x y, v x = v y -> length (idn x) = length (idn y)) ->
  (forall x y, v x = v y -> Forall2 E (idn x) (idn y) -> fi x y = true) ->
  fn_loc a = fn_loc b -> func_shape (v (fn_id a)) a = func_shape (v (fn_id b)) b ->
  Forall2 E (func_children idn a) (func_children idn b) -> func_eqb fi (body_eqb item_eqb) a b = true.
Proof.
  intros Hl Hi L S K. injection S; intros G V. unfold func_children in K. apply Forall2_split in K; [|apply Hl, V].
  destruct K as [K1 K2]. split_f2. unfold func_eqb. back.
  - apply Hi; assumption.
  - rewrite G. apply eqb_reflx.
Qed.
Lemma back_node n m : node_loc n = node_loc m -> step_ok n m -> E n m.
Proof.
  intros L [Sm [D K]].
  assert (T : ntag n = ntag m).
  { destruct n; try (match goal with |- ntag (N_dir _) = _ => idtac | |- ntag (N_import _) = _ => idtac end;
      destruct m; try reflexivity; cbn in D; discriminate D).
    all: destruct m; try reflexivity; exfalso; clear -D; cbn [same_data shape] in D.
    all: repeat match goal with
      | H : match ?x with _ => _ end |- _ => destruct x
      | H : match ?x with _ => _ end = _ |- _ => destruct x
      | H : _ = match ?x with _ => _ end |- _ => destruct x
      end; discriminate D. }
  destruct n, m; try discriminate T.
  all: try (apply back_expr; [exact L|split; [exact Sm|split; [exact D|exact K]]]).
  all: try (apply back_stmt; [exact L|split; [exact Sm|split; [exact D|exact K]]]).
  all: unfold E; cbn [node_eqb node_loc node_semi] in *.
  all: try (lazymatch type of D with
    | same_data (N_ipatt _) _ => apply (back_patt N_id N_ipatt N_irest N_ipp no_id id_eqb (fun _ _ => eq_refl) (fun _ _ => eq_refl) (fun _ _ => eq_refl) (fun _ _ => eq_refl) id_loc)
    | same_data (N_tpatt _) _ => apply (back_patt N_target N_tpatt N_trest N_tpp no_target target_eqb (fun _ _ => eq_refl) (fun _ _ => eq_refl) (fun _ _ => eq_refl) (fun _ _ => eq_refl) target_loc)
    | same_data (N_ipp _) _ => apply (back_pp N_ipatt no_id id_eqb (fun _ _ => eq_refl))
    | same_data (N_tpp _) _ => apply (back_pp N_tpatt no_target target_eqb (fun _ _ => eq_refl))
    | same_data (N_fexpr _) _ => apply (back_func (of_opt N_id) (opt no_id) (opt_eqb id_eqb));
        [intros x y; apply of_opt_len|intros x y _; apply (proj2 (opt_kids N_id id_eqb (fun _ _ => eq_refl) x y))| | |]
    | same_data (N_fmeth _) _ => apply (back_func (fun k => [N_pk k]) (fun _ => no_key) prop_key_eqb);
        [reflexivity|intros x y _ X; inversion X; assumption| | |]
    | same_data (N_fdecl _) _ => apply (back_func (fun k => [N_id k]) (fun _ => no_id) id_eqb);
        [reflexivity|intros x y _ X; inversion X; assumption| | |]
    end; [exact L|cbn [same_data shape] in D; congruence|exact K]).
  all: lazymatch goal with
    | |- func_eqb _ _ _ _ = true => idtac
    | |- patt_eqb _ _ _ = true => idtac
    | |- prop_patt_eqb _ _ _ = true => idtac
    | |- id_eqb _ _ = true => unfold id_eqb
    | |- dot_key_eqb _ _ = true => unfold dot_key_eqb
    | |- dir_eqb _ _ = true => unfold dir_eqb
    | |- params_eqb _ _ = true => unfold params_eqb
    | |- body_eqb _ _ _ = true => unfold body_eqb
    | |- module_eqb _ _ = true => unfold module_eqb, body_eqb
    | |- rest_eqb _ _ _ = true => unfold rest_eqb
    | |- op_eqb unop_tag_eqb _ _ = true => apply unop_eqb_iff
    | |- op_eqb binop_tag_eqb _ _ = true => apply binop_eqb_iff
    | |- op_eqb logop_tag_eqb _ _ = true => apply logop_eqb_iff
    | |- op_eqb assop_tag_eqb _ _ = true => apply assop_eqb_iff
    | |- _ ?a ?b = true => destruct a, b;
        cbn [same_data shape] in D; try discriminate D;
        cbn [prop_eqb prop_val_eqb target_eqb block_eqb for_head_eqb for_in_head_eqb for_of_head_eqb catch_eqb case_eqb item_eqb
            decl_eqb dtor_eqb const_dtor_eqb prop_key_eqb import_eqb export_eqb mod_item_eqb]
    end.
  all: cbn [children prop_children pval_children target_children] in K.
  all: cbn [same_data shape] in D.
  all: try (injection D; clear D; intros).
  all: split_f2; back.
  all: cbn in L; try (apply loc_eqb_iff; congruence).
  - cbn. apply andb_true_iff; split; [apply loc_eqb_iff; exact L|assumption].
  - apply str_eqb_iff. exact D.
  - apply name_eqb_iff. assumption.
  - apply str_eqb_iff. assumption.
  - apply str_eqb_iff. assumption.
  - apply str_eqb_iff. exact D.
  - apply f64_eqb_iff. exact D.
  - destruct o, o0; cbn in *; congruence.
  - destruct o, o0; cbn in *; congruence.
  - destruct o, o0; cbn in *; congruence.
  - destruct o, o0; cbn in *; congruence.
  - apply str_eqb_iff. exact D.
Qed.

(** ** The comparison decides equality *)

Theorem node_eqb_iff n : forall m, node_eqb n m = true <-> same n m.
Proof.
  induction n as [n IH] using node_ind'. intros m.
  assert (H : forall l, (forall x, In x l -> In x (children n)) -> forall k, Forall2 E l k <-> Forall2 same l k).
  { induction l as [|x l IHl]; intros Hl k.
    - split; inversion 1; constructor.
    - split; inversion 1; subst; constructor;
        solve [apply (IH x); [apply Hl; left; reflexivity|assumption]
              |apply IHl; [intros; apply Hl; right; assumption|assumption]]. }
  split.
  - intros e. destruct (step_node n m e) as (a & b & c).
    constructor; [apply node_eqb_loc, e|assumption|assumption|]. apply (H (children n)); auto.
  - intros s. inversion s; subst. apply back_node; [assumption|].
    split; [assumption|]. split; [assumption|]. apply (H (children n)); auto.
Qed.

(** ** Equality is an equivalence *)

Definition special (n : node) : bool :=
  match n with
  | N_expr (E_Number _ _) | N_expr (E_String _ _) | N_expr (E_RegExp _ _) | N_expr (E_New _ _ _) => true
  | N_dir _ | N_import _ => true
  | N_pk (PK_String _ _) | N_pk (PK_Number _ _) => true
  | _ => false
  end.
Lemma same_data_shape n m : special n = false -> same_data n m <-> shape n = shape m.
Proof.
  intros H. destruct n; try discriminate H; try (cbn [same_data]; reflexivity).
  - destruct e; try discriminate H; cbn [same_data]; reflexivity.
  - destruct k; try discriminate H; cbn [same_data]; reflexivity.
Qed.
Lemma shape_special n m : shape n = shape m -> special n = special m.
Proof.
  intros H. destruct n, m; try reflexivity.
  all: try (cbn [shape] in H; repeat match goal with
      | H : match ?x with _ => _ end = _ |- _ => destruct x
      | H : _ = match ?x with _ => _ end |- _ => destruct x
      end; discriminate H).
  - destruct e, e0; cbn [shape expr_shape] in H; try discriminate H; reflexivity.
  - destruct k, k0; cbn [shape] in H; try discriminate H; reflexivity.
Qed.
Ltac same_kind m D :=
  destruct m; cbn [same_data shape expr_shape] in D; try discriminate D;
  repeat match goal with
  | H : match ?x with _ => _ end |- _ => destruct x; try discriminate D
  | H : match ?x with _ => _ end = _ |- _ => destruct x; try discriminate D
  | H : _ = match ?x with _ => _ end |- _ => destruct x; try discriminate D
  | H : N_expr _ = N_expr (expr_shape ?x) |- _ => destruct x; cbn [expr_shape] in D; try discriminate D
  end.
Lemma same_data_special n m : same_data n m -> special n = special m.
Proof.
  intros H. destruct (special n) eqn:X.
  - symmetry. destruct n; try discriminate X; try (destruct e; try discriminate X); try (destruct k; try discriminate X);
      same_kind m H; reflexivity.
  - rewrite <- X. apply shape_special, same_data_shape; assumption.
Qed.
Lemma same_data_refl n : ~ nan_literal n -> same_data n n.
Proof.
  intros H. destruct (special n) eqn:X; [|apply same_data_shape; [exact X|reflexivity]].
  destruct n; try discriminate X; try (destruct e; try discriminate X); try (destruct k; try discriminate X);
    try (destruct i); cbn [same_data]; try reflexivity; try exact Logic.I.
  - apply same_number_refl. exact H.
  - split; reflexivity.
  - apply same_number_refl. exact H.
Qed.
Lemma same_data_sym n m : same_data n m -> same_data m n.
Proof.
  intros H. pose proof (same_data_special _ _ H) as S. destruct (special n) eqn:X.
  - destruct n; try discriminate X; try (destruct e; try discriminate X); try (destruct k; try discriminate X);
      same_kind m H; cbn [same_data]; try (symmetry; exact H); try exact Logic.I; try (apply same_number_sym; exact H).
    destruct H as [H H']. split; [congruence|apply Permutation_sym; exact H'].
  - apply same_data_shape; [congruence|]. symmetry. apply same_data_shape; assumption.
Qed.
Lemma same_data_trans n m k : same_data n m -> same_data m k -> same_data n k.
Proof.
  intros H H'. pose proof (same_data_special _ _ H) as S. pose proof (same_data_special _ _ H') as S'.
  destruct (special n) eqn:X.
  - clear S S'. destruct n; try discriminate X; try (destruct e; try discriminate X); try (destruct k0; try discriminate X);
      same_kind m H; same_kind k H'; cbn [same_data]; try exact Logic.I;
      first [exact (eq_trans H H')|exact (same_number_trans _ _ _ H H')|idtac].
    destruct H, H'. split; [congruence|]. eapply Permutation_trans; eassumption.
  - apply same_data_shape; [exact X|].
    apply same_data_shape in H; [|exact X]. apply same_data_shape in H'; [|congruence]. congruence.
Qed.

Theorem same_refl n : (forall m, within n m -> ~ nan_literal m) -> same n n.
Proof.
  induction n as [n IH] using node_ind'. intros H.
  constructor; [reflexivity|reflexivity|apply same_data_refl, H, wi_refl|].
  assert (G : forall l, (forall x, In x l -> In x (children n)) -> Forall2 same l l).
  { induction l as [|x l IHl]; intros Hl; constructor.
    - apply IH; [apply Hl; left; reflexivity|]. intros m Hm. apply H.
      clear -Hm Hl. induction Hm as [|m c _ IHm Hc]; eapply wi_step; try eassumption.
      + apply wi_refl. + apply Hl. left. reflexivity.
    - apply IHl. intros y Hy. apply Hl. right. exact Hy. }
  apply G. auto.
Qed.
Theorem same_sym n : forall m, same n m -> same m n.
Proof.
  induction n as [n IH] using node_ind'. intros m H. inversion H as [? ? L S D K]; subst.
  constructor; [congruence|congruence|apply same_data_sym, D|].
  clear -K IH. revert IH. induction K; intros IH; constructor.
  - apply IH; [left; reflexivity|assumption].
  - apply IHK. intros z Hz. apply IH. right. exact Hz.
Qed.
Theorem same_trans n : forall m k, same n m -> same m k -> same n k.
Proof.
  induction n as [n IH] using node_ind'. intros m k H H'.
  inversion H as [? ? L S D K]; inversion H' as [? ? L' S' D' K']; subst.
  constructor; [congruence|congruence|apply (same_data_trans _ _ _ D D')|].
  clear -K K' IH. revert IH K'. generalize (children k) as z. induction K; intros z IH K'; inversion K'; subst; constructor.
  - eapply IH; [left; reflexivity|eassumption|assumption].
  - apply IHK; [|assumption]. intros w Hw. apply IH. right. exact Hw.
Qed.

(** ** Untracking respects equality *)

Lemma untrack_semi_same n m : node_semi n = node_semi m -> special n = special m -> same_data n m ->
  node_semi (node_untrack n) = node_semi (node_untrack m).
Proof.
  intros S _ _. revert S.
  assert (H : forall x, node_semi (node_untrack x) = opt (Explicit None) (node_semi x)).
  { intros x. destruct x as [ | | | | |y| | | | | | | |y| | | | | | | | | | | | | |y| | | | | | | | | | |y]; try reflexivity;
      destruct y; reflexivity. }
  rewrite !H. intros ->. reflexivity.
Qed.
Lemma same_data_untrack n m : same_data n m -> same_data (node_untrack n) (node_untrack m).
Proof.
  intros H. pose proof (same_data_special _ _ H) as S. destruct (special n) eqn:X.
  - destruct n; try discriminate X; try (destruct e; try discriminate X); try (destruct k; try discriminate X);
      same_kind m H; try exact H; try exact Logic.I.
  - assert (Y : special (node_untrack n) = false) by (rewrite <- X; apply shape_special, shape_untrack).
    apply same_data_shape; [exact Y|]. rewrite !shape_untrack. apply same_data_shape; assumption.
Qed.
Theorem same_untrack n : forall m, same n m -> same (node_untrack n) (node_untrack m).
Proof.
  induction n as [n IH] using node_ind'. intros m H. inversion H as [? ? L S D K]; subst.
  constructor.
  - rewrite !untrack_loc. reflexivity.
  - apply untrack_semi_same; [exact S|apply same_data_special, D|exact D].
  - apply same_data_untrack, D.
  - rewrite !children_untrack. clear -K IH. revert IH. induction K; intros IH; cbn; constructor.
    + apply IH; [left; reflexivity|assumption].
    + apply IHK. intros z Hz. apply IH. right. exact Hz.
Qed.

(** ** Values of number literals *)

Lemma round_pos_number s n d : round_pos s n d <> FNan.
Proof.
  unfold round_pos. destruct (n =? 0)%N; [discriminate|]. destruct (scale n d _) as [n0 d0]. destruct (scale n d _) as [n1 d1].
  destruct (round_half_even n1 d1 =? two53)%N; destruct (971 <? _)%Z; discriminate.
Qed.
Lemma fma_nat_number r a b : r <> FNan -> fma_nat r a b <> FNan.
Proof.
  destruct r as [|s|s m e]; [congruence|discriminate|]. intros _. cbn. destruct e; apply round_pos_number.
Qed.
Lemma parse_f64_number a b c d v : parse_f64 a b c d = Some v -> v <> FNan.
Proof.
  unfold parse_f64. destruct (a ++ b); [discriminate|]. intros [= <-].
  match goal with |- match ?k with _ => _ end <> _ => destruct k end; apply round_pos_number.
Qed.
Lemma radix_fold_number r l : forall x v, x <> FNan -> radix_fold r l x = Some v -> v <> FNan.
Proof.
  induction l as [|c l IH]; cbn; intros x v Hx.
  - intros [= <-]. exact Hx.
  - destruct (to_digit c r); [|discriminate]. apply IH. apply fma_nat_number, Hx.
Qed.
Lemma number_value_number s v : number_value s = Some v -> v <> FNan.
Proof.
  destruct s as [m [e|]|r ds|ip fp [e|]]; cbn [number_value]; try apply parse_f64_number.
  apply radix_fold_number. discriminate.
Qed.
