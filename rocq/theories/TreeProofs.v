(** Proofs of the laws of locations on trees. *)
From Coq Require Import String Ascii List NArith Bool.
From Verif Require Import Base F64 Word Token Punc Ast Track Node NodeProofs SpecTree.
Import ListNotations.

(** Expose one level of a node. *)
Ltac expose :=
  repeat match goal with
  | e : expr |- _ => destruct e
  | e : eli |- _ => destruct e
  | e : prop |- _ => destruct e
  | e : prop_val |- _ => destruct e
  | e : target |- _ => destruct e
  | e : stmt |- _ => destruct e
  | e : block |- _ => destruct e
  | e : for_head |- _ => destruct e
  | e : for_in_head |- _ => destruct e
  | e : for_of_head |- _ => destruct e
  | e : catch |- _ => destruct e
  | e : case |- _ => destruct e
  | e : item |- _ => destruct e
  | e : decl |- _ => destruct e
  | e : dtor |- _ => destruct e
  | e : const_dtor |- _ => destruct e
  end.

Lemma untrack_loc n : node_loc (node_untrack n) = None.
Proof.
  destruct n;
    try (destruct e; reflexivity);
    try (destruct p; reflexivity); try reflexivity.
  - destruct e as [e|l e]; [destruct e|]; reflexivity.
  - destruct v as [e| |]; [destruct e| |]; reflexivity.
  - destruct t; reflexivity.
  - destruct s; try reflexivity. destruct b; reflexivity.
  - destruct b; reflexivity.
  - destruct h; reflexivity.
  - destruct h; try reflexivity. destruct p as [t|c]; [destruct t|destruct c]; reflexivity.
  - destruct h; try reflexivity. destruct p as [t|c]; [destruct t|destruct c]; reflexivity.
  - destruct c; reflexivity.
  - destruct c; reflexivity.
  - destruct i as [d|s]; [destruct d|destruct s]; try reflexivity. destruct b; reflexivity.
  - destruct d; reflexivity.
  - destruct d; reflexivity.
  - destruct d; reflexivity.
  - destruct p as [t|c]; [destruct t|destruct c]; reflexivity.
  - destruct p as [t|c]; [destruct t|destruct c]; reflexivity.
  - destruct k; reflexivity.
  - destruct i as [i|e|i]; [destruct i|destruct e as [|d]; [|destruct d]|destruct i as [d|s]];
      try reflexivity; [destruct d|destruct s]; try reflexivity. destruct b; reflexivity.
  - destruct i; reflexivity.
  - destruct e as [|d]; [|destruct d]; reflexivity.
Qed.

Lemma untrack_semi n s : node_semi (node_untrack n) = Some s -> s = Explicit None.
Proof.
  destruct n as [ | | | | |x| | | | | | | |x| | | | | | | | | | | | | |x| | | | | | | | | | |x];
    try discriminate; destruct x; intros H; try discriminate H; injection H as <-; reflexivity.
Qed.

Lemma each_map {A B C} (b : C) (f : A -> B) l : each b (map f l) = each b l.
Proof. unfold each. rewrite map_map. reflexivity. Qed.
Lemma opt_map_opt {A B C} (b : C) (f : A -> B) o : opt b (option_map f o) = opt b o.
Proof. destruct o; reflexivity. Qed.
Lemma holes_map {A B C} (b : C) (f : A -> B) l : holes b (map (option_map f) l) = holes b l.
Proof. unfold holes. rewrite map_map. apply map_ext. intros o. apply opt_map_opt. Qed.

Ltac shapes :=
  cbn [node_untrack expr_untrack eli_untrack prop_untrack prop_val_untrack target_untrack stmt_untrack
       block_untrack for_head_untrack for_in_head_untrack for_of_head_untrack catch_untrack case_untrack
       item_untrack decl_untrack dtor_untrack const_dtor_untrack func_untrack body_untrack patt_untrack
       patt_of_untrack rest_untrack prop_patt_untrack params_untrack dir_untrack id_untrack
       dot_key_untrack prop_key_untrack prop_key_set_loc op_untrack module_untrack mod_item_untrack
       import_untrack export_untrack cpatt_untrack
       shape expr_shape stmt_shape patt_shape pp_shape func_shape
       children expr_children prop_children pval_children target_children stmt_children func_children
       patt_children pp_children
       fn_loc fn_id fn_params fn_body fn_generator bo_loc bo_dirs bo_items rp_loc rp_patt pa_loc pa_list
       pa_rest dir_loc dir_string dir_semi id_loc id_name dk_loc dk_value op_loc op_tag option_map].

Ltac each_node n :=
  destruct n as
    [e|e|p|v|t|s|b|h|h|h|c|c|i|d|d|d|f|f|f|b|p|r|p|p|r|p|p|d|i|k|k|o|o|o|o|m|i|i|e];
  [ destruct e | destruct e | destruct p | destruct v | destruct t | destruct s | destruct b
  | destruct h | destruct h | destruct h | destruct c | destruct c | destruct i | destruct d
  | destruct d | destruct d | destruct f | destruct f | destruct f | destruct b
  | destruct p as [t|[l es r|l ps]] | destruct r | destruct p | destruct p as [i|[l es r|l ps]]
  | destruct r | destruct p | destruct p | destruct d | destruct i | destruct k | destruct k
  | destruct o | destruct o | destruct o | destruct o | destruct m | destruct i | destruct i | destruct e ].

Lemma shape_untrack n : shape (node_untrack n) = shape n.
Proof.
  each_node n; shapes; rewrite ?each_map, ?opt_map_opt, ?holes_map; try reflexivity.
  destruct args as [args|]; cbn [option_map]; rewrite ?each_map; reflexivity.
Qed.

Lemma of_list_untrack {A} (f : A -> node) (u : A -> A) l :
  (forall a, node_untrack (f a) = f (u a)) -> of_list f (map u l) = map node_untrack (of_list f l).
Proof. intros H. unfold of_list. rewrite !map_map. apply map_ext. intros a. symmetry. apply H. Qed.
Lemma of_opt_untrack {A} (f : A -> node) (u : A -> A) o :
  (forall a, node_untrack (f a) = f (u a)) -> of_opt f (option_map u o) = map node_untrack (of_opt f o).
Proof. intros H. destruct o; cbn [of_opt option_map map]; [rewrite H|]; reflexivity. Qed.
Lemma of_holes_untrack {A} (f : A -> node) (u : A -> A) l :
  (forall a, node_untrack (f a) = f (u a)) ->
  of_holes f (map (option_map u) l) = map node_untrack (of_holes f l).
Proof.
  intros H. unfold of_holes. induction l as [|o l IH]; [reflexivity|].
  cbn [map flat_map]. rewrite map_app, IH, (of_opt_untrack f u o H). reflexivity.
Qed.

Ltac kids :=
  repeat first
    [ rewrite map_app | rewrite map_cons
    | erewrite of_list_untrack by (intros; reflexivity)
    | erewrite of_opt_untrack by (intros; reflexivity)
    | erewrite of_holes_untrack by (intros; reflexivity) ].

Lemma children_untrack n : children (node_untrack n) = map node_untrack (children n).
Proof.
  each_node n; shapes; kids; try reflexivity;
    try (unfold func_children, func_untrack; shapes; kids; reflexivity).
  destruct args as [args|]; cbn [option_map]; kids; reflexivity.
Qed.

(** An untracked node is determined by its shape and its children. *)
Lemma of_list_inj {A} (f : A -> node) a b :
  (forall x y, f x = f y -> x = y) -> of_list f a = of_list f b -> a = b.
Proof.
  intros Hf. revert b. induction a as [|x a IH]; intros [|y b]; cbn; try discriminate; [reflexivity|].
  intros H. injection H as H1 H2. f_equal; [apply Hf, H1|apply IH, H2].
Qed.
Lemma of_opt_inj {A} (f : A -> node) a b :
  (forall x y, f x = f y -> x = y) -> of_opt f a = of_opt f b -> a = b.
Proof.
  intros Hf. destruct a, b; cbn; try discriminate; [|reflexivity].
  intros H. injection H as H. f_equal. apply Hf, H.
Qed.
Lemma of_holes_inj {A B} (f : A -> node) (x : B) a b :
  (forall x y, f x = f y -> x = y) -> holes x a = holes x b -> of_holes f a = of_holes f b -> a = b.
Proof.
  intros Hf. revert b. induction a as [|o a IH]; intros [|o' b]; try discriminate; [reflexivity|].
  cbn [holes map of_holes flat_map]. intros Hs H.
  destruct o as [p|], o' as [p'|]; cbn in Hs; try discriminate; cbn [of_opt app] in H.
  - injection Hs as Hs. injection H as H1 H2. f_equal; [f_equal; apply Hf, H1|]. apply IH; auto.
  - injection Hs as Hs. f_equal. apply IH; auto.
Qed.

(** Lists of children split where the shapes say. *)
Lemma each_len {A B} (b : B) (l l' : list A) : each b l = each b l' -> length l = length l'.
Proof. intros H. apply (f_equal (@length B)) in H. unfold each in H. rewrite !map_length in H. exact H. Qed.
Lemma list_app_inj {A} (f : A -> node) (a b : list A) (x y : list node) :
  (forall x y, f x = f y -> x = y) -> length a = length b ->
  of_list f a ++ x = of_list f b ++ y -> a = b /\ x = y.
Proof.
  intros Hf. revert b. induction a as [|p a IH]; intros [|q b]; try discriminate; cbn.
  - auto.
  - intros Hl H. injection Hl as Hl. injection H as H1 H2. destruct (IH b Hl H2) as [-> ->].
    apply Hf in H1. subst. auto.
Qed.
Lemma opt_app_inj {A B} (f : A -> node) (v : B) (a b : option A) (x y : list node) :
  (forall x y, f x = f y -> x = y) -> opt v a = opt v b ->
  of_opt f a ++ x = of_opt f b ++ y -> a = b /\ x = y.
Proof.
  intros Hf. destruct a as [a|], b as [b|]; try discriminate; cbn; intros _ H; [|auto].
  injection H as H1 H2. apply Hf in H1. subst. auto.
Qed.
Lemma holes_app_inj {A B} (f : A -> node) (v : B) (a b : list (option A)) (x y : list node) :
  (forall x y, f x = f y -> x = y) -> holes v a = holes v b ->
  of_holes f a ++ x = of_holes f b ++ y -> a = b /\ x = y.
Proof.
  intros Hf. revert b. induction a as [|o a IH]; intros [|o' b]; try discriminate; cbn; auto.
  intros Hs H. destruct o as [p|], o' as [p'|]; cbn in Hs; try discriminate; cbn [of_opt app] in H;
    injection Hs as Hs.
  - injection H as H1 H2. apply Hf in H1. subst. destruct (IH b Hs H2) as [-> ->]. auto.
  - destruct (IH b Hs H) as [-> ->]. auto.
Qed.

Definition ntag (n : node) : nat :=
  match n with
  | N_expr _ => 0 | N_eli _ => 1 | N_prop _ => 2 | N_pval _ => 3 | N_target _ => 4 | N_stmt _ => 5
  | N_block _ => 6 | N_fh _ => 7 | N_fi _ => 8 | N_fo _ => 9 | N_catch _ => 10 | N_case _ => 11
  | N_item _ => 12 | N_decl _ => 13 | N_dtor _ => 14 | N_cdtor _ => 15 | N_fexpr _ => 16
  | N_fmeth _ => 17 | N_fdecl _ => 18 | N_body _ => 19 | N_tpatt _ => 20 | N_trest _ => 21
  | N_tpp _ => 22 | N_ipatt _ => 23 | N_irest _ => 24 | N_ipp _ => 25 | N_params _ => 26
  | N_dir _ => 27 | N_id _ => 28 | N_dk _ => 29 | N_pk _ => 30 | N_unop _ => 31 | N_binop _ => 32
  | N_logop _ => 33 | N_assop _ => 34 | N_mod _ => 35 | N_mitem _ => 36 | N_import _ => 37
  | N_export _ => 38
  end.
Lemma ntag_shape n : ntag (shape n) = ntag n.
Proof. each_node n; reflexivity. Qed.

Ltac injN := let x := fresh in let y := fresh in let H := fresh in
  intros x y H; injection H; auto.
Ltac split_kids :=
  repeat match goal with
  | H : of_list ?f _ = of_list ?f _ |- _ => apply (of_list_inj f) in H; [|injN]
  | H : of_opt ?f _ = of_opt ?f _ |- _ => apply (of_opt_inj f) in H; [|injN]
  | H : of_holes ?f ?a = of_holes ?f ?b, Hs : holes ?x ?a = holes ?x ?b |- _ =>
      apply (of_holes_inj f x) in H; [|injN|exact Hs]
  | H : of_list ?f ?a ++ _ = of_list ?f ?b ++ _, Hs : each ?x ?a = each ?x ?b |- _ =>
      apply (list_app_inj f) in H; [destruct H as [? H]|injN|exact (each_len x a b Hs)]
  | H : of_opt ?f ?a ++ _ = of_opt ?f ?b ++ _, Hs : opt ?x ?a = opt ?x ?b |- _ =>
      apply (opt_app_inj f x) in H; [destruct H as [? H]|injN|exact Hs]
  | H : of_holes ?f ?a ++ _ = of_holes ?f ?b ++ _, Hs : holes ?x ?a = holes ?x ?b |- _ =>
      apply (holes_app_inj f x) in H; [destruct H as [? H]|injN|exact Hs]
  end.

(** An untracked node is determined by its shape and its children. *)
Definition kids_of (n : node) : list node := children (node_untrack n).
Definition shape_of (n : node) : node := shape (node_untrack n).
Ltac inj_nodes :=
  repeat match goal with
  | H : @eq node (?C ?a) (?C ?b) |- _ => assert (a = b) by congruence; clear H
  | H : @eq (list node) (?a :: ?l) (?b :: ?l') |- _ =>
      assert (a = b) by congruence; assert (l = l') by congruence; clear H
  end.
Ltac ext_fin Hs Hc :=
  unfold kids_of, shape_of in *; revert Hs Hc; try unfold func_children, func_untrack; shapes;
  intros Hs Hc; try (injection Hs; clear Hs; intros); inj_nodes; split_kids; inj_nodes; try reflexivity;
  unfold id_untrack, dot_key_untrack, op_untrack, func_untrack, rest_untrack, params_untrack,
    dir_untrack, module_untrack, script_untrack, body_untrack, loc_untrack, semi_untrack in *; congruence.
Ltac ext_rec Hs Hc :=
  unfold kids_of, shape_of in *; revert Hs Hc; shapes;
  unfold func_children, func_shape, id_untrack, dot_key_untrack, op_untrack, func_untrack, rest_untrack, params_untrack,
    dir_untrack, module_untrack, script_untrack, body_untrack, loc_untrack, semi_untrack; shapes;
  intros Hs Hc; try (injection Hs; clear Hs; intros); cbn [app] in Hc; inj_nodes; split_kids; cbn [app] in *; inj_nodes;
  split_kids;
  try reflexivity;
  unfold id_untrack, dot_key_untrack, op_untrack, func_untrack, rest_untrack, params_untrack,
    dir_untrack, module_untrack, script_untrack, body_untrack, loc_untrack, semi_untrack in *; congruence.
Lemma untrack_ext n m :
  shape n = shape m -> kids_of n = kids_of m -> node_untrack n = node_untrack m.
Proof.
  intros Hs Hc.
  assert (Ht : ntag n = ntag m) by (rewrite <- (ntag_shape n), <- (ntag_shape m), Hs; reflexivity).
  assert (Hs' : shape_of n = shape_of m) by (unfold shape_of; rewrite !shape_untrack; exact Hs).
  destruct n, m; try discriminate Ht; clear Ht.
  1: destruct e, e0; try discriminate Hs; clear Hs; try ext_fin Hs' Hc.
  all: try match goal with x : eli, y : eli |- _ => destruct x, y; try discriminate Hs; clear Hs; ext_fin Hs' Hc end.
  all: try match goal with x : prop, y : prop |- _ => destruct x, y; try discriminate Hs; clear Hs; ext_fin Hs' Hc end.
  all: try match goal with x : prop_val, y : prop_val |- _ => destruct x, y; try discriminate Hs; clear Hs; ext_fin Hs' Hc end.
  all: try match goal with x : target, y : target |- _ => destruct x, y; try discriminate Hs; clear Hs; ext_fin Hs' Hc end.
  all: try match goal with x : stmt, y : stmt |- _ => destruct x, y; try discriminate Hs; clear Hs; ext_fin Hs' Hc end.
  all: try match goal with x : block, y : block |- _ => destruct x, y; try discriminate Hs; clear Hs; ext_fin Hs' Hc end.
  all: try match goal with x : for_head, y : for_head |- _ => destruct x, y; try discriminate Hs; clear Hs; ext_fin Hs' Hc end.
  all: try match goal with x : for_in_head, y : for_in_head |- _ => destruct x, y; try discriminate Hs; clear Hs; ext_fin Hs' Hc end.
  all: try match goal with x : for_of_head, y : for_of_head |- _ => destruct x, y; try discriminate Hs; clear Hs; ext_fin Hs' Hc end.
  all: try match goal with x : catch, y : catch |- _ => destruct x, y; try discriminate Hs; clear Hs; ext_fin Hs' Hc end.
  all: try match goal with x : case, y : case |- _ => destruct x, y; try discriminate Hs; clear Hs; ext_fin Hs' Hc end.
  all: try match goal with x : item, y : item |- _ => destruct x, y; try discriminate Hs; clear Hs; ext_fin Hs' Hc end.
  all: try match goal with x : decl, y : decl |- _ => destruct x, y; try discriminate Hs; clear Hs; ext_fin Hs' Hc end.
  all: try match goal with x : dtor, y : dtor |- _ => destruct x, y; try discriminate Hs; clear Hs; ext_fin Hs' Hc end.
  all: try match goal with x : const_dtor, y : const_dtor |- _ => destruct x, y; try discriminate Hs; clear Hs; ext_fin Hs' Hc end.
  all: try match goal with x : patt target, y : patt target |- _ =>
             destruct x as [?|[? ? ?|? ?]], y as [?|[? ? ?|? ?]]; try discriminate Hs; clear Hs; ext_fin Hs' Hc end.
  all: try match goal with x : patt id, y : patt id |- _ =>
             destruct x as [?|[? ? ?|? ?]], y as [?|[? ? ?|? ?]]; try discriminate Hs; clear Hs; ext_fin Hs' Hc end.
  all: try match goal with x : prop_patt _, y : prop_patt _ |- _ => destruct x, y; try discriminate Hs; clear Hs; ext_fin Hs' Hc end.
  all: try match goal with x : prop_key, y : prop_key |- _ => destruct x, y; try discriminate Hs; clear Hs; ext_fin Hs' Hc end.
  all: try match goal with x : mod_item, y : mod_item |- _ => destruct x, y; try discriminate Hs; clear Hs; ext_fin Hs' Hc end.
  all: try match goal with x : import, y : import |- _ => destruct x, y; try discriminate Hs; clear Hs; ext_fin Hs' Hc end.
  all: try match goal with x : export, y : export |- _ => destruct x, y; try discriminate Hs; clear Hs; ext_fin Hs' Hc end.
  1: destruct args as [args|], args0 as [args0|]; try discriminate Hs'; ext_rec Hs' Hc.
  all: try match goal with x : rest_patt _, y : rest_patt _ |- _ => destruct x as [? ?], y as [? ?]; clear Hs; ext_rec Hs' Hc end.
  all: try match goal with x : unop, y : unop |- _ => destruct x as [? ?], y as [? ?]; clear Hs; ext_rec Hs' Hc end.
  all: try match goal with x : binop, y : binop |- _ => destruct x as [? ?], y as [? ?]; clear Hs; ext_rec Hs' Hc end.
  all: try match goal with x : logop, y : logop |- _ => destruct x as [? ?], y as [? ?]; clear Hs; ext_rec Hs' Hc end.
  all: try match goal with x : assop, y : assop |- _ => destruct x as [? ?], y as [? ?]; clear Hs; ext_rec Hs' Hc end.
  all: try match goal with x : id, y : id |- _ => destruct x as [? ?], y as [? ?]; clear Hs; ext_rec Hs' Hc end.
  all: try match goal with x : dot_key, y : dot_key |- _ => destruct x as [? ?], y as [? ?]; clear Hs; ext_rec Hs' Hc end.
  all: try match goal with x : dir, y : dir |- _ => destruct x as [? ? ?], y as [? ? ?]; clear Hs; ext_rec Hs' Hc end.
  all: try match goal with x : params, y : params |- _ => destruct x as [? ? ?], y as [? ? ?]; clear Hs; ext_rec Hs' Hc end.
  all: try match goal with x : module, y : module |- _ => destruct x as [? ? ?], y as [? ? ?]; clear Hs; ext_rec Hs' Hc end.
  all: try match goal with x : body _, y : body _ |- _ => destruct x as [? ? ?], y as [? ? ?]; clear Hs; ext_rec Hs' Hc end.
  all: try match goal with x : func _ _, y : func _ _ |- _ => destruct x as [? ? ? ? ?], y as [? ? ? ? ?]; clear Hs; ext_rec Hs' Hc end.
Qed.

(** Trees that differ only in locations and semicolons are those with equal untracked trees. *)
Lemma Forall2_map_eq {A} (f : A -> A) (R : A -> A -> Prop) l l' :
  (forall a b, In a l -> (R a b <-> f a = f b)) -> (Forall2 R l l' <-> map f l = map f l').
Proof.
  revert l'. induction l as [|a l IH]; intros [|b l'] H; cbn; split; intros G;
    try discriminate; try (inversion G; fail); try constructor.
  - inversion G as [|? ? ? ? G1 G2]; subst. f_equal; [apply H; [left; reflexivity|exact G1]|].
    apply IH; [|exact G2]. intros x y Hx. apply H. right. exact Hx.
  - apply H; [left; reflexivity|]. congruence.
  - apply IH; [|congruence]. intros x y Hx. apply H. right. exact Hx.
Qed.

Theorem alike_untrack n m : alike n m <-> node_untrack n = node_untrack m.
Proof.
  revert m. induction n as [n IH] using node_ind'. intros m. split.
  - intros H. inversion H as [? ? Hs Hc]; subst. apply untrack_ext; [exact Hs|].
    unfold kids_of. rewrite !children_untrack.
    apply (Forall2_map_eq node_untrack alike); [|exact Hc]. intros a b Ha. apply IH, Ha.
  - intros H. constructor.
    + rewrite <- (shape_untrack n), <- (shape_untrack m), H. reflexivity.
    + apply (Forall2_map_eq node_untrack alike); [intros a b Ha; apply IH, Ha|].
      rewrite <- !children_untrack, H. reflexivity.
Qed.

Lemma shape_alike_self n m : shape n = shape m -> kids_of n = kids_of m -> alike n m.
Proof. intros H1 H2. apply alike_untrack, untrack_ext; assumption. Qed.

Theorem untrack_idem n : node_untrack (node_untrack n) = node_untrack n.
Proof.
  induction n as [n IH] using node_ind'. apply untrack_ext; [apply shape_untrack|].
  unfold kids_of. rewrite !children_untrack, map_map.
  apply map_ext_in. intros a Ha. apply IH, Ha.
Qed.

Theorem untrack_alike n : alike n (node_untrack n).
Proof. apply alike_untrack. symmetry. apply untrack_idem. Qed.

Theorem untrack_within n m :
  within (node_untrack n) m -> exists m', within n m' /\ m = node_untrack m'.
Proof.
  induction 1 as [|m c _ (m' & Hm & ->) Hc].
  - exists n. split; [constructor|reflexivity].
  - rewrite children_untrack in Hc. apply in_map_iff in Hc. destruct Hc as (c' & <- & Hc).
    exists c'. split; [econstructor; eauto|reflexivity].
Qed.

Theorem untrack_no_locs n m :
  within (node_untrack n) m -> node_loc m = None /\ (forall s, node_semi m = Some s -> s = Explicit None).
Proof.
  intros H. apply untrack_within in H. destruct H as (m' & _ & ->). split.
  - apply untrack_loc.
  - apply untrack_semi.
Qed.

(** Lens laws. *)
Ltac lens1 :=
  match goal with
  | x : node |- _ => destruct x | x : mod_item |- _ => destruct x | x : export |- _ => destruct x
  | x : import |- _ => destruct x | x : item |- _ => destruct x | x : decl |- _ => destruct x
  | x : stmt |- _ => destruct x | x : block |- _ => destruct x | x : for_head |- _ => destruct x
  | x : for_in_head |- _ => destruct x | x : for_of_head |- _ => destruct x | x : catch |- _ => destruct x
  | x : case |- _ => destruct x | x : dtor |- _ => destruct x | x : const_dtor |- _ => destruct x
  | x : eli |- _ => destruct x | x : prop |- _ => destruct x | x : prop_val |- _ => destruct x
  | x : prop_patt _ |- _ => destruct x | x : rest_patt _ |- _ => destruct x
  | x : patt _ |- _ => destruct x as [?|[? ? ?|? ?]] | x : patt_of _ _ |- _ => destruct x as [?|[? ? ?|? ?]]
  | x : target |- _ => destruct x
  | x : expr |- _ => destruct x | x : prop_key |- _ => destruct x
  | x : func _ _ |- _ => destruct x as [? ? ? ? ?] | x : params |- _ => destruct x as [? ? ?]
  | x : module |- _ => destruct x as [? ? ?] | x : body _ |- _ => destruct x as [? ? ?]
  | x : dir |- _ => destruct x as [? ? ?] | x : id |- _ => destruct x as [? ?]
  | x : dot_key |- _ => destruct x as [? ?]
  | x : unop |- _ => destruct x as [? ?] | x : binop |- _ => destruct x as [? ?]
  | x : logop |- _ => destruct x as [? ?] | x : assop |- _ => destruct x as [? ?]
  end.
Ltac lens := first [reflexivity | lens1; lens].
Theorem set_get n l : node_loc (node_set_loc n l) = l.
Proof. lens. Qed.
Theorem get_set n : node_set_loc n (node_loc n) = n.
Proof. lens. Qed.
Theorem set_set n k l : node_set_loc (node_set_loc n k) l = node_set_loc n l.
Proof. lens. Qed.
Theorem set_shape n l : node_untrack (node_set_loc n l) = node_untrack n.
Proof. lens. Qed.
