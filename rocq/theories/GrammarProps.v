(** Properties of every tree the grammar derives. *)
From Coq Require Import String Ascii List NArith Arith Bool Lia.
From Verif Require Import Base Word Token Punc Ast Stack Node SpecLexer SpecStack SpecTree SpecGrammar SpecParser SpecPlace.
Import ListNotations.
Local Open Scope nat_scope.

(** ** What is left over is a suffix *)

Definition suffix (o i : tokens) : Prop := exists ts, i = ts ++ o.
Lemma suffix_refl i : suffix i i.
Proof. exists []. reflexivity. Qed.
Lemma suffix_trans a b c : suffix a b -> suffix b c -> suffix a c.
Proof. intros (x & ->) (y & ->). exists (y ++ x). apply app_assoc. Qed.
Lemma suffix_cons t i : suffix i (t :: i).
Proof. exists [t]. reflexivity. Qed.
Lemma suffix_eat d i o : eat d i o -> suffix o i.
Proof. intros (t & -> & _). apply suffix_cons. Qed.
Lemma suffix_ends lax i o sm : ends lax i o sm -> suffix o i.
Proof. intros []; [apply suffix_cons|apply suffix_refl]. Qed.

Ltac sfx :=
  match goal with
  | |- suffix ?a ?a => apply suffix_refl
  | H : suffix ?b ?c |- suffix ?a ?c =>
      first [ exact H | assert_fails (constr_eq a b); refine (suffix_trans a b c _ H); clear H; solve [sfx] ]
  | |- suffix ?i (?t :: ?i) => apply suffix_cons
  end.

Lemma G_suffix {x} A g (n : nt A) i o a : GX x g n i o a -> suffix o i.
Proof.
  induction 1;
    repeat match goal with
           | H : eat _ _ _ |- _ => apply suffix_eat in H
           | H : op_ _ _ _ |- _ => apply suffix_eat in H
           | H : kw _ _ _ |- _ => apply suffix_eat in H
           | H : ends _ _ _ _ |- _ => apply suffix_ends in H
           end;
    repeat match goal with
           | H : suffix (?t :: ?o) _ |- _ =>
               lazymatch goal with
               | K : suffix o (t :: o) |- _ => fail
               | _ => pose proof (suffix_cons t o)
               end
           end;
    try solve [sfx].
  all: try (match goal with |- suffix ?o (?t :: ?i) => refine (suffix_trans o i _ _ (suffix_cons t i)) end; sfx).
Qed.

(** ** Everything inside a tree *)

Definition ar (g : place) : around := Around (pl_fun g) (pl_loop g) (pl_switch g) (pl_labels g).
Definition looped (c : around) : around := Around (ar_fun c) true (ar_switch c) (ar_labels c).
Definition fresh : around := Around true false false [].

Lemma inside_split n c m d : inside n c m d ->
  (m = n /\ d = c) \/ exists x, In x (children n) /\ inside x (enter n x c) m d.
Proof.
  induction 1 as [|m d x _ IH Hx].
  - left. split; reflexivity.
  - right. destruct IH as [[-> ->]|(y & Hy & Hi)].
    + exists x. split; [exact Hx|apply is_refl].
    + exists y. split; [exact Hy|]. apply is_step; assumption.
Qed.
Lemma inside_child n c x m d : In x (children n) -> inside x (enter n x c) m d -> inside n c m d.
Proof.
  intros Hx. induction 1.
  - apply is_step; [apply is_refl|exact Hx].
  - apply is_step; assumption.
Qed.

Section Tree.
Variables (all : tokens) (md : mode).

Definition is_module : bool := match md with Module_ => true | _ => false end.
Definition good (d : around) (m : node) : Prop :=
  jump_ok d m /\ clauses_ok m /\ (md <> Sloppy -> strict_ok is_module m) /\ semi_ok all m.
Inductive H (c : around) (n : node) : Prop :=
  H_all : (forall m d, inside n c m d -> good d m) -> H c n.

Lemma H_intro c n : good c n -> Forall (fun x => H (enter n x c) x) (children n) -> H c n.
Proof.
  intros Hg Hc. constructor. intros m d Hi. apply inside_split in Hi. destruct Hi as [[-> ->]|(x & Hx & Hi)]; [exact Hg|].
  rewrite Forall_forall in Hc. destruct (Hc x Hx) as [k]. exact (k m d Hi).
Qed.
Lemma H_good c n : H c n -> good c n.
Proof. intros [h]. apply h, is_refl. Qed.
Lemma H_child c n x : H c n -> In x (children n) -> H (enter n x c) x.
Proof. intros [h] Hx. constructor. intros m d Hi. apply h. exact (inside_child _ _ _ _ _ Hx Hi). Qed.
Lemma H_children c n : H c n -> Forall (fun x => H (enter n x c) x) (children n).
Proof. intros h. apply Forall_forall. intros x. apply H_child, h. Qed.

Definition simple_name (p : patt id) : Prop := exists x, p = Simple x /\ name_ok md true (id_name x).
Definition opt_ {A} (P : A -> Prop) (o : option A) : Prop :=
  match o with Some a => P a | None => True end.

Fixpoint holds {A} (n : nt A) (c : around) : A -> Prop :=
  match n in nt A' return A' -> Prop with
  | Commas n => Forall (holds n c)
  | CommaList n => Forall (holds n c)
  | Name_ b => fun x => name_ok md b (id_name x)
  | Pattern => simple_name
  | ParamList => fun p => Forall simple_name (fst p) /\ opt_ (fun r => simple_name (rp_patt r)) (snd p)
  | Parameters => fun p => H c (N_params p)
  | Directive => fun d => H c (N_dir d)
  | Directives => Forall (fun d => H c (N_dir d))
  | Items => Forall (fun d => H c (N_item d))
  | Script => fun b => H c (N_body b)
  | FunctionBody => fun b => H fresh (N_body b)
  | FunctionRest => fun p => H c (N_params (fst p)) /\ H fresh (N_body (snd p))
  | FunctionExpr => fun f => H c (N_fexpr f)
  | FunctionDecl => fun f => H c (N_fdecl f)
  | ListItem => fun e => H c (N_eli e)
  | Elements => Forall (opt_ (fun e => H c (N_eli e)))
  | Arguments => Forall (fun e => H c (N_eli e))
  | Key => fun k => H c (N_pk k)
  | DotName => fun k => H c (N_dk k)
  | Property => fun p => H c (N_prop p)
  | Primary => fun e => H c (N_expr e)
  | Base_ => fun e => H c (N_expr e)
  | Member => fun e => H c (N_expr e)
  | NewArgs => fun e => H c (N_expr e)
  | NewBare => fun e => H c (N_expr e)
  | Lhs => fun e => H c (N_expr e)
  | Postfix => fun e => H c (N_expr e)
  | Unary => fun e => H c (N_expr e)
  | Infix _ => fun e => H c (N_expr e)
  | Conditional => fun e => H c (N_expr e)
  | Assignment => fun e => H c (N_expr e)
  | Expression => fun e => H c (N_expr e)
  | Declarator => fun d => H c (N_dtor d)
  | ConstDeclarator => fun d => H c (N_cdtor d)
  | BlockOf => fun b => H c (N_block b)
  | ForRest => fun p => opt_ (fun e => H c (N_expr e)) (fst (fst p))
                        /\ opt_ (fun e => H c (N_expr e)) (snd (fst p))
                        /\ H (looped c) (N_stmt (snd p))
  | Catch_ => fun x => H c (N_catch x)
  | Case_ => fun x => H c (N_case x)
  | Cases => Forall (fun x => H c (N_case x))
  | Statement => fun s => H c (N_stmt s)
  | Declaration => fun d => H c (N_decl d)
  | Item _ => fun d => H c (N_item d)
  end.

Lemma semi_none m : node_semi m = None -> semi_ok all m.
Proof. intros h sm h'. congruence. Qed.
Lemma strict_plain m : (forall l e b, m <> N_stmt (S_With l e b)) -> binds m = [] ->
  (forall i, m <> N_id i) -> strict_ok is_module m.
Proof.
  intros h1 h2 h3. split; [exact h1|]. split; [rewrite h2; intros i []|]. intros i e. destruct (h3 i e).
Qed.
Lemma good_plain d m : jump_ok d m -> clauses_ok m -> (forall l e b, m <> N_stmt (S_With l e b)) ->
  binds m = [] -> (forall i, m <> N_id i) -> node_semi m = None -> good d m.
Proof.
  intros h1 h2 h3 h4 h5 h6. split; [exact h1|]. split; [exact h2|].
  split; [intros _; apply strict_plain; assumption|apply semi_none; exact h6].
Qed.

Lemma H_id c x b : name_ok md b (id_name x) -> H c (N_id x).
Proof.
  intros h. apply H_intro; [|constructor]. split; [exact I|]. split; [exact I|].
  split; [|apply semi_none; reflexivity].
  intros hm. split; [discriminate|]. split; [intros i []|].
  intros i e. injection e as <-. destruct h as [h|(h1 & _ & h2)]; [congruence|]. split; [exact h1|].
  unfold is_module. intros e. apply h2. destruct md; congruence.
Qed.

(** nodes that bind one name *)
Lemma good_binds d m x : jump_ok d m -> clauses_ok m -> (forall l e b, m <> N_stmt (S_With l e b)) ->
  binds m = [x] -> (forall i, m <> N_id i) -> node_semi m = None -> name_ok md true (id_name x) -> good d m.
Proof.
  intros h1 h2 h3 h4 h5 h6 h7. split; [exact h1|]. split; [exact h2|].
  split; [|apply semi_none; exact h6]. intros hm. split; [exact h3|]. split.
  - rewrite h4. intros i [<-|[]]. destruct h7 as [h|(_ & h & _)]; [congruence|]. apply h. reflexivity.
  - intros i e. destruct (h5 i e).
Qed.

Lemma H_ipatt c p : simple_name p -> H c (N_ipatt p).
Proof.
  intros (x & -> & hx). apply H_intro.
  - eapply good_binds; try reflexivity; try exact I; try discriminate. exact hx.
  - apply Forall_cons; [exact (H_id _ _ _ hx)|apply Forall_nil].
Qed.

Lemma H_target c x : H c (N_expr (target_expr x)) -> H c (N_target x).
Proof.
  intros h. apply H_intro.
  - apply good_plain; try exact I; try reflexivity; discriminate.
  - apply H_children in h. destruct x; exact h.
Qed.

Lemma H_tpatt c p : rests_unlocated p -> H c (N_expr (patt_expr p)) -> H c (N_tpatt p).
Proof.
  revert p. fix IH 2. intros p hp. destruct hp as [t|l es r h1 h2|l ps h1]; intros h.
  - apply H_intro.
    + apply good_plain; try exact I; try reflexivity; discriminate.
    + apply Forall_cons; [|apply Forall_nil]. apply H_target. exact h.
  - apply H_intro.
    + apply good_plain; try exact I; try reflexivity; discriminate.
    + apply H_children in h. cbn in h |- *. unfold of_holes in h. rewrite flat_map_app in h.
      apply Forall_app in h. destruct h as [ha hb]. apply Forall_app. split.
      * apply Forall_forall. intros x hx. unfold of_holes in hx. apply in_flat_map in hx.
        destruct hx as (q & hq & hx). destruct q as [q|]; [|destruct hx]. destruct hx as [<-|[]].
        apply (IH q (h1 q hq)). rewrite Forall_forall in ha.
        specialize (ha (N_eli (L_Expr (patt_expr q)))). 
        assert (k : H c (N_eli (L_Expr (patt_expr q)))).
        { apply ha. apply in_flat_map. exists (Some (L_Expr (patt_expr q))). split; [|left; reflexivity].
          apply in_map_iff. exists (Some q). split; [reflexivity|exact hq]. }
        exact (H_child _ _ (N_expr (patt_expr q)) k (or_introl eq_refl)).
      * destruct r as [r|]; [|apply Forall_nil]. apply Forall_cons; [|apply Forall_nil].
        apply H_intro.
        -- apply good_plain; try exact I; try reflexivity; discriminate.
        -- apply Forall_cons; [|apply Forall_nil].
           destruct (h2 r eq_refl) as [_ h3]. apply (IH _ h3).
           assert (k : H c (N_eli (L_Spread (rp_loc r) (patt_expr (rp_patt r))))).
           { rewrite Forall_forall in hb. apply hb. left. reflexivity. }
           exact (H_child _ _ (N_expr (patt_expr (rp_patt r))) k (or_introl eq_refl)).
  - apply H_intro.
    + apply good_plain; try exact I; try reflexivity; discriminate.
    + apply H_children in h. cbn in h |- *. rewrite Forall_forall in h. apply Forall_forall.
      intros x hx. unfold of_list in hx. apply in_map_iff in hx. destruct hx as (q & <- & hq).
      destruct q as [l' k q|i].
      * apply H_intro; [apply good_plain; try exact I; try reflexivity; discriminate|].
        assert (k0 : H c (N_prop (Pr_Regular l' k (PV_Init (patt_expr q))))).
        { apply h. unfold of_list. rewrite map_map. apply in_map_iff. exists (PP_Regular l' k q). split; [reflexivity|exact hq]. }
        apply Forall_cons; [exact (H_child _ _ (N_pk k) k0 (or_introl eq_refl))|].
        apply Forall_cons; [|apply Forall_nil].
        apply (IH q (h1 l' k q hq)).
        pose proof (H_child _ _ (N_pval (PV_Init (patt_expr q))) k0 (or_intror (or_introl eq_refl))) as k1.
        exact (H_child _ _ (N_expr (patt_expr q)) k1 (or_introl eq_refl)).
      * apply H_intro; [apply good_plain; try exact I; try reflexivity; discriminate|].
        assert (k0 : H c (N_prop (Pr_Shorthand i))).
        { apply h. unfold of_list. rewrite map_map. apply in_map_iff. exists (PP_Shorthand i). split; [reflexivity|exact hq]. }
        apply Forall_cons; [|apply Forall_nil]. exact (H_child _ _ (N_id i) k0 (or_introl eq_refl)).
Qed.

Lemma H_list {A} c (f : A -> node) (l : list A) : Forall (fun a => H c (f a)) l ->
  Forall (H c) (of_list f l).
Proof. intros h. unfold of_list. apply Forall_map. exact h. Qed.
Lemma H_opt {A} c (f : A -> node) (o : option A) : opt_ (fun a => H c (f a)) o -> Forall (H c) (of_opt f o).
Proof.
  intros h. destruct o as [a|]; [|apply Forall_nil].
  apply Forall_cons; [exact h|apply Forall_nil].
Qed.
Lemma H_holes {A} c (f : A -> node) (l : list (option A)) : Forall (opt_ (fun a => H c (f a))) l ->
  Forall (H c) (of_holes f l).
Proof.
  intros h. unfold of_holes. apply Forall_flat_map. eapply Forall_impl; [|exact h].
  intros o. apply H_opt.
Qed.
(** [enter] of most nodes leaves the surroundings alone. *)
Lemma same_list {A} (e : node -> around) c (f : A -> node) (l : list A) :
  (forall a, e (f a) = c) -> Forall (fun a => H c (f a)) l -> Forall (fun x => H (e x) x) (of_list f l).
Proof.
  intros he h. unfold of_list in *. apply Forall_map. eapply Forall_impl; [|exact h].
  intros a. cbn. rewrite he. trivial.
Qed.
Lemma same_opt {A} (e : node -> around) c (f : A -> node) (o : option A) :
  (forall a, e (f a) = c) -> opt_ (fun a => H c (f a)) o -> Forall (fun x => H (e x) x) (of_opt f o).
Proof.
  intros he h. destruct o as [a|]; [|apply Forall_nil].
  apply Forall_cons; [|apply Forall_nil]. rewrite he. exact h.
Qed.
Lemma same_holes {A} (e : node -> around) c (f : A -> node) (l : list (option A)) :
  (forall a, e (f a) = c) -> Forall (opt_ (fun a => H c (f a))) l ->
  Forall (fun x => H (e x) x) (of_holes f l).
Proof.
  intros he h. unfold of_holes. apply Forall_flat_map. eapply Forall_impl; [|exact h].
  intros o. apply same_opt. exact he.
Qed.

Lemma good_semi d lax g m i i2 o sm : jump_ok d m -> clauses_ok m -> (forall l e b, m <> N_stmt (S_With l e b)) ->
  binds m = [] -> (forall x, m <> N_id x) -> node_semi m = Some sm -> derived g m i o -> suffix i all ->
  suffix i2 i -> ends lax i2 o sm -> (lax = true -> exists l b e sm', m = N_stmt (S_DoWhile l b e sm')) ->
  good d m.
Proof.
  intros h1 h2 h3 h4 h5 h6 hd (b & hb) (own & hi) he hl. split; [exact h1|]. split; [exact h2|].
  split; [intros _; apply strict_plain; assumption|].
  intros sm' e. rewrite h6 in e. injection e as <-. destruct he as [t o ht|t o ht hc].
  - exists g, b, i, t, o. split; [exact hb|]. split; [exact hd|]. split; [reflexivity|]. split; [exact ht|].
    exists own. exact hi.
  - exists g, b, i, t, o. split; [exact hb|]. split; [exact hd|].
    destruct hc as [hc|[hc|[hc|hc]]]; [right; left; exact hc|right; right; left; exact hc|left; exact hc|].
    right. right. right. apply hl, hc.
Qed.

Definition GP {A} (g : place) (n : nt A) (i o : tokens) (a : A) : Prop :=
  suffix i all -> pl_mode g = md -> holds n (ar g) a.

Lemma H_leaf c m : children m = [] -> good c m -> H c m.
Proof. intros h1 h2. apply H_intro; [exact h2|]. rewrite h1. apply Forall_nil. Qed.

Ltac plain := apply good_plain; [try exact I|try exact I|discriminate|reflexivity|discriminate|reflexivity].
Ltac kids :=
  cbn [children stmt_children expr_children prop_children pval_children target_children func_children
       pp_children bo_dirs bo_items pa_list pa_rest fn_id fn_params fn_body app];
  unfold func_children; cbn [of_opt fn_id fn_params fn_body app];
  repeat match goal with
         | |- Forall _ (of_list _ _) => eapply same_list; [intros; cbn [enter]; reflexivity|]
         | |- Forall _ (of_opt _ (Some _)) => cbn [of_opt]
         | |- Forall _ (of_opt _ None) => cbn [of_opt]
         | |- Forall _ (of_opt _ _) => eapply same_opt; [intros; cbn [enter]; reflexivity|]
         | |- Forall _ (of_holes _ _) => eapply same_holes; [intros; cbn [enter]; reflexivity|]
         | |- Forall _ (_ ++ _) => apply Forall_app; split
         | |- Forall _ (_ :: _) => apply Forall_cons
         | |- Forall _ [] => apply Forall_nil
         end.
Ltac fin := cbn [rp_patt];
  repeat match goal with
         | K : _ /\ _ |- _ => destruct K
         end;
  first [ assumption
        | lazymatch goal with
          | |- opt_ _ None => exact I
          | |- opt_ _ (Some _) => cbn [opt_ rp_patt]; fin
          end
        | eapply H_id; eassumption
        | apply H_ipatt; assumption
        | apply H_target; assumption
        | apply H_tpatt; assumption
        | apply H_leaf; [reflexivity|solve [plain]]
        | eapply Forall_impl; [|eassumption]; intros ?; first [apply H_ipatt | trivial] ].
Ltac conjs := repeat match goal with |- _ /\ _ => apply conj end.
Ltac semi_ :=
  eapply good_semi;
    [|exact I|discriminate|reflexivity|discriminate|reflexivity|
     |eassumption| |eassumption|try discriminate].
Ltac bnd :=
  eapply good_binds; [exact I|exact I|discriminate|reflexivity|discriminate|reflexivity|eassumption].
Ltac deep :=
  solve [fin] || (apply H_intro; [first [solve [plain] | solve [bnd]]|kids; deep]).

Lemma G_holds A g (n : nt A) i o a : G g n i o a -> GP g n i o a.
Proof.
  induction 1; intros Hs Hm; cbn [holds] in *; unfold GP in *; cbn [holds] in *;
    repeat match goal with
           | K : eat _ _ _ |- _ => let h := fresh "hx" in pose proof (suffix_eat _ _ _ K) as h; revert K
           | K : op_ _ _ _ |- _ => let h := fresh "hx" in pose proof (suffix_eat _ _ _ K) as h; revert K
           | K : kw _ _ _ |- _ => let h := fresh "hx" in pose proof (suffix_eat _ _ _ K) as h; revert K
           | K : G _ _ _ _ _ |- _ => let h := fresh "hx" in pose proof (G_suffix _ _ _ _ _ _ K) as h; revert K
           end; intros;
    repeat match goal with
           | IH : suffix ?x all -> _ |- _ =>
               specialize (IH ltac:(sfx)); specialize (IH ltac:(exact Hm || reflexivity))
           end;
    cbn [fst snd] in *.
  all: try solve [fin].
  all: try solve [kids; fin].
  all: try solve [apply H_intro; [plain|kids; fin]].
  all: try solve [conjs; kids; fin].
  all: try solve [apply H_intro; [semi_; [try assumption; exact I|cbn; econstructor; eassumption|sfx]|kids; fin]].
  all: try solve [deep].
  - rewrite <- Hm. assumption.
  - exists x. split; [reflexivity|assumption].
  - apply H_intro; [plain|]. kids.
    + eapply Forall_impl; [|exact (proj1 IHGX)]. intros p. apply H_ipatt.
    + apply proj2 in IHGX. destruct r as [r|]; [|exact I]. apply H_intro; [plain|]. kids. apply H_ipatt. exact IHGX.
  - apply H_intro; [plain|]. kids. eapply H_id. rewrite <- Hm. eassumption.
  - destruct op; cbn [infix_expr]; deep.
  - apply H_intro; [semi_; [eexists; eassumption|cbn; econstructor; eassumption|sfx]|kids; fin].
  - apply H_intro; [|kids; fin]. split; [exact I|]. split; [exact I|]. split; [congruence|apply semi_none; reflexivity].
  - apply H_intro; [apply good_plain; try exact I; try discriminate; try reflexivity; assumption|]. kids; fin.
  - apply H_intro; [apply good_plain; try exact I; try discriminate; try reflexivity; left; discriminate|]. kids; fin.
  - apply H_intro; [apply good_plain; try exact I; try discriminate; try reflexivity; right; discriminate|]. kids; fin.
  - apply H_intro; [apply good_plain; try exact I; try discriminate; try reflexivity; left; discriminate|]. kids; fin.
  - apply H_intro; [semi_; [exact I|cbn; econstructor; eassumption|sfx|repeat eexists]|kids; fin].
  - match goal with K : exists l', _ |- _ => destruct K as (l' & [(_ & ->)|[(_ & ->)|(_ & ->)]]) end; deep.
  - match goal with K : exists l', _ |- _ => destruct K as (l' & [(_ & ->)|[(_ & ->)|(_ & ->)]]) end; deep.
  Unshelve. all: exact g.
Qed.
End Tree.

(** ** Whole inputs *)

Lemma within_inside c n m : within n m -> exists d, inside n c m d.
Proof.
  induction 1 as [|m x _ [d IH] Hx].
  - exists c. apply is_refl.
  - exists (enter m x d). apply is_step; assumption.
Qed.

Lemma script_tree m i o x : G (top m) Script i o x -> H i m nothing (N_body x).
Proof. intros h. exact (G_holds i m _ _ _ _ _ _ h (suffix_refl i) eq_refl). Qed.

Lemma item_seq_H all g is i o : item_seq g is i o -> suffix i all ->
  Forall (fun d => H all (pl_mode g) (ar g) (N_item d)) is.
Proof.
  revert i. induction is as [|x is IH]; intros i h hs; [apply Forall_nil|].
  destruct h as (m & h1 & h2). apply Forall_cons.
  - exact (G_holds all _ _ _ _ _ _ _ h1 hs eq_refl).
  - apply (IH m h2). exact (suffix_trans _ _ _ (G_suffix _ _ _ _ _ _ h1) hs).
Qed.
Lemma top_level_H m ds is i o : top_level m ds is i o ->
  Forall (fun d => H i m nothing (N_dir d)) ds /\ Forall (fun d => H i m nothing (N_item d)) is.
Proof.
  intros (j & h1 & _ & h2). split.
  - exact (G_holds i m _ _ _ _ _ _ h1 (suffix_refl i) eq_refl).
  - exact (item_seq_H i (top m) is j o h2 (G_suffix _ _ _ _ _ _ h1)).
Qed.
Lemma body_tree m l ds is i o : top_level m ds is i o -> H i m nothing (N_body (Body l ds is)).
Proof.
  intros h. apply top_level_H in h as [h1 h2]. apply H_intro.
  - apply good_plain; try exact I; try reflexivity; discriminate.
  - cbn [children bo_dirs bo_items]. apply Forall_app. split;
      (eapply same_list; [intros; cbn [enter]; reflexivity|assumption]).
Qed.
Lemma module_tree m l ds is i o : top_level m ds is i o -> H i m nothing (N_mod (Body l ds (map MI_Item is))).
Proof.
  intros h. apply top_level_H in h as [h1 h2]. apply H_intro.
  - apply good_plain; try exact I; try reflexivity; discriminate.
  - cbn [children bo_dirs bo_items]. apply Forall_app. split.
    + eapply same_list; [intros; cbn [enter]; reflexivity|assumption].
    + eapply same_list; [intros; cbn [enter]; reflexivity|]. apply Forall_map. eapply Forall_impl; [|exact h2].
      intros x hx. apply H_intro; [apply good_plain; try exact I; try reflexivity; discriminate|].
      apply Forall_cons; [exact hx|apply Forall_nil].
Qed.
