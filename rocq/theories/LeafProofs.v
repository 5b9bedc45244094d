(** The nodes made of one token carry its location, in every derivation of the grammar. *)
From Coq Require Import String Ascii List NArith Bool.
From Verif Require Import Base Word Token Punc Ast Track Stack Node NodeProofs SpecStack SpecTree SpecLexer SpecGrammar SpecPlace
  SpecParser GrammarProps SpecLoc.
Import ListNotations.
Local Open Scope nat_scope.

Lemma within_split n m : within n m -> m = n \/ exists x, In x (children n) /\ within x m.
Proof.
  induction 1 as [|m c _ IH Hc]; [left; reflexivity|]. right. destruct IH as [->|(x & Hx & Hw)].
  - exists c. split; [exact Hc|apply wi_refl].
  - exists x. split; [exact Hx|]. eapply wi_step; eassumption.
Qed.
Lemma within_child n x m : In x (children n) -> within x m -> within n m.
Proof.
  intros Hx. induction 1 as [|m c _ IH Hc]; eapply wi_step; try eassumption. apply wi_refl.
Qed.

Lemma names_string n v esc : names n v esc -> name_string n = v.
Proof. destruct n as [a|s]; cbn; [intros [<- _]|intros [<- _]]; reflexivity. Qed.

Section Leaf.
Variable all : tokens.
Definition K (n : node) : Prop := forall m, within n m -> token_ok all m.
Lemma K_intro n : token_ok all n -> Forall K (children n) -> K n.
Proof.
  intros Hg Hc m Hm. apply within_split in Hm as [->|(x & Hx & Hw)]; [exact Hg|].
  rewrite Forall_forall in Hc. exact (Hc x Hx m Hw).
Qed.
Lemma K_child n x : K n -> In x (children n) -> K x.
Proof. intros h Hx m Hm. apply h. exact (within_child _ _ _ Hx Hm). Qed.
Lemma K_children n : K n -> Forall K (children n).
Proof. intros h. apply Forall_forall. intros x. apply K_child, h. Qed.

Definition K_simple (p : patt id) : Prop := exists x, p = Simple x /\ K (N_id x).
Fixpoint kept {A} (n : nt A) : A -> Prop :=
  match n in nt A' return A' -> Prop with
  | Commas n => Forall (kept n)
  | CommaList n => Forall (kept n)
  | Name_ b => fun x => K (N_id x)
  | Pattern => K_simple
  | ParamList => fun p => Forall K_simple (fst p) /\ opt_ (fun r => K_simple (rp_patt r)) (snd p)
  | Parameters => fun p => K (N_params p)
  | Directive => fun d => K (N_dir d)
  | Directives => Forall (fun d => K (N_dir d))
  | Items => Forall (fun d => K (N_item d))
  | Script => fun b => K (N_body b)
  | FunctionBody => fun b => K (N_body b)
  | FunctionRest => fun p => K (N_params (fst p)) /\ K (N_body (snd p))
  | FunctionExpr => fun f => K (N_fexpr f)
  | FunctionDecl => fun f => K (N_fdecl f)
  | ListItem => fun e => K (N_eli e)
  | Elements => Forall (opt_ (fun e => K (N_eli e)))
  | Arguments => Forall (fun e => K (N_eli e))
  | Key => fun k => K (N_pk k)
  | DotName => fun k => K (N_dk k)
  | Property => fun p => K (N_prop p)
  | Primary => fun e => K (N_expr e)
  | Base_ => fun e => K (N_expr e)
  | Member => fun e => K (N_expr e)
  | NewArgs => fun e => K (N_expr e)
  | NewBare => fun e => K (N_expr e)
  | Lhs => fun e => K (N_expr e)
  | Postfix => fun e => K (N_expr e)
  | Unary => fun e => K (N_expr e)
  | Infix _ => fun e => K (N_expr e)
  | Conditional => fun e => K (N_expr e)
  | Assignment => fun e => K (N_expr e)
  | Expression => fun e => K (N_expr e)
  | Declarator => fun d => K (N_dtor d)
  | ConstDeclarator => fun d => K (N_cdtor d)
  | BlockOf => fun b => K (N_block b)
  | ForRest => fun p => opt_ (fun e => K (N_expr e)) (fst (fst p))
                        /\ opt_ (fun e => K (N_expr e)) (snd (fst p)) /\ K (N_stmt (snd p))
  | Catch_ => fun x => K (N_catch x)
  | Case_ => fun x => K (N_case x)
  | Cases => Forall (fun x => K (N_case x))
  | Statement => fun s => K (N_stmt s)
  | Declaration => fun d => K (N_decl d)
  | Item _ => fun d => K (N_item d)
  end.

Lemma K_ipatt p : K_simple p -> K (N_ipatt p).
Proof. intros (x & -> & hx). apply K_intro; [exact I|]. apply Forall_cons; [exact hx|apply Forall_nil]. Qed.
Lemma K_target x : K (N_expr (target_expr x)) -> K (N_target x).
Proof.
  intros h. apply K_intro; [exact I|]. apply K_children in h. destruct x; exact h.
Qed.
Lemma K_tpatt p : rests_unlocated p -> K (N_expr (patt_expr p)) -> K (N_tpatt p).
Proof.
  revert p. fix IH 2. intros p hp. destruct hp as [t|l es r h1 h2|l ps h1]; intros h.
  - apply K_intro; [exact I|]. apply Forall_cons; [|apply Forall_nil]. apply K_target. exact h.
  - apply K_intro; [exact I|]. apply K_children in h. cbn in h |- *. unfold of_holes in h. rewrite flat_map_app in h.
    apply Forall_app in h. destruct h as [ha hb]. rewrite Forall_forall in ha, hb. apply Forall_app. split.
    + apply Forall_forall. intros x hx. unfold of_holes in hx. apply in_flat_map in hx.
      destruct hx as (q & hq & hx). destruct q as [q|]; [|destruct hx]. destruct hx as [<-|[]].
      apply (IH q (h1 q hq)). apply (K_child (N_eli (L_Expr (patt_expr q)))); [|left; reflexivity].
      apply ha. apply in_flat_map. exists (Some (L_Expr (patt_expr q))). split; [|left; reflexivity].
      apply in_map_iff. exists (Some q). split; [reflexivity|exact hq].
    + destruct r as [r|]; [|apply Forall_nil]. apply Forall_cons; [|apply Forall_nil].
      apply K_intro; [exact I|]. apply Forall_cons; [|apply Forall_nil].
      assert (k : K (N_eli (L_Spread (rp_loc r) (patt_expr (rp_patt r))))) by (apply hb; left; reflexivity).
      destruct (h2 r eq_refl) as [_ h3]. apply (IH _ h3).
      exact (K_child _ (N_expr (patt_expr (rp_patt r))) k (or_introl eq_refl)).
  - apply K_intro; [exact I|]. apply K_children in h. cbn in h |- *. rewrite Forall_forall in h. apply Forall_forall.
    intros x hx. unfold of_list in hx. apply in_map_iff in hx. destruct hx as (q & <- & hq).
    destruct q as [l' k q|i].
    + assert (k0 : K (N_prop (Pr_Regular l' k (PV_Init (patt_expr q))))).
      { apply h. unfold of_list. rewrite map_map. apply in_map_iff. exists (PP_Regular l' k q). split; [reflexivity|exact hq]. }
      apply K_intro; [exact I|].
      apply Forall_cons; [exact (K_child _ (N_pk k) k0 (or_introl eq_refl))|].
      apply Forall_cons; [|apply Forall_nil].
      apply (IH q (h1 l' k q hq)).
      pose proof (K_child _ (N_pval (PV_Init (patt_expr q))) k0 (or_intror (or_introl eq_refl))) as k1.
      exact (K_child _ (N_expr (patt_expr q)) k1 (or_introl eq_refl)).
    + assert (k0 : K (N_prop (Pr_Shorthand i))).
      { apply h. unfold of_list. rewrite map_map. apply in_map_iff. exists (PP_Shorthand i). split; [reflexivity|exact hq]. }
      apply K_intro; [exact I|].
      apply Forall_cons; [|apply Forall_nil]. exact (K_child _ (N_id i) k0 (or_introl eq_refl)).
Qed.
Lemma K_list {A} (f : A -> node) (l : list A) : Forall (fun a => K (f a)) l -> Forall K (of_list f l).
Proof. intros h. unfold of_list. apply Forall_map. exact h. Qed.
Lemma K_opt {A} (f : A -> node) (o : option A) : opt_ (fun a => K (f a)) o -> Forall K (of_opt f o).
Proof.
  intros h. destruct o as [a|]; [|apply Forall_nil].
  apply Forall_cons; [exact h|apply Forall_nil].
Qed.
Lemma K_holes {A} (f : A -> node) (l : list (option A)) : Forall (opt_ (fun a => K (f a))) l ->
  Forall K (of_holes f l).
Proof.
  intros h. unfold of_holes. apply Forall_flat_map. eapply Forall_impl; [|exact h].
  intros o. apply K_opt.
Qed.
Lemma in_suffix t o : suffix (t :: o) all -> In t all.
Proof. intros (b & ->). apply in_or_app. right. left. reflexivity. Qed.
Lemma made_here t o (P : token -> Prop) : suffix (t :: o) all -> P t -> made_of all (Some (tk_loc t)) P.
Proof. intros h hP. exists t. split; [exact (in_suffix _ _ h)|auto]. Qed.

Definition KP {A} (n : nt A) (i o : tokens) (a : A) : Prop := suffix i all -> kept n a.
Ltac kids :=
  cbn [children stmt_children expr_children prop_children pval_children target_children func_children
       pp_children bo_dirs bo_items pa_list pa_rest fn_id fn_params fn_body app];
  unfold func_children; cbn [of_opt fn_id fn_params fn_body app];
  repeat match goal with
         | |- Forall K (of_list _ _) => apply K_list
         | |- Forall K (of_opt _ (Some _)) => cbn [of_opt]
         | |- Forall K (of_opt _ None) => cbn [of_opt]
         | |- Forall K (of_opt _ _) => apply K_opt
         | |- Forall K (of_holes _ _) => apply K_holes
         | |- Forall _ (_ ++ _) => apply Forall_app; split
         | |- Forall _ (_ :: _) => apply Forall_cons
         | |- Forall _ [] => apply Forall_nil
         end.
Ltac here := cbn [token_ok id_loc op_loc op_tag dk_loc dk_value];
  first [ exact I
        | eapply made_here; [eassumption || sfx|];
          first [eassumption | eexists; split; [eassumption|reflexivity]
                | left; eexists; split; [eassumption|reflexivity]
                | right; eexists; split; [eassumption|reflexivity]] ].
Ltac fin := cbn [rp_patt];
  repeat match goal with
         | X : _ /\ _ |- _ => destruct X
         end;
  first [ assumption
        | lazymatch goal with
          | |- opt_ _ None => exact I
          | |- opt_ _ (Some _) => cbn [opt_ rp_patt]; fin
          end
        | apply K_ipatt; assumption
        | apply K_target; assumption
        | apply K_tpatt; assumption
        | eapply Forall_impl; [|eassumption]; intros ?; first [apply K_ipatt | trivial] ].
Ltac conjs := repeat match goal with |- _ /\ _ => apply conj end.
Ltac deep := solve [fin] || (apply K_intro; [solve [here]|kids; deep]).

Lemma G_kept A g (n : nt A) i o a : G g n i o a -> KP n i o a.
Proof.
  induction 1; intros Hs; unfold KP in *; cbn [kept] in *;
    repeat match goal with
           | X : eat _ _ _ |- _ => let h := fresh "hx" in pose proof (suffix_eat _ _ _ X) as h; revert X
           | X : op_ _ _ _ |- _ => let h := fresh "hx" in pose proof (suffix_eat _ _ _ X) as h; revert X
           | X : kw _ _ _ |- _ => let h := fresh "hx" in pose proof (suffix_eat _ _ _ X) as h; revert X
           | X : G _ _ _ _ _ |- _ => let h := fresh "hx" in pose proof (G_suffix _ _ _ _ _ _ X) as h; revert X
           end; intros;
    repeat match goal with
           | IH : suffix ?x all -> _ |- _ => specialize (IH ltac:(sfx))
           end;
    cbn [fst snd] in *.
  all: try solve [fin].
  all: try solve [kids; fin].
  all: try solve [apply K_intro; [here|kids; fin]].
  all: try solve [conjs; kids; fin].
  all: try solve [deep].
  - exists x. split; [reflexivity|assumption].
  - apply K_intro; [exact I|]. kids.
    + eapply Forall_impl; [|exact (proj1 IHGX)]. intros p. apply K_ipatt.
    + apply proj2 in IHGX. destruct r as [r|]; [|exact I]. apply K_intro; [exact I|]. kids. apply K_ipatt. exact IHGX.
  - apply K_intro; [|apply Forall_nil]. cbn [token_ok dir_string].
    destruct H as (t & -> & Ht). destruct Hs as (p & ->). exists t. split; [apply in_or_app; right; left; reflexivity|exact Ht].
  - apply K_intro; [exact I|]. kids. apply K_intro; [|apply Forall_nil].
    cbn [token_ok id_loc id_name]. eapply made_here; [eassumption|]. exists n. split; [assumption|].
    symmetry. eapply names_string. eassumption.
  - match goal with X : infix_tok _ _ _ |- _ => destruct X as (Hsp & _ & Hl) end.
    destruct op as [[ol ot]|[ol ot]]; cbn [op_loc] in Hl; subst ol; cbn [infix_expr]; apply K_intro; try exact I; kids; try fin;
      (apply K_intro; [|apply Forall_nil]); cbn [token_ok op_loc op_tag];
      (eapply made_here; [eapply suffix_trans; eassumption|exact Hsp]).
  - match goal with X : exists l', _ |- _ => destruct X as (l' & [(_ & ->)|[(_ & ->)|(_ & ->)]]) end; deep.
  - match goal with X : exists l', _ |- _ => destruct X as (l' & [(_ & ->)|[(_ & ->)|(_ & ->)]]) end; deep.
Qed.
End Leaf.

(** ** Whole inputs *)

Lemma script_leaves g i o x : G g Script i o x -> K i (N_body x).
Proof. intros h. exact (G_kept i _ _ _ _ _ _ h (suffix_refl i)). Qed.
Lemma item_seq_K all g is i o : item_seq g is i o -> suffix i all -> Forall (fun d => K all (N_item d)) is.
Proof.
  revert i. induction is as [|x is IH]; intros i h hs; [apply Forall_nil|].
  destruct h as (m & h1 & h2). apply Forall_cons.
  - exact (G_kept all _ _ _ _ _ _ h1 hs).
  - apply (IH m h2). exact (suffix_trans _ _ _ (G_suffix _ _ _ _ _ _ h1) hs).
Qed.
Lemma top_level_K m ds is i o : top_level m ds is i o ->
  Forall (fun d => K i (N_dir d)) ds /\ Forall (fun d => K i (N_item d)) is.
Proof.
  intros (j & h1 & _ & h2). split.
  - exact (G_kept i _ _ _ _ _ _ h1 (suffix_refl i)).
  - exact (item_seq_K i (top m) is j o h2 (G_suffix _ _ _ _ _ _ h1)).
Qed.
Lemma body_leaves m l ds is i o : top_level m ds is i o -> K i (N_body (Body l ds is)).
Proof.
  intros h. apply top_level_K in h as [h1 h2]. apply K_intro; [exact I|].
  cbn [children bo_dirs bo_items]. apply Forall_app. split; apply K_list; assumption.
Qed.
Lemma module_leaves m l ds is i o : top_level m ds is i o -> K i (N_mod (Body l ds (map MI_Item is))).
Proof.
  intros h. apply top_level_K in h as [h1 h2]. apply K_intro; [exact I|].
  cbn [children bo_dirs bo_items]. apply Forall_app. split; apply K_list; [exact h1|].
  apply Forall_map. eapply Forall_impl; [|exact h2].
  intros x hx. apply K_intro; [exact I|]. apply Forall_cons; [exact hx|apply Forall_nil].
Qed.
