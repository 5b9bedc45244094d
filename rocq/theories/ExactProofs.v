(** Where the two readings of the grammar, [G] and [GX true], agree. *)
From Coq Require Import String Ascii List NArith Arith Bool Lia.
From Verif Require Import Base Chars Word Token Lexer Punc Ast Track Stack Node SpecLexer SpecStack SpecTree SpecGrammar SpecParser SpecPlace
  SpecExact TreeProofs GrammarProps.
Import ListNotations.
Local Open Scope nat_scope.

(** ** The last token of an operand *)

Definition last_ok (i o : tokens) : Prop := exists pre t, i = pre ++ t :: o /\ ends_operand t.
Definition last_of {A} (n : nt A) (i o : tokens) : Prop :=
  match n with
  | Name_ _ | FunctionBody | FunctionRest | FunctionExpr | Arguments | DotName | Primary | Base_ | Member | NewArgs
  | NewBare | Lhs | Postfix | Unary | Infix _ => last_ok i o
  | _ => True
  end.
Lemma last_suffix i i' o : suffix i' i -> last_ok i' o -> last_ok i o.
Proof. intros (a & ->) (b & t & -> & h). exists (a ++ b), t. rewrite app_assoc. split; [reflexivity|exact h]. Qed.
Lemma last_one t o : ends_operand t -> last_ok (t :: o) o.
Proof. intros h. exists [], t. split; [reflexivity|exact h]. Qed.
Lemma last_tok i t o : suffix (t :: o) i -> ends_operand t -> last_ok i o.
Proof. intros h1 h2. exact (last_suffix _ _ _ h1 (last_one t o h2)). Qed.
Lemma last_eat d i i' o : eat d i' o -> match d with TPunc p => In p [T_RParen; T_RBrack; T_RBrace] | TIdent _ => True | _ => False end ->
  suffix i' i -> last_ok i o.
Proof.
  intros (t & -> & h) hd hs. apply (last_tok _ t); [exact hs|]. unfold ends_operand. rewrite h.
  destruct d; try contradiction; [|exact Logic.I]. cbn in hd |- *. tauto.
Qed.
Lemma G_last A g (n : nt A) i o a : G g n i o a -> last_of n i o.
Proof.
  induction 1; cbn [last_of] in *; try exact Logic.I; try assumption;
    repeat match goal with
           | K : eat _ _ _ |- _ => let h := fresh "hx" in pose proof (suffix_eat _ _ _ K) as h; revert K
           | K : op_ _ _ _ |- _ => let h := fresh "hx" in pose proof (suffix_eat _ _ _ K) as h; revert K
           | K : kw _ _ _ |- _ => let h := fresh "hx" in pose proof (suffix_eat _ _ _ K) as h; revert K
           | K : G _ _ _ _ _ |- _ => let h := fresh "hx" in pose proof (G_suffix _ _ _ _ _ _ K) as h; revert K
           end; intros.
  all: try solve [match goal with H : last_ok ?i' ?o |- last_ok ?i ?o => apply (last_suffix i i' o); [sfx|exact H] end].
  all: try solve [match goal with H : eat ?d ?i' ?o |- last_ok ?i ?o => apply (last_eat d i i' o H); [cbn; tauto|sfx] end].
  all: try solve [match goal with H : op_ ?d ?i' ?o |- last_ok ?i ?o => apply (last_eat (TPunc d) i i' o H); [cbn; tauto|sfx] end].
  all: try solve [match goal with H : tk_value ?t = _ |- last_ok ?i ?o =>
                    apply (last_tok i t o); [sfx|unfold ends_operand; rewrite H; cbn; tauto] end].
  all: match goal with H : last_ok ?i' ?o |- last_ok (?t :: _) ?o =>
                    apply (last_suffix _ i' o); [apply suffix_cons|exact H] end.
Qed.

(** ** Calm token sequences *)

Lemma calm_suffix i o : calm i -> suffix o i -> calm o.
Proof. intros h (a & ->) before t t' after ->. apply (h (a ++ before) t t' after). rewrite <- app_assoc. reflexivity. Qed.
Lemma calm_next (i o : tokens) (P : token -> Prop) : calm i -> last_ok i o -> next P o -> next (fun t => ~ regexp t) o.
Proof.
  intros h (pre & t & -> & ht) (t' & r & -> & _). exists t', r. split; [reflexivity|]. intros hr.
  exact (proj1 (h pre t t' r eq_refl) hr ht).
Qed.

Lemma calm_let i i2 (P : token -> Prop) : calm i -> suffix i2 i ->
  (forall i', eat (TIdent (NAtom A_Let)) i2 i' -> next (fun t => P t /\ (false = true -> ~ slash t)) i') ->
  forall i', eat (TIdent (NAtom A_Let)) i2 i' -> next (fun t => P t /\ (true = true -> ~ slash t)) i'.
Proof.
  intros h (pre & ->) k i' He. destruct (k i' He) as (t' & r & -> & Ht & _). destruct He as (t & -> & Et).
  exists t', r. split; [reflexivity|]. split; [exact Ht|]. intros _ K.
  apply (h pre t t' r eq_refl) in K. exact (proj1 K Et).
Qed.

(** ** Distinct labels in the parts of a tree *)

Inductive L (c : around) (n : node) : Prop :=
  L_all : (forall m d, inside n c m d -> own_label d m) -> L c n.
Lemma L_good c n : L c n -> own_label c n.
Proof. intros [h]. apply h, is_refl. Qed.
Lemma L_children c n : L c n -> Forall (fun x => L (enter n x c) x) (children n).
Proof.
  intros [h]. apply Forall_forall. intros x hx. constructor. intros m d hi. apply h. exact (inside_child _ _ _ _ _ hx hi).
Qed.
Lemma L_intro c n : own_label c n -> Forall (fun x => L (enter n x c) x) (children n) -> L c n.
Proof.
  intros Hg Hc. constructor. intros m d Hi. apply inside_split in Hi. destruct Hi as [[-> ->]|(x & Hx & Hi)]; [exact Hg|].
  rewrite Forall_forall in Hc. destruct (Hc x Hx) as [k]. exact (k m d Hi).
Qed.

Lemma L_list {A} (e : node -> around) c (f : A -> node) (l : list A) : (forall a, e (f a) = c) ->
  Forall (fun x => L (e x) x) (of_list f l) -> Forall (fun a => L c (f a)) l.
Proof.
  intros he h. unfold of_list in h. apply Forall_map in h. eapply Forall_impl; [|exact h]. intros a. cbn. rewrite he. trivial.
Qed.
Lemma L_opt {A} (e : node -> around) c (f : A -> node) (o : option A) : (forall a, e (f a) = c) ->
  Forall (fun x => L (e x) x) (of_opt f o) -> opt_ (fun a => L c (f a)) o.
Proof. intros he h. destruct o as [a|]; [|exact Logic.I]. inversion h; subst. cbn. rewrite <- (he a). assumption. Qed.
Lemma L_holes {A} (e : node -> around) c (f : A -> node) (l : list (option A)) : (forall a, e (f a) = c) ->
  Forall (fun x => L (e x) x) (of_holes f l) -> Forall (opt_ (fun a => L c (f a))) l.
Proof.
  intros he h. unfold of_holes in h. apply Forall_flat_map in h. eapply Forall_impl; [|exact h].
  intros o. apply L_opt, he.
Qed.

(** *** A pattern and the expression it is read from *)
Lemma L_target c x : L c (N_target x) -> L c (N_expr (target_expr x)).
Proof. intros h. apply L_intro; [destruct x; exact Logic.I|]. apply L_children in h. destruct x; exact h. Qed.
Lemma L_tpatt c p : rests_unlocated p -> L c (N_tpatt p) -> L c (N_expr (patt_expr p)).
Proof.
  revert p. fix IH 2. intros p hp. destruct hp as [t|l es r h1 h2|l ps h1]; intros h; apply L_children in h.
  - inversion h; subst. apply L_target. assumption.
  - apply L_intro; [exact Logic.I|]. cbn in h |- *. apply Forall_app in h as [ha hb].
    unfold of_holes. rewrite flat_map_app. apply Forall_app. split.
    + apply (L_holes (fun _ => c) c) in ha; [|reflexivity]. apply Forall_flat_map. apply Forall_map.
      rewrite Forall_forall in ha. apply Forall_forall. intros [q|] hq; [|constructor].
      constructor; [|constructor]. apply L_intro; [exact Logic.I|]. constructor; [|constructor].
      apply (IH q (h1 q hq)). exact (ha _ hq).
    + destruct r as [r|]; [|constructor]. inversion hb as [|? ? hr]; subst. constructor; [|constructor].
      apply L_intro; [exact Logic.I|]. constructor; [|constructor].
      destruct (h2 r eq_refl) as [_ h3]. apply (IH _ h3). apply L_children in hr. inversion hr; subst. assumption.
  - apply L_intro; [exact Logic.I|]. cbn in h |- *. unfold of_list in *. rewrite Forall_map in h. rewrite map_map, Forall_map.
    rewrite Forall_forall in h. apply Forall_forall. intros q hq. specialize (h q hq). apply L_children in h.
    apply L_intro; [destruct q; exact Logic.I|].
    destruct q as [l' k q|i]; [|exact h]. inversion h as [|? ? ha hb]; subst. inversion hb as [|? ? hc hd]; subst.
    constructor; [exact ha|]. constructor; [|constructor]. apply L_intro; [exact Logic.I|].
    constructor; [|constructor]. exact (IH q (h1 l' k q hq) hc).
Qed.

(** ** From [G] to [GX true] *)

Fixpoint parts {A} (n : nt A) (c : around) : A -> Prop :=
  match n in nt A' return A' -> Prop with
  | Commas n => Forall (parts n c)
  | CommaList n => Forall (parts n c)
  | Name_ _ | Pattern | ParamList | Parameters | Directive | Directives | Key | DotName => fun _ => True
  | Items => Forall (fun d => L c (N_item d))
  | Script => fun b => L c (N_body b)
  | FunctionBody => fun b => L fresh (N_body b)
  | FunctionRest => fun p => L fresh (N_body (snd p))
  | FunctionExpr => fun f => L c (N_fexpr f)
  | FunctionDecl => fun f => L c (N_fdecl f)
  | ListItem => fun e => L c (N_eli e)
  | Elements => Forall (opt_ (fun e => L c (N_eli e)))
  | Arguments => Forall (fun e => L c (N_eli e))
  | Property => fun p => L c (N_prop p)
  | Primary => fun e => L c (N_expr e)
  | Base_ => fun e => L c (N_expr e)
  | Member => fun e => L c (N_expr e)
  | NewArgs => fun e => L c (N_expr e)
  | NewBare => fun e => L c (N_expr e)
  | Lhs => fun e => L c (N_expr e)
  | Postfix => fun e => L c (N_expr e)
  | Unary => fun e => L c (N_expr e)
  | Infix _ => fun e => L c (N_expr e)
  | Conditional => fun e => L c (N_expr e)
  | Assignment => fun e => L c (N_expr e)
  | Expression => fun e => L c (N_expr e)
  | Declarator => fun d => L c (N_dtor d)
  | ConstDeclarator => fun d => L c (N_cdtor d)
  | BlockOf => fun b => L c (N_block b)
  | ForRest => fun p => opt_ (fun e => L c (N_expr e)) (fst (fst p))
                        /\ opt_ (fun e => L c (N_expr e)) (snd (fst p))
                        /\ L (looped c) (N_stmt (snd p))
  | Catch_ => fun x => L c (N_catch x)
  | Case_ => fun x => L c (N_case x)
  | Cases => Forall (fun x => L c (N_case x))
  | Statement => fun s => L c (N_stmt s)
  | Declaration => fun d => L c (N_decl d)
  | Item _ => fun d => L c (N_item d)
  end.

Ltac kids_in K :=
  cbn [children stmt_children expr_children prop_children pval_children target_children func_children
       pp_children bo_dirs bo_items pa_list pa_rest fn_id fn_params fn_body app] in K;
  unfold func_children in K; cbn [of_opt fn_id fn_params fn_body app] in K.
Ltac split_kids :=
  repeat match goal with
         | K : Forall _ (of_list _ _) |- _ => eapply L_list in K; [|intros; cbn [enter]; reflexivity]
         | K : Forall _ (of_opt _ (Some _)) |- _ => cbn [of_opt] in K
         | K : Forall _ (of_opt _ None) |- _ => clear K
         | K : Forall _ (of_opt _ _) |- _ => eapply L_opt in K; [|intros; cbn [enter]; reflexivity]
         | K : Forall _ (of_holes _ _) |- _ => eapply L_holes in K; [|intros; cbn [enter]; reflexivity]
         | K : Forall _ (_ ++ _) |- _ => let K1 := fresh in let K2 := fresh in apply Forall_app in K; destruct K as [K1 K2]
         | K : Forall _ (_ :: _) |- _ =>
             let K1 := fresh in let K2 := fresh in
             pose proof (Forall_inv K) as K1; pose proof (Forall_inv_tail K) as K2; clear K; cbn [enter] in K1
         | K : Forall _ [] |- _ => clear K
         | K : opt_ _ (Some _) |- _ => cbn [opt_] in K
         | K : _ /\ _ |- _ => let K1 := fresh in let K2 := fresh in destruct K as [K1 K2]
         end.
Ltac open1 :=
  match goal with
  | K : L _ (?f ?x) |- _ =>
      lazymatch x with
      | target_expr _ => fail
      | patt_expr _ => fail
      | _ => assert_fails (is_var x); apply L_children in K; kids_in K; split_kids
      end
  end.

Lemma sure_of A g (n : nt A) i o a : G g n i o a -> calm i -> parts n (ar g) a -> GX true g n i o a.
Proof.
  induction 1; intros Hc Hp; cbn [parts] in Hp;
    repeat match goal with
           | K : eat _ _ _ |- _ => let h := fresh "hx" in pose proof (suffix_eat _ _ _ K) as h; revert K
           | K : op_ _ _ _ |- _ => let h := fresh "hx" in pose proof (suffix_eat _ _ _ K) as h; revert K
           | K : kw _ _ _ |- _ => let h := fresh "hx" in pose proof (suffix_eat _ _ _ K) as h; revert K
           | K : G _ _ _ _ _ |- _ => let h := fresh "hx" in pose proof (G_suffix _ _ _ _ _ _ K) as h; revert K
           end; intros;
    repeat match goal with
           | IH : calm ?x -> _ |- _ =>
               specialize (IH ltac:(first [exact Hc | apply (calm_suffix _ _ Hc); sfx | apply (calm_suffix _ _ Hc), suffix_cons]))
           end;
    cbn [parts fst snd] in *.
  all: try solve [econstructor; eauto].
  all: try solve [split_kids; repeat open1; econstructor; eauto].
  - split_kids; repeat open1. eapply g_script; eauto. intros _ t t' r s -> E K.
    destruct hx0 as (pre & ->). apply (Hc pre t t' r eq_refl) in K. exact (proj2 K s E).
  - eapply g_postfix_none; eauto. intros _. eapply calm_next; [exact Hc|exact (G_last _ _ _ _ _ _ H)|eassumption].
  - split_kids; repeat open1. eapply g_postfix_inc; eauto using L_target.
  - split_kids; repeat open1. eapply g_postfix_dec; eauto using L_target.
  - split_kids; repeat open1. eapply g_unary_inc; eauto using L_target.
  - split_kids; repeat open1. eapply g_unary_dec; eauto using L_target.
  - destruct op; cbn [infix_expr] in Hp; repeat open1; eapply (g_infix_op true); eauto.
  - eapply g_cond_none; eauto. intros _. eapply calm_next; [exact Hc|exact (G_last _ _ _ _ _ _ H)|eassumption].
  - split_kids; repeat open1. eapply g_assign; eauto using L_tpatt.
  - split_kids; repeat open1. eapply g_assign_op; eauto using L_target.
  - pose proof (L_good _ _ Hp) as Ho. repeat open1. eapply g_label; eauto.
  - repeat open1. eapply g_for_expr; eauto. eapply calm_let; [eassumption|sfx|eassumption].
  - repeat open1. eapply g_for_in; eauto using L_tpatt. eapply calm_let; [eassumption|sfx|eassumption].
  - repeat open1. eapply g_for_of; eauto using L_tpatt. eapply calm_let; [eassumption|sfx|eassumption].
Qed.

(** ** Labels do not depend on locations *)

Lemma is_loop_untrack b : is_loop (stmt_untrack b) = is_loop b.
Proof. revert b. fix IH 1. intros b. destruct b; try reflexivity. exact (IH b). Qed.
Lemma enter_untrack n x c : enter (node_untrack n) (node_untrack x) c = enter n x c.
Proof.
  destruct n; try (destruct x; reflexivity). destruct s; destruct x; try reflexivity.
  cbn [node_untrack stmt_untrack enter id_untrack id_name]. rewrite is_loop_untrack. reflexivity.
Qed.
Lemma own_untrack d m : own_label d (node_untrack m) <-> own_label d m.
Proof. destruct m; try reflexivity. destruct s; reflexivity. Qed.
Lemma inside_untrack n c m d : inside n c m d -> inside (node_untrack n) c (node_untrack m) d.
Proof.
  induction 1 as [|m d x _ IH Hx]; [apply is_refl|]. rewrite <- enter_untrack. apply is_step; [exact IH|].
  rewrite children_untrack. apply in_map, Hx.
Qed.
Lemma inside_tracked n c m d : inside (node_untrack n) c m d -> exists m', m = node_untrack m' /\ inside n c m' d.
Proof.
  induction 1 as [|m d x _ (m' & -> & IH) Hx]; [exists n; split; [reflexivity|apply is_refl]|].
  rewrite children_untrack in Hx. apply in_map_iff in Hx as (x' & <- & Hx). exists x'. split; [reflexivity|].
  rewrite enter_untrack. apply is_step; assumption.
Qed.
Lemma labels_untrack n m : node_untrack n = node_untrack m -> labels_differ n -> labels_differ m.
Proof.
  intros E h x d hi. apply inside_untrack in hi. rewrite <- E in hi. apply inside_tracked in hi as (y & E' & hi).
  apply h in hi. apply own_untrack. rewrite E'. apply own_untrack, hi.
Qed.

(** ** Texts without slashes *)

Lemma lexeme_slash V op t w l : lexeme V op (tk_value t) w l -> regexp t \/ slash t -> In (N_of_ascii "/") w.
Proof.
  intros h [(r & E)|[E|[E|[]]]]; rewrite E in h || rewrite <- E in h; inversion h; subst; left; reflexivity.
Qed.
Lemma tiles_no_slash V src ops b k ts k' : tiles V src ops b k ts k' -> ~ In (N_of_ascii "/") src ->
  Forall (fun t => ~ regexp t /\ ~ slash t) ts.
Proof.
  induction 1 as [|op ops b k t k1 ts k2 (ws & w & l & hs & -> & _ & hl & _) h2 IH]; intros hn; constructor.
  - assert (K : regexp t \/ slash t -> False); [|split; intros K'; apply K; auto].
    intros K. apply hn. apply (lexeme_slash _ _ _ _ _ hl) in K. rewrite <- (firstn_skipn k src), hs.
    apply in_or_app. right. apply in_or_app. right. apply in_or_app. left. exact K.
  - exact (IH hn).
Qed.
Lemma no_slash_calm V src ts k : reads V src ts k -> ~ In (N_of_ascii "/") src -> calm ts.
Proof.
  intros (ops & h) hn. pose proof (tiles_no_slash _ _ _ _ _ _ _ h hn) as F. intros before t t' after ->.
  apply Forall_app in F as [_ F]. apply Forall_inv_tail, Forall_inv in F as [F1 F2]. split; intros K; contradiction.
Qed.

(** ** Scripts *)

Lemma sure_script m i o t : G (top m) Script i o t -> calm i -> labels_differ (N_body t) -> GX true (top m) Script i o t.
Proof. intros D hc hl. apply sure_of; [exact D|exact hc|]. constructor. exact hl. Qed.
