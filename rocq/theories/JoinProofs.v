(** Another text in place of the end of the text (C85). *)
From Coq Require Import String Ascii List NArith Arith Bool Lia.
From Verif Require Import Base Chars F64 Word Token Reader Lexer Punc Ast Track Cover Stack Node
  SpecReader SpecLexer SpecLayout SpecStack SpecTree SpecGrammar SpecParser SpecJoin GrammarProps LexWp LexTheorems LexLayout CompTok
  EndProofs EndText RestProofs.
Import ListNotations.
Local Open Scope nat_scope.

(** ** Derivations do not distinguish the end of the text from a fresh statement *)

Definition fresh (t : token) : Prop :=
  tk_newline t = true /\ item_first (tk_value t) = true /\ starts_afresh (tk_value t).

(** The same tokens up to the end of the text, where the second has the tokens [B]. *)
Inductive glued (B : tokens) : tokens -> tokens -> Prop :=
| gl_cons : forall t i i', tk_value t <> TPunc T_EOF -> (tk_value t = TIdent (NAtom A_Let) -> not_next (TPunc T_EOF) i) ->
    glued B i i' -> glued B (t :: i) (t :: i')
| gl_end : forall e r, tk_value e = TPunc T_EOF -> glued B (e :: r) B.
Definition turned (t t' : token) : Prop :=
  (t' = t /\ tk_value t <> TPunc T_EOF) \/ (tk_value t = TPunc T_EOF /\ fresh t').

Section Join.
Variables (b0 : token) (B0 : tokens).
Hypothesis Hb : fresh b0.
Notation joined := (glued (b0 :: B0)).

Lemma jn_head t o i' : joined (t :: o) i' -> exists t' o', i' = t' :: o' /\ turned t t'.
Proof using Hb. intros h. inversion h; subst; eexists _, _; (split; [reflexivity|]); [left|right]; auto. Qed.
Lemma jn_cons t o i' : joined (t :: o) i' -> tk_value t <> TPunc T_EOF -> exists o', i' = t :: o' /\ joined o o'.
Proof using. intros h n. inversion h; subst; [eauto|congruence]. Qed.
Lemma jn_eat d i o i' : eat d i o -> d <> TPunc T_EOF -> joined i i' -> exists o', eat d i' o' /\ joined o o'.
Proof using.
  intros (t & -> & h) n r. apply jn_cons in r as (o' & -> & r); [|congruence]. exists o'. split; [|exact r]. exists t. auto.
Qed.
Lemma jn_next (P Q : token -> Prop) i i' : next P i -> joined i i' -> (forall t t', turned t t' -> P t -> Q t') -> next Q i'.
Proof using Hb.
  intros (t & o & -> & h) r H. apply jn_head in r as (t' & o' & -> & u). exists t', o'. split; [reflexivity|eauto].
Qed.
Lemma jn_let P i i' : (forall i1, eat (TIdent (NAtom A_Let)) i i1 -> next P i1) -> joined i i' ->
  not_next (TPunc T_EOF) i -> forall i1, eat (TIdent (NAtom A_Let)) i' i1 -> next P i1.
Proof using.
  intros h R (t0 & r0 & -> & n0) i1 X. inversion R as [t i0 i0' n k R0|e r n]; subst; [|congruence].
  destruct X as (t & E & X). injection E as -> ->. destruct (k X) as (t1 & r1 & -> & n1).
  destruct (h (t1 :: r1)) as (t2 & r2 & E2 & P2); [exists t; auto|].
  injection E2 as <- <-. apply jn_cons in R0 as (o' & -> & _); [|exact n1]. exists t1, o'. auto.
Qed.
Lemma fresh_ends t : fresh t -> tk_value t <> TPunc T_Semi.
Proof using. intros (_ & _ & h) E. rewrite E in h. apply h. cbn. tauto. Qed.
Lemma jn_ends b i o s i' : ends b i o s -> joined i i' -> exists o', ends b i' o' s /\ joined o o'.
Proof using Hb.
  intros [t r h|t r h1 h2] R.
  - apply jn_cons in R as (o' & -> & R); [|congruence]. exists o'. split; [apply en_explicit, h|exact R].
  - pose proof R as R'. apply jn_head in R as (t' & o' & -> & u). exists (t' :: o'). split; [|exact R'].
    destruct u as [[-> n]|[a c]]; apply en_inserted; try assumption; [apply fresh_ends, c|right; right; left; apply c].
Qed.
Lemma fresh_not_continues t : fresh t -> ~ continues t.
Proof using.
  intros (a & b & c) [k|[[k _]|(p & k & n)]].
  - cbn in k. decompose sum k; try match goal with E : _ = tk_value t |- _ => rewrite <- E in b end; try discriminate; contradiction.
  - congruence.
  - rewrite k in b, c. destruct p; try discriminate b; try solve [destruct c; cbn; tauto]; apply n; cbn; tauto.
Qed.
Lemma jn_continues t t' : turned t t' -> (continues t' <-> continues t).
Proof using.
  intros [[-> _]|[a b]]; [reflexivity|]. split; intros h; exfalso; revert h; [apply fresh_not_continues; exact b|].
  apply not_continues. auto.
Qed.
Lemma fresh_spelled t w : fresh t -> spelled t w ->
  In w (map lit ["null"; "this"; "true"; "false"; "function"; "new"; "delete"; "void"; "typeof"; "var"; "const"; "if"; "continue";
    "break"; "return"; "with"; "switch"; "throw"; "try"; "while"; "do"; "for"; "debugger"; "{"; "~"; "!"; "++"; "--"]%string).
Proof using.
  intros (_ & b & c) [(p & e & <- & _)|(r & e & <-)]; rewrite e in b, c.
  - destruct p; try discriminate b; try solve [destruct c; cbn; tauto]; cbn; tauto.
  - destruct r; try discriminate b; try solve [destruct c; cbn; tauto]; cbn; tauto.
Qed.
Lemma jn_assign t t' : turned t t' -> assign_op t' -> assign_op t.
Proof using.
  intros [[-> _]|[a b]]; [trivial|]. intros [h|(x & h)].
  - destruct b as (_ & _ & b). rewrite h in b. exfalso. apply b. cbn. tauto.
  - apply (fresh_spelled _ _ b) in h. cbn in h. destruct x; decompose sum h; discriminate.
Qed.
Lemma fresh_infix b t o : fresh t -> ~ infix_tok b t o.
Proof using.
  intros f [h _]. apply (fresh_spelled _ _ f) in h. cbn in h. destruct o as [[? []]|[? []]]; decompose sum h; discriminate.
Qed.
Lemma jn_infix b t t' o : turned t t' -> infix_tok b t' o -> infix_tok b t o.
Proof using. intros [[-> _]|[a c]]; [trivial|]. intros h. destruct (fresh_infix _ _ _ c h). Qed.
Lemma fresh_value t d : fresh t -> item_first d = false \/ ~ starts_afresh d -> tk_value t <> d.
Proof using. intros (_ & a & b) [c|c] E; rewrite E in a, b; [congruence|contradiction]. Qed.
End Join.

(** Nonterminals whose trees may end with a statement list. *)
Fixpoint listy {A} (n : nt A) : bool :=
  match n with
  | Commas n => listy n
  | CommaList n => listy n
  | Items | Script | Case_ | Cases => true
  | _ => false
  end.
Definition at_end (i : tokens) : Prop := next (fun t => tk_value t = TPunc T_EOF) i.
Lemma end_eat d i o : at_end i -> eat d i o -> d = TPunc T_EOF.
Proof. intros (t & r & -> & h) (t' & E & <-). injection E as <- _. exact h. Qed.

Lemma first_eof (f : token_data -> bool) i : begins (Some f) i -> f (TPunc T_EOF) = false -> next (fun t => tk_value t <> TPunc T_EOF) i.
Proof. intros (t & o & -> & h) hf. exists t, o. split; [reflexivity|]. intros E. cbv beta in h. rewrite E in h. congruence. Qed.

Ltac chain4 Hb :=
  match goal with
  | R : glued _ (?t :: ?o) _ |- _ => apply jn_cons in R; [destruct R as (? & -> & ?)|live]
  | X : eat ?d ?i ?o, R : glued (?b :: ?B) ?i ?i' |- _ =>
      lazymatch goal with K : eat d i' _ |- _ => fail | _ => destruct (jn_eat b B d i o i' X ltac:(live) R) as (? & ? & ?) end
  | X : ends ?l ?i ?o ?s, R : glued (?b :: ?B) ?i ?i' |- _ =>
      lazymatch goal with K : ends l i' _ s |- _ => fail | _ => destruct (jn_ends b B Hb l i o s i' X R) as (? & ? & ?) end
  | K : at_end ?i, X : eat ?d ?i _ |- _ => exfalso; pose proof (end_eat _ _ _ K X); congruence
  | IH : forall i', glued ?B ?i i' -> _ \/ _ , R : glued ?B ?i ?j |- _ =>
      let K := fresh in pose proof (IH j R) as K; clear IH; cbn [listy] in K;
      let K1 := fresh in destruct K as [(? & ? & ?)|[K K1]]; [|try discriminate K]
  end.
Ltac keep4 :=
  let t := fresh "t" in let t' := fresh "t'" in let u := fresh "u" in let h := fresh "h" in
  let n := fresh "n" in let a := fresh "a" in let b := fresh "b" in
  intros t t' u h; cbv beta in *;
  first [ rewrite (jn_continues _ _ u); exact h
        | intros ?; exact (h (jn_assign _ _ u ltac:(assumption)))
        | destruct u as [[-> n]|[a b]];
          [ first [exact h | exact (proj1 h) | tauto]
          | first [ apply (fresh_value _ _ b); first [left; reflexivity | right; cbn; tauto]
                  | left; exact (proj1 b)
                  | destruct h as [h1 h2]; exfalso; apply h2; exact a
                  | exfalso; unfold begins_binding in h; decompose sum h; congruence
                  | exfalso; unfold begins_binding in h; destruct h as [h|[h|[? h]]]; congruence
                  | repeat split; 
                    first [ apply (fresh_value _ _ b); first [left; reflexivity | right; cbn; tauto]
                          | intros k; exact (fresh_infix _ _ _ b k)
                          | intros ? k; exact (fresh_infix _ _ _ b k)
                          | intros k; destruct k as [k _]; rewrite (proj1 b) in k; discriminate k
                          | intros (? & k); destruct b as (_ & _ & b); rewrite k in b; exact b
                          | intros [k|[k|[]]]; destruct b as (_ & _ & b); rewrite <- k in b; apply b; cbn; tauto ] ] ] ].
Ltac nexts5 Hb := match goal with |- next ?Q ?i' => match goal with R : glued _ ?i i' |- _ =>
  first [ eapply (jn_next _ _ Hb Q Q i i'); [solve [eauto]|exact R|keep4]
        | eapply (jn_next _ _ Hb _ Q i i'); [eapply first_value; [eapply G_first; eassumption|reflexivity|solve [eauto]]|exact R|keep4] ] end end.
Ltac nexts4 Hb :=
  unfold not_next in *;
  first [ eassumption | nexts5 Hb | intros ?; nexts5 Hb
        | match goal with N : forall i1, eat _ ?a i1 -> next ?P i1, R : glued _ ?a ?b |- _ =>
          eapply (jn_let _ _ P a b N R); eapply first_eof; [eapply G_first; eassumption|reflexivity] end ].
Lemma G_joined b0 B0 (Hb : fresh b0) x A g (n : nt A) i o a : GX x g n i o a ->
  forall i', glued (b0 :: B0) i i' ->
  (exists o', GX x g n i' o' a /\ glued (b0 :: B0) o o') \/ (listy n = true /\ at_end o).
Proof.
  induction 1; intros i' R; unfold op_, kw in *; repeat chain4 Hb.
  all: cbn [listy] in *.
  all: try solve [right; split; [reflexivity|assumption]].
  all: try solve [left; eexists; split; [econstructor; eassumption|assumption]].
  all: try solve [left; eexists; split; [econstructor; nexts4 Hb|assumption]].
  all: try solve [right; split; assumption].
  all: try (match goal with D : GX _ _ _ ?a _ _, N : next ?P ?a, R : glued _ ?a ?b |- _ =>
    assert (next P b)
      by (eapply (jn_next _ _ Hb); [eapply first_value; [exact (G_first _ _ _ _ _ _ _ D)|reflexivity|exact N]|exact R|
          intros ? ? [[-> _]|[k3 _]] [k1 k2]; [exact k1|congruence]]) end;
    solve [left; eexists; split; [econstructor; nexts4 Hb|assumption]]).
  all: try (match goal with N : forall i1, eat ?d ?a i1 -> next ?P i1, R : glued _ ?a ?b, D : GX _ _ Expression ?a _ _ |- _ =>
    assert (forall i1, eat d b i1 -> next P i1)
      by (apply (jn_let _ _ P a b N R); red; eapply first_eof; [exact (G_first _ _ _ _ _ _ _ D)|reflexivity]) end;
    solve [left; eexists; split; [econstructor; nexts4 Hb|assumption]]).
  - inversion R as [t r r' n k R0|e r n]; subst.
    + left. exists (t :: r'). split; [|exact R]. constructor. destruct H as (t1 & r1 & E & H). injection E as <- <-.
      exists t, r'. auto.
    + right. split; [reflexivity|]. exists e, r. auto.
  - left. eexists. split; [|eassumption]. econstructor; [eassumption| | |eassumption].
    + intros t t' r s -> h. inversion H4 as [t0 ? ? n0 k0 r1|t0 ? K]; subst.
      * inversion r1 as [t1 ? ? n1 k1 r2|t1 ? K]; subst; [eapply H0; [reflexivity|exact h]|].
        exfalso. eapply (not_continues t1); [left; assumption|]. eapply H0; [reflexivity|exact h].
      * exfalso. destruct Hb as (_ & _ & Hb'). rewrite h in Hb'. exact Hb'.
    + intros hx t t' r s -> h. inversion H4 as [t0 ? ? n0 k0 r1|t0 ? K]; subst.
      * inversion r1 as [t1 ? ? n1 k1 r2|t1 ? K']; subst; [eapply H1; [reflexivity|reflexivity|exact h]|].
        destruct Hb as (_ & _ & Hb'). intros [k|[k|[]]]; rewrite <- k in Hb'; apply Hb'; cbn; tauto.
      * exfalso. destruct Hb as (_ & _ & Hb'). rewrite h in Hb'. exact Hb'.
  - left. eexists. split; [|eassumption]. eapply g_expr_stmt; [| |eassumption|eassumption].
    + eapply (jn_next _ _ Hb); [eapply first_value; [exact (G_first _ _ _ _ _ _ _ H1)|reflexivity|exact H]|exact R|].
      intros ? ? [[-> _]|[k3 _]] [k1 k2]; [exact k1|congruence].
    + apply (jn_let _ _ _ _ _ H0 R). red. eapply first_eof; [exact (G_first _ _ _ _ _ _ _ H1)|reflexivity].
  - right. split; [reflexivity|]. inversion H0; subst; [assumption|].
    match goal with D : GX _ _ Case_ i1 _ _ |- _ => destruct (G_first _ _ _ _ _ _ _ D) as (t & r & -> & h) end.
    destruct H2 as (t1 & r1 & E & h1). injection E as <- <-. cbv beta in h. rewrite h1 in h. discriminate h.
Qed.

(** ** Statement lists one behind the other *)

Definition J_items b0 B0 x g0 oB isB {A} (g : place) (n : nt A) (i o : tokens) : A -> Prop :=
  match n in nt T return T -> Prop with
  | Items => fun is => g = g0 -> at_end o -> forall i', glued (b0 :: B0) i i' -> GX x g Items i' oB (is ++ isB)
  | _ => fun _ => True
  end.
Lemma items_joined b0 B0 (Hb : fresh b0) x g0 oB isB A g (n : nt A) i o a : GX x g n i o a ->
  GX x g0 Items (b0 :: B0) oB isB -> J_items b0 B0 x g0 oB isB g n i o a.
Proof.
  induction 1; intros DB; cbn [J_items]; try exact I.
  - intros -> (t & r & -> & h) i' R. inversion R; subst; [congruence|exact DB].
  - intros -> he i' R. destruct (G_joined b0 B0 Hb _ _ _ _ _ _ _ H _ R) as [(o' & D & R')|[K _]]; [|discriminate K].
    cbn [app]. eapply g_items_cons; [exact D|]. apply (IHGX2 DB eq_refl he _ R').
Qed.
Definition J_script x {A} (g : place) (n : nt A) (i o : tokens) : A -> Prop :=
  match n in nt T return T -> Prop with
  | Script => fun s => exists i1, GX x g Directives i i1 (bo_dirs s) /\ GX x g Items i1 o (bo_items s)
      /\ (forall t t' r s, i1 = t :: t' :: r -> tk_value t = TString s -> continues t')
      /\ (x = true -> forall t t' r s, i1 = t :: t' :: r -> tk_value t = TString s -> ~ slash t')
  | _ => fun _ => True
  end.
Lemma script_parts x A g (n : nt A) i o a : GX x g n i o a -> J_script x g n i o a.
Proof. destruct 1; cbn [J_script]; try exact I. cbn. eauto 8. Qed.
Definition J_dirs {A} (g : place) (n : nt A) (i o : tokens) : A -> Prop :=
  match n in nt T return T -> Prop with
  | Directives => fun ds => (ds = [] /\ i = o) \/ next (fun t => exists s, tk_value t = TString s) i
  | Directive => fun _ => next (fun t => exists s, tk_value t = TString s) i
  | _ => fun _ => True
  end.
Lemma dirs_parts x A g (n : nt A) i o a : GX x g n i o a -> J_dirs g n i o a.
Proof.
  induction 1; cbn [J_dirs] in *; try exact I; auto.
  destruct H as (t & -> & h). exists t, i1. eauto.
Qed.

Lemma script_joined b0 B0 (Hb : fresh b0) g iA oA oB tA tB iJ : GX true g Script iA oA tA -> at_end oA ->
  GX true g Script (b0 :: B0) oB tB -> glued (b0 :: B0) iA iJ ->
  bo_dirs tB = [] /\ forall l, GX true g Script iJ oB (Body l (bo_dirs tA) (bo_items tA ++ bo_items tB)).
Proof.
  intros DA he DB R. apply script_parts in DA as (i1 & D1 & D2 & c1 & c2). apply script_parts in DB as (j1 & E1 & E2 & _).
  pose proof (dirs_parts _ _ _ _ _ _ _ E1) as [[E <-]|(t & r & E & (s & K))];
    [|exfalso; injection E as <- <-; destruct Hb as (_ & _ & Hb'); rewrite K in Hb'; exact Hb'].
  split; [exact E|]. intros l. destruct (G_joined b0 B0 Hb _ _ _ _ _ _ _ D1 _ R) as [(o' & D & R')|[K _]]; [|discriminate K].
  eapply g_script; [exact D| | |exact (items_joined b0 B0 Hb _ _ _ _ _ _ _ _ _ _ D2 E2 eq_refl he _ R')].
  - intros t t' r s -> h. inversion R' as [t0 ? ? n0 k0 r1|t0 ? K]; subst.
    + inversion r1 as [t1 ? ? n1 k1 r2|t1 ? K]; subst; [eapply c1; [reflexivity|exact h]|].
      exfalso. eapply (not_continues t1); [left; assumption|]. eapply c1; [reflexivity|exact h].
    + exfalso. destruct Hb as (_ & _ & Hb'). rewrite h in Hb'. exact Hb'.
  - intros hx t t' r s -> h. inversion R' as [t0 ? ? n0 k0 r1|t0 ? K]; subst.
    + inversion r1 as [t1 ? ? n1 k1 r2|t1 ? K']; subst; [eapply c2; [reflexivity|reflexivity|exact h]|].
      destruct Hb as (_ & _ & Hb'). intros [k|[k|[]]]; rewrite <- k in Hb'; apply Hb'; cbn; tauto.
    + exfalso. destruct Hb as (_ & _ & Hb'). rewrite h in Hb'. exact Hb'.
Qed.
Lemma items_parts x g i o l : GX x g Items i o l -> l <> [] -> next (fun t => item_first (tk_value t) = true) i.
Proof.
  intros D n. assert (K : (match Items in nt T return T -> Prop with Items => fun l => l <> [] -> next (fun t => item_first (tk_value t) = true) i
    | _ => fun _ => True end) l); [|exact (K n)]. revert D. generalize l. clear. intros l D.
  pose (J := fun A (n : nt A) (i : tokens) => match n in nt T return T -> Prop with
    | Items => fun l => l <> [] -> next (fun t => item_first (tk_value t) = true) i | _ => fun _ => True end).
  change (J _ Items i l). destruct D; cbn [J]; try exact I.
  - intros K. congruence.
  - intros _. match goal with D : GX _ _ (Item true) _ _ _ |- _ => exact (G_first _ _ _ _ _ _ _ D) end.
Qed.

(** ** The tokens of a text behind another *)

Lemma trivia_join b ws r : trivia b ws r -> r = [] -> (ws = [] /\ b = true) \/ terminated ws ->
  forall ws' r', trivia true ws' r' -> trivia b (ws ++ ws') r'.
Proof.
  induction 1 as [b l h|b c0 w l h T IH|b c0 w l h T IH|b o body w l h1 h2 h3 T IH|b body w l h T IH]; intros -> ht ws' r' T'.
  - destruct ht as [[_ ->]|ht]; [exact T'|]. destruct (terminated_some _ ht eq_refl).
  - destruct ht as [[ht _]|ht]; [discriminate|]. cbn [app]. apply tv_space; [exact h|]. apply IH; [reflexivity| |exact T'].
    destruct w as [|y w]; [exfalso|right; apply (terminated_tail [c0]) in ht; [exact ht|discriminate]].
    destruct ht as (r0 & c & E & hc). destruct r0 as [|? [|]]; try discriminate E. injection E as ->. exact (not_both _ h hc).
  - destruct ht as [[ht _]|ht]; [discriminate|]. cbn [app]. apply tv_newline; [exact h|]. apply IH; [reflexivity| |exact T'].
    destruct w as [|y w]; [left; auto|right; apply (terminated_tail [c0]) in ht; [exact ht|discriminate]].
  - assert (hw : w <> []).
    { intros ->. rewrite app_nil_r in ht. destruct ht as [[ht _]|(r & c & E & hc)].
      - apply app_eq_nil in ht as [-> ->]. destruct h1 as [h1|[h1|[_ h1]]]; discriminate.
      - destruct body as [|z body].
        + rewrite app_nil_r in E. assert (K : In c o) by (rewrite E; apply in_or_app; right; left; reflexivity).
          revert K. apply no_lt; [exact hc|]. destruct h1 as [->|[->|[_ ->]]]; reflexivity.
        + apply snoc_app in E as (b' & E & _); [|discriminate]. rewrite E in h2. apply Forall_app in h2 as [_ h2].
          apply Forall_inv in h2. exact (h2 hc). }
    rewrite <- !app_assoc. apply tv_line; [exact h1|exact h2| |].
    + rewrite app_nil_r in h3. destruct h3 as [h3|h3]; [congruence|]. right. destruct w; [destruct h3|exact h3].
    + apply IH; [reflexivity| |exact T']. right. destruct ht as [[ht _]|ht]; [destruct body, w; destruct o; discriminate || congruence|].
      rewrite app_assoc in ht. apply terminated_tail in ht; assumption.
  - destruct ht as [[ht _]|ht]; [discriminate|]. rewrite <- !app_assoc. apply tv_block; [exact h|]. apply IH; [reflexivity| |exact T'].
    assert (E : lit "/*" ++ body ++ lit "*/" ++ w = (lit "/*" ++ body ++ lit "*/") ++ w) by (rewrite <- !app_assoc; reflexivity).
    destruct w as [|y w].
    + exfalso. destruct ht as (r0 & c & E' & hc). rewrite app_nil_r in E'. change (lit "*/") with (lit "*" ++ [chr "/"]) in E'.
      rewrite !app_assoc in E'. apply app_inj_tail in E' as [_ <-]. cbn in hc. intuition discriminate.
    + right. rewrite E in ht. apply terminated_tail in ht; [exact ht|discriminate].
Qed.

Lemma blanked_length a : length (blanked a) = length a.
Proof. apply map_length. Qed.
Lemma blanked_char c : let d := if existsb (N.eqb c) [10; 13; 8232; 8233]%N then c else 32%N in
  (line_terminator c /\ d = c) \/ (~ line_terminator c /\ d = 32%N).
Proof.
  cbv zeta. destruct (existsb (N.eqb c) [10; 13; 8232; 8233]%N) eqn:E; [left|right]; (split; [|reflexivity]).
  - apply existsb_exists in E as (x & h & e). apply N.eqb_eq in e as ->. exact h.
  - intros h. assert (K : existsb (N.eqb c) [10; 13; 8232; 8233]%N = true); [|congruence].
    apply existsb_exists. exists c. split; [exact h|apply N.eqb_refl].
Qed.

(** The blanks are read as such. *)
Lemma trivia_blanked a : forall b ws r s, trivia b ws r -> ws ++ r = blanked a ++ s -> 
  exists ws' b', ws = blanked a ++ ws' /\ trivia b' ws' r /\ (b = true -> b' = true) /\ (terminated a -> b' = true).
Proof.
  induction a as [|x a IH]; intros b ws r s T E; cbn [blanked map app] in *.
  - exists ws, b. repeat split; auto. intros K. destruct (terminated_some _ K eq_refl).
  - fold (blanked a) in *. pose proof (blanked_char x) as hx. cbv zeta in hx.
    set (d := if existsb (N.eqb x) [10; 13; 8232; 8233]%N then x else 32%N) in *. clearbody d.
    assert (hd : white_space d \/ line_terminator d).
    { destruct hx as [[h ->]|[_ ->]]; [right; exact h|left]. split; [cbn; tauto|split; discriminate]. }
    assert (hr : terminated (x :: a) -> line_terminator d /\ a = [] \/ terminated a).
    { intros h. destruct a as [|y a]; [left|right; exact (terminated_tail [x] _ h ltac:(discriminate))].
      destruct h as (r0 & c & E0 & hc). destruct r0 as [|? [|]]; try discriminate E0. injection E0 as ->.
      destruct hx as [[h ->]|[h _]]; [auto|contradiction]. }
    inversion T as [b1 l h|b1 c0 w l h T1|b1 c0 w l h T1|b1 o body w l h1 h2 h3 T1|b1 body w l h T1]; subst.
    + exfalso. cbn [app] in E. rewrite E in h. apply h. unfold starts_trivia. cbn. tauto.
    + injection E as -> E. destruct (IH _ _ _ _ T1 E) as (ws' & b' & -> & T' & k1 & k2). exists ws', b'. repeat split; auto.
      intros K. destruct (hr K) as [[K1 _]|K1]; [destruct (not_both _ h K1)|auto].
    + injection E as -> E. destruct (IH _ _ _ _ T1 E) as (ws' & b' & -> & T' & k1 & k2). exists ws', b'. repeat split; auto.
    + exfalso. destruct hx as [[h ->]|[_ ->]]; destruct h1 as [->|[->|[_ ->]]]; cbn in E; injection E as E _; try discriminate E;
        rewrite <- E in h; cbn in h; intuition discriminate.
    + exfalso. destruct hx as [[h' ->]|[_ ->]]; cbn in E; injection E as E _; try discriminate E;
        rewrite <- E in h'; cbn in h'; intuition discriminate.
Qed.

Lemma blanked_nth a s i : match nth_error (blanked a ++ s) i, nth_error (a ++ s) i with
  | Some d, Some c => (line_terminator c /\ d = c) \/ (~ line_terminator c /\ d = 32%N) \/ d = c
  | None, None => True | _, _ => False end.
Proof.
  destruct (Nat.lt_ge_cases i (length a)) as [h|h].
  - rewrite !nth_error_app1 by (rewrite ?blanked_length; lia). unfold blanked. rewrite nth_error_map.
    destruct (nth_error a i) as [c|]; cbn [option_map]; [|exact I]. pose proof (blanked_char c) as K. cbv zeta in K. tauto.
  - rewrite !nth_error_app2 by (rewrite ?blanked_length; lia). rewrite blanked_length.
    destruct (nth_error s (i - length a)); auto.
Qed.
Lemma posn_blanked a s k : posn_at (blanked a ++ s) k = posn_at (a ++ s) k.
Proof.
  unfold posn_at. assert (E : line_ends (blanked a ++ s) k = line_ends (a ++ s) k); [|rewrite E; reflexivity].
  unfold line_ends. apply filter_ext_in. intros i _. unfold ends_line.
  pose proof (blanked_nth a s i) as h. pose proof (blanked_nth a s (S i)) as h'.
  destruct (nth_error (blanked a ++ s) i) as [d|], (nth_error (a ++ s) i) as [c|]; try contradiction; [|reflexivity].
  assert (K : match nth_error (blanked a ++ s) (S i) with Some d => N.eqb d 10 | None => false end
            = match nth_error (a ++ s) (S i) with Some d => N.eqb d 10 | None => false end).
  { destruct (nth_error (blanked a ++ s) (S i)) as [d'|], (nth_error (a ++ s) (S i)) as [c'|]; try contradiction; [|reflexivity].
    destruct h' as [[_ ->]|[[n ->]| -> ]]; try reflexivity. symmetry. apply N.eqb_neq. intros ->. apply n. cbn. tauto. }
  rewrite K. destruct h as [[_ ->]|[[n ->]| -> ]]; try reflexivity.
  assert (forall z, line_terminator z -> N.eqb c z = false) as E by (intros z hz; apply N.eqb_neq; intros ->; contradiction).
  rewrite !E by (cbn; tauto). reflexivity.
Qed.
Lemma next_blanked V a s op b k t k' : length a <= k -> next_token V (blanked a ++ s) op b k t k' -> next_token V (a ++ s) op b k t k'.
Proof.
  intros h (ws & w & l & E & E' & T & L & El & En). exists ws, w, l. rewrite !posn_blanked in El.
  rewrite !skipn_app, !skipn_all2 in * by (rewrite ?blanked_length; lia). rewrite blanked_length in E. auto 6.
Qed.
Lemma next_past V src op b k t k' : next_token V src op b k t k' -> k <= k'.
Proof. intros (ws & w & l & _ & -> & _). lia. Qed.
Lemma tiles_blanked V a s ops b k ts k' : tiles V (blanked a ++ s) ops b k ts k' -> length a <= k -> tiles V (a ++ s) ops b k ts k'.
Proof.
  induction 1 as [|op ops b k t k1 ts k2 N T IH]; intros h; [constructor|].
  pose proof (next_past _ _ _ _ _ _ _ N). econstructor; [apply next_blanked; eassumption|apply IH; lia].
Qed.

Theorem tiles_join V src s ops b k ts k' b0 B0 opb opsb kend ws' w' l' : ucd_ok V -> terminated src ->
  s = ws' ++ w' ++ l' -> trivia true ws' (w' ++ l') -> lexeme V opb (tk_value b0) w' l' -> tk_newline b0 = true ->
  tk_loc b0 = Span (posn_at (src ++ s) (length src + length ws')) (posn_at (src ++ s) (length src + length ws' + length w')) ->
  tiles V (src ++ s) opsb false (length src + length ws' + length w') B0 kend ->
  tiles V src ops b k ts k' -> k < length src -> Exists (fun t => tk_value t = TPunc T_EOF) ts ->
  (forall pre t e post, ts = pre ++ t :: e :: post -> tk_value t = TIdent (NAtom A_Let) -> tk_value e <> TPunc T_EOF) ->
  exists ops' ts', tiles V (src ++ s) ops' b k ts' kend /\ glued (b0 :: B0) ts ts'.
Proof.
  intros HV ht Es0 Tb Lb Nb Ob TB. induction 1 as [b k|op ops b k t k1 ts k2 N T IH]; intros hk he hlet; [inversion he|].
  destruct N as (ws & w & l & E & E' & Tr & L & El & En).
  destruct (skipn_split _ _ _ _ E ltac:(lia)) as (v & Es & Ev).
  assert (El' : length src = k + length ws + length w + length l) by (rewrite Es, !app_length; lia).
  assert (Ek : skipn k (src ++ s) = ws ++ w ++ l ++ s)
    by (rewrite Es, <- !app_assoc, <- Ev, skipn_app, skipn_all, Nat.sub_diag; reflexivity).
  destruct (td_eqb (tk_value t) (TPunc T_EOF)) eqn:Et.
  - assert (ev : tk_value t = TPunc T_EOF) by (destruct (tk_value t); try discriminate; destruct p; try discriminate; reflexivity).
    rewrite ev in L.
    assert (Ew : w = [] /\ l = []) by (clear -L; inversion L as [Ew|p l' H1 H2 H3 Ep| | | | |]; subst;
      [split; reflexivity|destruct H1 as [H1 _]; congruence]).
    destruct Ew as [-> ->]. cbn [app length] in *. rewrite !Nat.add_0_r in *.
    assert (hws : terminated ws).
    { rewrite Es, app_nil_r in ht. apply terminated_tail in ht; [exact ht|]. intros ->. cbn in El'. lia. }
    exists (opb :: opsb), (b0 :: B0). split; [|apply gl_end; exact ev]. econstructor; [|exact TB].
    exists (ws ++ ws'), w', l'. split; [rewrite Ek, Es0, <- app_assoc; reflexivity|].
    split; [rewrite app_length; lia|]. split; [eapply trivia_join; [exact Tr|reflexivity|right; exact hws|exact Tb]|].
    split; [exact Lb|]. split; [rewrite Ob, app_length; f_equal; f_equal; lia|].
    split; [intros _|intros _; exact Nb]. destruct hws as (r0 & c & -> & hc). unfold has_newline.
    rewrite <- app_assoc. apply Exists_app. right. constructor. exact hc.
  - assert (ev : tk_value t <> TPunc T_EOF) by (intros K; rewrite K in Et; discriminate).
    pose proof (tip_lexeme _ _ _ _ _ HV ev L) as Ht. assert (Hw : w <> []) by (intros ->; discriminate).
    assert (Hl : l <> []).
    { intros ->. rewrite app_nil_r in Es. rewrite Es, app_assoc in ht. apply terminated_tail in ht; [|exact Hw].
      destruct ht as (w0 & c & -> & hc). exact (tip_last _ _ Ht hc). }
    assert (hl : terminated l) by (rewrite Es, !app_assoc in ht; apply terminated_tail in ht; assumption).
    assert (0 < length w) by (destruct w; [congruence|cbn; lia]). assert (0 < length l) by (destruct l; [congruence|cbn; lia]).
    inversion he as [? ? K|? ? K]; subst; [contradiction|].
    destruct (IH ltac:(lia) K) as (ops' & ts' & T' & R').
    { intros pre t1 e post -> h. eapply (hlet (t :: pre)); [reflexivity|exact h]. }
    exists (op :: ops'), (t :: ts').
    split; [|constructor; [exact ev| |exact R']].
    + econstructor; [|exact T'].
      exists ws, w, (l ++ ws' ++ w' ++ l'). split; [exact Ek|]. split; [reflexivity|]. split.
      { rewrite app_assoc. apply trivia_before; [exact Tr|apply terminated_app, hl]. }
      split; [apply lexeme_before; assumption|]. split; [|exact En].
      rewrite El. f_equal; symmetry; apply posn_before; lia.
    + intros h. destruct ts as [|e post]; [inversion K|]. exists e, post. split; [reflexivity|].
      exact (hlet [] t e post eq_refl h).
Qed.
