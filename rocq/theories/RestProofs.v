(** A closing brace in place of the end of the text (C30). *)
From Coq Require Import String Ascii List NArith Arith Bool Lia.
From Verif Require Import Base Chars F64 Word Token Reader Lexer Punc Ast Track Cover Stack Node
  SpecReader SpecLexer SpecLayout SpecStack SpecTree SpecGrammar SpecParser GrammarProps LexWp LexTheorems LexLayout CompTok
  EndProofs EndText.
Import ListNotations.
Local Open Scope nat_scope.

(** ** Derivations do not distinguish the end of the text from a closing brace *)

(** The same tokens up to the end of the text, where the second has a closing brace. *)
Inductive closed : tokens -> tokens -> Prop :=
| cd_nil : closed [] []
| cd_cons : forall t i i', tk_value t <> TPunc T_EOF -> closed i i' -> closed (t :: i) (t :: i')
| cd_end : forall e r b r', tk_value e = TPunc T_EOF -> tk_value b = TPunc T_RBrace -> closed (e :: r) (b :: r').
Definition shut (t t' : token) : Prop :=
  (t' = t /\ tk_value t <> TPunc T_EOF) \/ (tk_value t = TPunc T_EOF /\ tk_value t' = TPunc T_RBrace).

Lemma cl_head t o i' : closed (t :: o) i' -> exists t' o', i' = t' :: o' /\ shut t t'.
Proof. intros h. inversion h; subst; eexists _, _; (split; [reflexivity|]); [left|right]; auto. Qed.
Lemma cl_cons t o i' : closed (t :: o) i' -> tk_value t <> TPunc T_EOF -> exists o', i' = t :: o' /\ closed o o'.
Proof. intros h n. inversion h; subst; [eauto|congruence]. Qed.
Lemma cl_eat d i o i' : eat d i o -> d <> TPunc T_EOF -> closed i i' -> exists o', eat d i' o' /\ closed o o'.
Proof.
  intros (t & -> & h) n r. apply cl_cons in r as (o' & -> & r); [|congruence]. exists o'. split; [|exact r]. exists t. auto.
Qed.
Lemma cl_eat_back d i i' o' : eat d i' o' -> d <> TPunc T_RBrace -> closed i i' -> exists o, eat d i o /\ closed o o'.
Proof.
  intros (t' & -> & h) n r. inversion r as [|? o ? n' r'|]; subst; [|congruence]. exists o. split; [|exact r']. exists t'. auto.
Qed.
Lemma cl_next (P Q : token -> Prop) i i' : next P i -> closed i i' -> (forall t t', shut t t' -> P t -> Q t') -> next Q i'.
Proof.
  intros (t & o & -> & h) r H. apply cl_head in r as (t' & o' & -> & u). exists t', o'. split; [reflexivity|eauto].
Qed.
Lemma cl_let d P i i' : (forall i1, eat d i i1 -> next P i1) -> d <> TPunc T_RBrace -> closed i i' ->
  (forall t, tk_value t = TPunc T_RBrace -> P t) -> forall i1, eat d i' i1 -> next P i1.
Proof.
  intros h n R hP i1 X. destruct (cl_eat_back _ _ _ _ X n R) as (o & Y & R').
  eapply cl_next; [exact (h _ Y)|exact R'|]. intros t t' [[-> _]|[_ b]] k; [exact k|exact (hP _ b)].
Qed.
Lemma cl_ends b i o s i' : ends b i o s -> closed i i' -> exists o', ends b i' o' s /\ closed o o'.
Proof.
  intros [t r h|t r h1 h2] R.
  - apply cl_cons in R as (o' & -> & R); [|congruence]. exists o'. split; [apply en_explicit, h|exact R].
  - pose proof R as R'. apply cl_head in R as (t' & o' & -> & u). exists (t' :: o'). split; [|exact R'].
    destruct u as [[-> n]|[a c]]; apply en_inserted; try assumption; [rewrite c; discriminate|left; exact c].
Qed.
Lemma not_brace t w : tk_value t = TPunc T_RBrace -> spelled t w -> w = lit "}".
Proof. intros h [(p & e & <- & _)|(r & e & _)]; rewrite h in e; [injection e as <-; reflexivity|discriminate]. Qed.
Lemma spelled_not_eof t w : spelled t w -> tk_value t <> TPunc T_EOF.
Proof. intros [(p & -> & <- & k)|(r & -> & _)]; [|discriminate]. intros E. injection E as ->. apply k. reflexivity. Qed.
Lemma not_continues t : tk_value t = TPunc T_EOF \/ tk_value t = TPunc T_RBrace -> ~ continues t.
Proof.
  intros h [k|[[_ k]|(p & k & n)]].
  1,2: cbn in k; destruct h as [h|h]; rewrite h in k; decompose sum k; discriminate.
  destruct h as [h|h]; rewrite h in k; injection k as <-; apply n; cbn; tauto.
Qed.
Lemma cl_continues t t' : shut t t' -> (continues t' <-> continues t).
Proof.
  intros [[-> _]|[a b]]; [reflexivity|]. split; intros h; exfalso; revert h; apply not_continues; auto.
Qed.
Lemma cl_postfix t t' : shut t t' -> postfix_op t' -> postfix_op t.
Proof. intros [[-> _]|[a b]]; [trivial|]. intros [_ h]. rewrite b in h. cbn in h. destruct h as [h|[h|[]]]; discriminate. Qed.
Lemma cl_assign t t' : shut t t' -> assign_op t' -> assign_op t.
Proof.
  intros [[-> _]|[a b]]; [trivial|]. intros [h|(x & h)]; [congruence|].
  apply (not_brace _ _ b) in h. destruct x; discriminate h.
Qed.
Lemma cl_infix b t t' o : shut t t' -> infix_tok b t' o -> infix_tok b t o.
Proof.
  intros [[-> _]|[a c]]; [trivial|]. intros [h _]. apply (not_brace _ _ c) in h. destruct o as [[? []]|[? []]]; discriminate h.
Qed.

Ltac live := first [discriminate | congruence | eapply spelled_not_eof; eassumption
  | match goal with h : infix_tok _ ?t _ |- tk_value ?t <> _ => exact (spelled_not_eof _ _ (proj1 h)) end
  | match goal with h : exists l, _ |- ?d <> _ => destruct h as (? & [[-> _]|[[-> _]|[-> _]]]); discriminate end].
Ltac chain2 :=
  match goal with
  | R : closed (?t :: ?o) _ |- _ => apply cl_cons in R; [destruct R as (? & -> & ?)|live]
  | X : eat ?d ?i ?o, R : closed ?i ?i' |- _ =>
      lazymatch goal with K : eat d i' _ |- _ => fail | _ => destruct (cl_eat d i o i' X ltac:(live) R) as (? & ? & ?) end
  | X : ends ?b ?i ?o ?s, R : closed ?i ?i' |- _ =>
      lazymatch goal with K : ends b i' _ s |- _ => fail | _ => destruct (cl_ends b i o s i' X R) as (? & ? & ?) end
  | IH : forall i', closed ?i i' -> exists o', _ , R : closed ?i ?j |- _ =>
      let K := fresh in pose proof (IH j R) as K; clear IH; destruct K as (? & ? & ?)
  end.
Ltac keep2 :=
  let t := fresh "t" in let t' := fresh "t'" in let u := fresh "u" in let h := fresh "h" in
  let n := fresh "n" in let a := fresh "a" in let b := fresh "b" in
  intros t t' u h; cbv beta in *;
  first [ rewrite (cl_continues _ _ u); exact h
        | intros ?; exact (h (cl_assign _ _ u ltac:(assumption)))
        | destruct u as [[-> n]|[a b]];
          [ first [exact h | exact (proj1 h) | tauto]
          | unfold ends_list, begins_binding, slash, regexp, no_arg, postfix_op in *;
            rewrite ?a in *; rewrite ?b;
            first [ discriminate | cbn; tauto
                  | destruct h as [h1 h2]; exfalso; apply h2; reflexivity
                  | repeat split; try discriminate;
                    first [ intros [? [K|[K|[]]]]; discriminate | intros (? & K); discriminate
                          | intros op0 [K _]; apply (not_brace _ _ b) in K; destruct op0 as [[? []]|[? []]]; discriminate K
                          | cbn; intuition discriminate ] ] ] ].
Ltac nexts2 := match goal with |- next ?Q ?i' => match goal with R : closed ?i i' |- _ =>
  first [ apply (cl_next Q Q i i'); [solve [eauto]|exact R|keep2]
        | eapply (cl_next _ Q i i'); [eapply first_value; [eapply G_first; eassumption|reflexivity|solve [eauto]]|exact R|keep2] ] end end.
Ltac nexts3 :=
  unfold not_next in *;
  first [ eassumption | nexts2 | intros ?; nexts2
        | let i := fresh in let X := fresh in intros i X; eapply cl_eat_back in X; [|discriminate|eassumption];
          destruct X as (? & ? & ?); nexts2
        | let i := fresh in intros i; nexts2 ].

Lemma G_closed x A g (n : nt A) i o a : GX x g n i o a -> forall i', closed i i' -> exists o', GX x g n i' o' a /\ closed o o'.
Proof.
  induction 1; intros i' R; unfold op_, kw in *; repeat chain2.
  all: try solve [eexists; split; [econstructor; eassumption|assumption]].
  all: try solve [eexists; split; [econstructor; nexts3|assumption]].
  1: { eexists. split; [|eassumption]. econstructor; [eassumption| | |eassumption].
    + intros t t' r s -> h. inversion H4 as [|t0 ? ? n0 r1|t0 ? ? ? ? K]; subst; [|congruence].
      inversion r1 as [|t1 ? ? n1 r2|t1 ? ? ? ? K]; subst; [eapply H0; [reflexivity|exact h]|].
      exfalso. eapply (not_continues t1); [left; assumption|]. eapply H0; [reflexivity|exact h].
    + intros hx t t' r s -> h. inversion H4 as [|t0 ? ? n0 r1|t0 ? ? ? ? K]; subst; [|congruence].
      inversion r1 as [|t1 ? ? n1 r2|t1 ? ? ? ? K']; subst; [eapply H1; [reflexivity|reflexivity|exact h]|].
      unfold slash. rewrite K'. cbn. intuition discriminate. }
  all: try (match goal with D : GX _ _ _ ?a _ _, N : next ?P ?a, R : closed ?a ?b |- _ =>
    assert (next P b)
      by (eapply cl_next; [eapply first_value; [exact (G_first _ _ _ _ _ _ _ D)|reflexivity|exact N]|exact R|
          intros ? ? [[-> _]|[k3 _]] [k1 k2]; [exact k1|congruence]]) end;
    solve [eexists; split; [econstructor; eassumption|assumption]]).
  all: match goal with N : forall i1, eat ?d ?a i1 -> next ?P i1, R : closed ?a ?b |- _ =>
    assert (forall i1, eat d b i1 -> next P i1)
      by (apply (cl_let d P a b N); [discriminate|exact R|intros ? K; unfold begins_binding, slash; rewrite K; cbn;
          repeat split; intuition (try discriminate); match goal with E : exists n, _ |- _ => destruct E; discriminate end]) end.
  all: eexists; split; [econstructor; nexts3|assumption].
Qed.

(** ** What follows a line terminator has no influence on the tokens before it *)

Lemma prefix_cut p c s : forall r, prefix p (r ++ c :: s) -> ~ In c p -> prefix p r.
Proof.
  induction p as [|x p IH]; intros r [tl E] n; [exists r; reflexivity|]. destruct r as [|y r]; cbn [app] in E.
  - injection E as -> _. exfalso. apply n. left. reflexivity.
  - injection E as -> E. destruct (IH r) as (tl' & ->); [exists tl; exact E|intros K; apply n; right; exact K|].
    exists tl'. reflexivity.
Qed.
Definition terminated (r : str) : Prop := exists r0 c, r = r0 ++ [c] /\ line_terminator c.
Lemma prefix_before p r s : prefix p (r ++ s) -> terminated r ->
  forallb (fun x => negb (existsb (N.eqb x) [10; 13; 8232; 8233]%N)) p = true -> prefix p r.
Proof.
  intros h (r0 & c & -> & hc) n. rewrite <- app_assoc in h. cbn [app] in h.
  apply prefix_cut in h as (tl & ->); [|exact (no_lt _ _ hc n)]. exists (tl ++ [c]). rewrite app_assoc. reflexivity.
Qed.
Lemma terminated_app a b : terminated b -> terminated (a ++ b).
Proof. intros (r & c & -> & h). exists (a ++ r), c. split; [rewrite app_assoc; reflexivity|exact h]. Qed.
Lemma terminated_some r : terminated r -> r <> [].
Proof. intros (r0 & c & -> & _) K. destruct r0; discriminate. Qed.
Lemma starts_before P (r s : str) : r <> [] -> starts_with P (r ++ s) -> starts_with P r.
Proof. destruct r; [congruence|]. intros _ h. exact h. Qed.
Lemma hd_before (r s : str) : r <> [] -> hd_error r = hd_error (r ++ s).
Proof. destruct r; [congruence|reflexivity]. Qed.

Lemma trivia_before b ws r s : trivia b ws r -> terminated r -> trivia b ws (r ++ s).
Proof.
  intros T ht. pose proof (terminated_some _ ht) as hr. revert hr ht.
  induction T as [b l h|b c0 w l h T IH|b c0 w l h T IH|b o body w l h1 h2 h3 T IH|b body w l h T IH]; intros hr ht.
  - apply tv_done. intros K. apply h. unfold starts_trivia in *.
    destruct K as [K|[K|[K|[K|[K|[K1 K]]]]]].
    1,2: apply starts_before in K; tauto.
    all: apply prefix_before in K; [tauto|exact ht|reflexivity].
  - apply tv_space; auto.
  - apply tv_newline; auto.
  - apply tv_line; auto. destruct h3 as [h3|h3]; [destruct w; [|discriminate]; destruct l; [congruence|discriminate]|].
    right. rewrite app_assoc. destruct (w ++ l); [destruct h3|exact h3].
  - apply tv_block; auto.
Qed.
Lemma terminated_tail a b : terminated (a ++ b) -> b <> [] -> terminated b.
Proof.
  intros (r & c & E & h) n. apply snoc_app in E as (b' & -> & _); [|exact n]. exists b', c. auto.
Qed.
Lemma trivia_brace b ws r u : trivia b ws r -> r = [] -> ws = [] \/ terminated ws -> trivia b ws (chr "}" :: u).
Proof.
  induction 1 as [b l h|b c0 w l h T IH|b c0 w l h T IH|b o body w l h1 h2 h3 T IH|b body w l h T IH]; intros -> ht.
  - apply tv_done. unfold starts_trivia. intros K. cbn in K.
    destruct K as [[K _]|[K|[[? K]|[[? K]|[[? K]|[_ [? K]]]]]]]; try discriminate K; cbn in K; intuition discriminate.
  - apply tv_space; [exact h|]. apply IH; [reflexivity|]. destruct w as [|y w]; [left; reflexivity|right].
    destruct ht as [ht|ht]; [discriminate|]. apply (terminated_tail [c0]) in ht; [exact ht|discriminate].
  - apply tv_newline; [exact h|]. apply IH; [reflexivity|]. destruct w as [|y w]; [left; reflexivity|right].
    destruct ht as [ht|ht]; [discriminate|]. apply (terminated_tail [c0]) in ht; [exact ht|discriminate].
  - assert (hw : w <> []).
    { intros ->. rewrite app_nil_r in ht. destruct ht as [ht|(r & c & E & hc)].
      - apply app_eq_nil in ht as [-> ->]. destruct h1 as [h1|[h1|[_ h1]]]; discriminate.
      - destruct body as [|z body].
        + rewrite app_nil_r in E. assert (K : In c o) by (rewrite E; apply in_or_app; right; left; reflexivity).
          revert K. apply no_lt; [exact hc|]. destruct h1 as [->|[->|[_ ->]]]; reflexivity.
        + apply snoc_app in E as (b' & E & _); [|discriminate]. rewrite E in h2. apply Forall_app in h2 as [_ h2].
          apply Forall_inv in h2. exact (h2 hc). }
    apply tv_line; [exact h1|exact h2| |].
    + rewrite app_nil_r in h3. destruct h3 as [h3|h3]; [congruence|]. right. destruct w; [destruct h3|exact h3].
    + apply IH; [reflexivity|]. right. destruct ht as [ht|ht]; [destruct body, w; destruct o; discriminate || congruence|].
      rewrite app_assoc in ht. apply terminated_tail in ht; assumption.
  - apply tv_block; [exact h|]. apply IH; [reflexivity|]. destruct w as [|y w]; [left; reflexivity|right].
    destruct ht as [ht|ht]; [discriminate|].
    replace (lit "/*" ++ body ++ lit "*/" ++ y :: w) with ((lit "/*" ++ body ++ lit "*/") ++ y :: w) in ht by (rewrite <- !app_assoc; reflexivity).
    apply terminated_tail in ht; [exact ht|discriminate].
Qed.

Lemma lexeme_before V op d w l s : ucd_ok V -> d <> TPunc T_EOF -> terminated l ->
  lexeme V op d w l -> lexeme V op d w (l ++ s).
Proof.
  intros HV hd ht h. pose proof (terminated_some _ ht) as hm. pose proof (hd_before l s hm) as Eh.
  destruct h as [|p l H1 H2 H3|r l H|n w v esc l H1 H2 H3 H4 H5|q b v l H1 H2
                          |b fw fv esc l H1 H2 H3 H4|sr v l H1 H2 H3 H4 H5].
  - congruence.
  - constructor; [exact H1| |].
    + intros p' Hp' K. apply H2; [exact Hp'|]. rewrite app_assoc in K. apply prefix_before in K; [exact K| |].
      * apply terminated_app, ht.
      * destruct p'; reflexivity.
    + intros Hd X. apply (H3 Hd). eapply starts_hd; [exact Eh|exact X].
  - constructor. eapply word_end_hd; eassumption.
  - eapply lx_ident; try eassumption. eapply word_end_hd; eassumption.
  - constructor; [exact H1|]. eapply cooks_tail; [exact H2|reflexivity].
  - eapply lx_regexp; try eassumption. eapply word_end_hd; eassumption.
  - constructor; try assumption.
    + intros X. apply H3. eapply starts_hd; [exact Eh|exact X].
    + intros X. apply H4. eapply starts_hd; [exact Eh|exact X].
    + intros m Hm X. apply (H5 m Hm). eapply (prefix_one (chr ".")); [exact Eh|exact X].
Qed.

Lemma posn_before src s k : k < length src -> posn_at (src ++ s) k = posn_at src k.
Proof.
  intros h. unfold posn_at. assert (E : line_ends (src ++ s) k = line_ends src k); [|rewrite E; reflexivity].
  unfold line_ends. apply filter_ext_in. intros i hi. apply in_seq in hi. unfold ends_line.
  rewrite !nth_error_app1 by lia. reflexivity.
Qed.

Lemma lexeme_brace V op u : lexeme V op (TPunc T_RBrace) (lit "}") u.
Proof.
  change (lit "}") with (punc_text T_RBrace). constructor.
  - split; [discriminate|]. destruct op; cbn; intuition discriminate.
  - intros p' _ [tl E]. destruct p'; cbn in E; first [discriminate E | cbn; lia].
  - discriminate.
Qed.

Theorem tiles_brace V src ops b k ts k' u : ucd_ok V -> terminated src -> tiles V src ops b k ts k' -> k < length src ->
  exists ops' ts' k'', tiles V (src ++ lit "}" ++ u) ops' b k ts' k'' /\ closed ts ts'.
Proof.
  intros HV ht. induction 1 as [b k|op ops b k t k1 ts k2 N T IH]; intros hk.
  { exists [], [], k. split; constructor. }
  destruct N as (ws & w & l & E & E' & Tr & L & El & En).
  destruct (skipn_split _ _ _ _ E ltac:(lia)) as (v & Es & Ev).
  assert (El' : length src = k + length ws + length w + length l) by (rewrite Es, !app_length; lia).
  assert (Ek : skipn k (src ++ lit "}" ++ u) = ws ++ w ++ l ++ lit "}" ++ u)
    by (rewrite Es, <- !app_assoc, <- Ev, skipn_app, skipn_all, Nat.sub_diag; reflexivity).
  destruct (td_eqb (tk_value t) (TPunc T_EOF)) eqn:Et.
  - assert (ev : tk_value t = TPunc T_EOF) by (destruct (tk_value t); try discriminate; destruct p; try discriminate; reflexivity).
    rewrite ev in L.
    assert (Ew : w = [] /\ l = []) by (clear -L; inversion L as [Ew|p l' H1 H2 H3 Ep| | | | |]; subst;
      [split; reflexivity|destruct H1 as [H1 _]; congruence]).
    destruct Ew as [-> ->]. cbn [app length] in *. rewrite Nat.add_0_r in *.
    set (all := src ++ lit "}" ++ u) in *.
    exists [op], [Token (Span (posn_at all (k + length ws)) (posn_at all (k + length ws + 1))) (tk_newline t) (TPunc T_RBrace)],
      (k + length ws + 1).
    split; [|apply cd_end; [exact ev|reflexivity]]. econstructor; [|constructor].
    exists ws, (lit "}"), u. split; [exact Ek|]. split; [reflexivity|]. split; [|split; [apply lexeme_brace|split; [reflexivity|exact En]]].
    eapply trivia_brace; [exact Tr|reflexivity|]. right. rewrite Es, app_nil_r in ht. apply terminated_tail in ht; [exact ht|].
    intros ->. cbn in El'. lia.
  - assert (ev : tk_value t <> TPunc T_EOF) by (intros K; rewrite K in Et; discriminate).
    pose proof (tip_lexeme _ _ _ _ _ HV ev L) as Ht. assert (Hw : w <> []) by (intros ->; discriminate).
    assert (Hl : l <> []).
    { intros ->. rewrite app_nil_r in Es. rewrite Es, app_assoc in ht. apply terminated_tail in ht; [|exact Hw].
      destruct ht as (w0 & c & -> & hc). exact (tip_last _ _ Ht hc). }
    assert (hl : terminated l) by (rewrite Es, !app_assoc in ht; apply terminated_tail in ht; assumption).
    assert (0 < length w) by (destruct w; [congruence|cbn; lia]). assert (0 < length l) by (destruct l; [congruence|cbn; lia]).
    destruct (IH ltac:(lia)) as (ops' & ts' & k'' & T' & R'). exists (op :: ops'), (t :: ts'), k''.
    split; [|constructor; assumption]. econstructor; [|exact T'].
    exists ws, w, (l ++ lit "}" ++ u). split; [exact Ek|]. split; [exact E'|]. split.
    { rewrite app_assoc. apply trivia_before; [exact Tr|apply terminated_app, hl]. }
    split; [apply lexeme_before; assumption|]. split; [|exact En].
    rewrite El. f_equal; symmetry; apply posn_before; lia.
Qed.
