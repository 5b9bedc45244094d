(** The tokens of a text, and of the text with a line terminator behind it (C40). *)
From Coq Require Import String Ascii List NArith Arith Bool Lia.
From Verif Require Import Base Chars F64 Word Token Reader Lexer Punc Ast SpecReader SpecLexer SpecLayout
  LexWp LexTheorems LexLayout SpecParser CompTok EndProofs.
Import ListNotations.
Local Open Scope nat_scope.

(** ** Prefixes and line terminators *)

Lemma prefix_snoc p r c : prefix p (r ++ [c]) -> ~ In c p -> prefix p r.
Proof.
  intros [tl E] F. destruct (exists_last (l := tl)) as (tl' & y & ->).
  - intros ->. rewrite app_nil_r in E. apply F. rewrite <- E. apply in_or_app. right. left. reflexivity.
  - rewrite app_assoc in E. apply app_inj_tail in E as [-> ->]. exists tl'. reflexivity.
Qed.
Lemma starts_snoc P (r : str) c : r <> [] -> starts_with P (r ++ [c]) -> starts_with P r.
Proof. destruct r; [congruence|]. intros _ h. exact h. Qed.
Lemma hd_snoc (r : str) c : r <> [] -> hd_error r = hd_error (r ++ [c]).
Proof. destruct r; [congruence|reflexivity]. Qed.

Lemma no_lt c p : line_terminator c -> forallb (fun x => negb (existsb (N.eqb x) [10; 13; 8232; 8233]%N)) p = true -> ~ In c p.
Proof.
  intros h hp K. rewrite forallb_forall in hp. specialize (hp c K).
  destruct h as [<-|[<-|[<-|[<-|[]]]]]; discriminate.
Qed.

Lemma trivia_snoc b ws r : trivia b ws r -> forall c, line_terminator c -> r <> [] -> trivia b ws (r ++ [c]).
Proof.
  induction 1 as [b l h|b c0 w l h T IH|b c0 w l h T IH|b o body w l h1 h2 h3 T IH|b body w l h T IH]; intros c hc hr.
  - apply tv_done. intros K. apply h. unfold starts_trivia in *.
    destruct K as [K|[K|[K|[K|[K|[K1 K]]]]]].
    1,2: apply starts_snoc in K; tauto.
    all: apply prefix_snoc in K; [tauto|apply no_lt; [exact hc|reflexivity]].
  - apply tv_space; auto.
  - apply tv_newline; auto.
  - apply tv_line; auto. destruct h3 as [h3|h3]; [destruct w; [|discriminate]; destruct l; [congruence|discriminate]|].
    right. rewrite app_assoc. destruct (w ++ l); [destruct h3|exact h3].
  - apply tv_block; auto.
Qed.
Lemma trivia_end b ws : forall r, trivia b ws r -> r = [] -> forall c, line_terminator c -> trivia b (ws ++ [c]) [].
Proof.
  induction 1 as [b l h|b c0 w l h T IH|b c0 w l h T IH|b o body w l h1 h2 h3 T IH|b body w l h T IH]; intros -> c hc.
  - apply tv_newline; [exact hc|]. apply tv_done. unfold starts_trivia.
    intros [K|[K|[[? K]|[[? K]|[[? K]|[_ [? K]]]]]]]; try contradiction; discriminate.
  - cbn [app]. apply tv_space; auto.
  - cbn [app]. apply tv_newline; auto.
  - rewrite <- !app_assoc. apply tv_line; auto. right. rewrite app_nil_r in *. destruct w; [exact hc|].
    destruct h3 as [h3|h3]; [discriminate|exact h3].
  - rewrite <- !app_assoc. apply tv_block; auto.
Qed.

Lemma lexeme_snoc V op d w l c : ucd_ok V -> line_terminator c -> d <> TPunc T_EOF ->
  lexeme V op d w l -> lexeme V op d w (l ++ [c]).
Proof.
  intros HV hc hd h. destruct l as [|x l].
  { eapply lexeme_before_blank; [exact HV|exact hd| |exact h]. right. right. exact hc. }
  remember (x :: l) as m eqn:Em. assert (hm : m <> []) by (rewrite Em; discriminate). clear x l Em.
  pose proof (hd_snoc m c hm) as Eh.
  destruct h as [|p l H1 H2 H3|r l H|n w v esc l H1 H2 H3 H4 H5|q b v l H1 H2
                          |b fw fv esc l H1 H2 H3 H4|s v l H1 H2 H3 H4 H5].
  - congruence.
  - constructor; [exact H1| |].
    + intros p' Hp' K. apply H2; [exact Hp'|]. rewrite app_assoc in K. apply prefix_snoc in K; [exact K|].
      apply no_lt; [exact hc|]. destruct p'; reflexivity.
    + intros Hd X. apply (H3 Hd). eapply starts_hd; [exact Eh|exact X].
  - constructor. eapply word_end_hd; eassumption.
  - eapply lx_ident; try eassumption. eapply word_end_hd; eassumption.
  - constructor; [exact H1|]. eapply cooks_tail; [exact H2|reflexivity].
  - eapply lx_regexp; try eassumption. eapply word_end_hd; eassumption.
  - constructor; try assumption.
    + intros X. apply H3. eapply starts_hd; [exact Eh|exact X].
    + intros X. apply H4. eapply starts_hd; [exact Eh|exact X].
    + intros m Hm X. apply (H5 m Hm). eapply (prefix_one (chr ".")); [exact Eh|exact X].
Qed.

(** ** No token ends in a line terminator *)

Definition tip (w : str) : bool := match rev w with x :: _ => negb (existsb (N.eqb x) [10; 13; 8232; 8233]%N) | [] => false end.
Lemma tip_app a b : tip b = true -> tip (a ++ b) = true.
Proof. unfold tip. rewrite rev_app_distr. destruct (rev b); [discriminate|trivial]. Qed.
Lemma tip_cons x b : tip b = true -> tip (x :: b) = true.
Proof. apply (tip_app [x]). Qed.
Lemma tip_one x : ~ line_terminator x -> tip [x] = true.
Proof.
  intros n. unfold tip. cbn [rev app]. apply negb_true_iff, not_true_is_false. intros K. apply existsb_exists in K as (y & hy & e).
  apply N.eqb_eq in e as ->. exact (n hy).
Qed.
Lemma tip_last w x : tip (w ++ [x]) = true -> ~ line_terminator x.
Proof.
  unfold tip. rewrite rev_app_distr. cbn [rev app]. intros h n. apply negb_true_iff in h.
  assert (existsb (N.eqb x) [10; 13; 8232; 8233]%N = true) by (apply existsb_exists; exists x; split; [exact n|apply N.eqb_refl]). congruence.
Qed.
Lemma tip_all (P : N -> Prop) w : w <> [] -> Forall P w -> (forall c, line_terminator c -> ~ P c) -> tip w = true.
Proof.
  intros h F n. destruct (exists_last h) as (w' & x & ->). apply tip_app. apply Forall_app in F as [_ F].
  apply Forall_inv in F. apply tip_one. intros K. exact (n x K F).
Qed.
Lemma tip_digits P w : digits P w -> (forall c, line_terminator c -> ~ P c) -> tip w = true.
Proof. intros [h F]. apply tip_all; assumption. Qed.
Lemma dec_not c : line_terminator c -> ~ dec_digit c.
Proof. cbn. unfold dec_digit, in_range. intuition (subst; lia). Qed.
Lemma oct_not c : line_terminator c -> ~ oct_digit c.
Proof. cbn. unfold oct_digit, in_range. intuition (subst; lia). Qed.
Lemma bin_not c : line_terminator c -> ~ bin_digit c.
Proof. cbn. unfold bin_digit, in_range. intuition (subst; lia). Qed.
Lemma hex_not c : line_terminator c -> ~ hex_digit c.
Proof. cbn. unfold hex_digit, in_range. intuition (subst; lia). Qed.
Lemma tip_word V w v esc : ucd_ok V -> word_text V w v esc -> w <> [] -> tip w = true.
Proof.
  intros HV. induction 1 as [|c w v esc h W IH|e n w v esc h s W IH]; intros ne; [congruence| |].
  - destruct w as [|y w]; [|apply tip_cons, IH; discriminate]. apply tip_one. intros K.
    apply (blank_not_part V [c] HV); [|exact h]. right. right. exact K.
  - destruct w as [|y w]; [|apply tip_app, tip_app, IH; discriminate]. rewrite app_nil_r. apply tip_app.
    destruct h as [a b c d F|ds hn F k].
    + eapply tip_all; [discriminate|exact F|exact hex_not].
    + apply tip_app, tip_app. reflexivity.
Qed.
Lemma tip_exp e : exp_ok (Some e) -> tip (exp_text (Some e)) = true.
Proof. intros h. cbn [exp_text]. apply tip_app, tip_app. exact (tip_digits _ _ h dec_not). Qed.
Lemma tip_number s : number_ok s -> tip (number_text s) = true.
Proof.
  destruct s as [m e|r ds|ip fp e]; cbn [number_ok number_text].
  - intros (h1 & _ & h2). destruct e as [e|]; [apply tip_app, tip_exp, h2|]. cbn. rewrite app_nil_r. exact (tip_digits _ _ h1 dec_not).
  - destruct r as [cc|[cc|]|cc]; intros h.
    + apply tip_app. exact (tip_digits _ _ h bin_not).
    + apply tip_app. exact (tip_digits _ _ h oct_not).
    + destruct h as (ds' & -> & h). apply tip_cons. exact (tip_digits _ _ h oct_not).
    + apply tip_app. exact (tip_digits _ _ h hex_not).
  - destruct ip as [ip|], fp as [fp|]; intros h; try contradiction.
    + destruct h as (_ & _ & h1 & h2). apply tip_app. destruct e as [e|]; [apply tip_app, tip_app, tip_exp, h2|].
      cbn [exp_text]. rewrite app_nil_r. destruct fp; [reflexivity|]. apply tip_app. eapply tip_all; [discriminate|exact h1|exact dec_not].
    + destruct h as (h1 & h2). cbn [app]. destruct e as [e|]; [apply tip_app, tip_app, tip_exp, h2|].
      cbn [exp_text]. rewrite app_nil_r. apply tip_app. exact (tip_digits _ _ h1 dec_not).
Qed.
Lemma tip_lexeme V op d w l : ucd_ok V -> d <> TPunc T_EOF -> lexeme V op d w l -> tip w = true.
Proof.
  intros HV hd h. destruct h as [|p l H1 H2 H3|r l H|n w v esc l H1 H2 H3 H4 H5|q b v l H1 H2
                          |b fw fv esc l H1 H2 H3 H4|s v l H1 H2 H3 H4 H5].
  - congruence.
  - destruct p; try reflexivity. congruence.
  - destruct r; reflexivity.
  - eapply tip_word; [exact HV|exact H2|]. intros ->. destruct H1 as [H1|[? H1]]; [exact H1|discriminate].
  - apply tip_cons, tip_app. destruct H1 as [-> | ->]; reflexivity.
  - apply tip_app, tip_app. destruct fw; [reflexivity|]. apply tip_app. eapply tip_word; [exact HV|exact H3|discriminate].
  - apply tip_number, H1.
Qed.

(** ** Positions *)

Lemma ends_line_snoc src c i : i < length src -> (S i < length src \/ tip src = true) ->
  ends_line (src ++ [c]) i = ends_line src i.
Proof.
  intros h1 h2. unfold ends_line. rewrite nth_error_app1 by exact h1.
  destruct (Nat.lt_ge_cases (S i) (length src)) as [h|h]; [rewrite nth_error_app1 by exact h; reflexivity|].
  destruct h2 as [h2|h2]; [lia|]. destruct (nth_error src i) as [x|] eqn:E; [|reflexivity].
  assert (x <> 13%N); [|destruct (N.eqb_spec x 13); [contradiction|reflexivity]].
  destruct (exists_last (l := src)) as (s' & y & ->); [intros ->; cbn in h1; lia|].
  rewrite app_length in h, h1. cbn in h, h1. rewrite nth_error_app2 in E by lia. replace (i - length s') with 0 in E by lia.
  injection E as ->. apply tip_last in h2. intros ->. apply h2. cbn. tauto.
Qed.
Lemma line_ends_snoc src c k : k <= length src -> (k < length src \/ tip src = true) ->
  line_ends (src ++ [c]) k = line_ends src k.
Proof.
  intros h1 h2. unfold line_ends. apply filter_ext_in. intros i hi. apply in_seq in hi.
  apply ends_line_snoc; [lia|]. destruct h2 as [h2|h2]; [left; lia|right; exact h2].
Qed.
Lemma posn_snoc src c k : k <= length src -> (k < length src \/ tip src = true) -> posn_at (src ++ [c]) k = posn_at src k.
Proof. intros h1 h2. unfold posn_at. rewrite line_ends_snoc by assumption. reflexivity. Qed.

(** ** Token sequences *)

Lemma skipn_split (src : str) k a b : skipn k src = a ++ b -> k <= length src -> exists u, src = u ++ a ++ b /\ length u = k.
Proof. intros h hk. exists (firstn k src). split; [rewrite <- h, firstn_skipn; reflexivity|]. apply firstn_length_le, hk. Qed.

Lemma eof_tiles V src ops b k ts k' : tiles V src ops b k ts k' -> k = length src -> forall src',
  exists ts', tiles V src' ops b (length src') ts' (length src') /\ raised ts ts' /\ raised ts' ts.
Proof.
  induction 1 as [b k|op ops b k t k1 ts k2 N T IH]; intros -> src'.
  - exists []. split; [constructor|split; constructor].
  - destruct N as (ws & w & l & E & E' & Tr & L & El & En).
    rewrite skipn_all in E. symmetry in E. apply app_eq_nil in E as [-> E]. apply app_eq_nil in E as [-> ->].
    cbn in E'. assert (k1 = length src) by lia. destruct (IH H src') as (ts' & T' & R' & R2).
    assert (ev : tk_value t = TPunc T_EOF).
    { destruct (tk_value t) eqn:Et; try (exfalso; exact (lexeme_nonempty _ _ _ _ _ L ltac:(discriminate) eq_refl)).
      destruct p; try reflexivity; exfalso; exact (lexeme_nonempty _ _ _ _ _ L ltac:(discriminate) eq_refl). }
    exists (Token (Span (posn_at src' (length src')) (posn_at src' (length src'))) false (TPunc T_EOF) :: ts').
    split.
    + econstructor; [|exact T']. exists [], [], []. rewrite skipn_all. split; [reflexivity|]. cbn.
      split; [lia|]. split.
      { apply tv_done. intros [K|[K|[[? K]|[[? K]|[[? K]|[_ [? K]]]]]]]; try contradiction; discriminate. }
      split; [constructor|]. split; [rewrite Nat.add_0_r; reflexivity|]. split; [discriminate|intros K; inversion K].
    + split; constructor; [|exact R'| |exact R2]; right.
      * split; [exact ev|]. split; [reflexivity|]. cbn. intros K. apply En in K. inversion K.
      * split; [reflexivity|]. split; [exact ev|]. discriminate.
Qed.

Theorem tiles_snoc V src ops b k ts k' c : ucd_ok V -> line_terminator c -> tiles V src ops b k ts k' -> k <= length src ->
  exists ts' k'', tiles V (src ++ [c]) ops b k ts' k'' /\ raised ts ts'.
Proof.
  intros HV hc. induction 1 as [b k|op ops b k t k1 ts k2 N T IH]; intros hk.
  { exists [], k. split; constructor. }
  destruct N as (ws & w & l & E & E' & Tr & L & El & En).
  destruct (skipn_split _ _ _ _ E hk) as (u & Es & Eu).
  assert (El' : length src = k + length ws + length w + length l) by (rewrite Es, !app_length; lia).
  assert (Ek : skipn k (src ++ [c]) = ws ++ w ++ l ++ [c])
    by (rewrite Es, <- !app_assoc, <- Eu, skipn_app, skipn_all, Nat.sub_diag; reflexivity).
  destruct (td_eqb (tk_value t) (TPunc T_EOF)) eqn:Ev.
  - assert (ev : tk_value t = TPunc T_EOF) by (destruct (tk_value t); try discriminate; destruct p; try discriminate; reflexivity).
    rewrite ev in L.
    assert (Ew : w = [] /\ l = []) by (clear -L; inversion L as [Ew|p l' H1 H2 H3 Ep| | | | |]; subst;
      [split; reflexivity|destruct H1 as [H1 _]; congruence]).
    destruct Ew as [-> ->]. cbn [app length] in *. rewrite Nat.add_0_r in *.
    destruct (eof_tiles _ _ _ _ _ _ _ T ltac:(lia) (src ++ [c])) as (ts' & T' & R' & _).
    exists (Token (Span (posn_at (src ++ [c]) (length (src ++ [c]))) (posn_at (src ++ [c]) (length (src ++ [c])))) true (TPunc T_EOF) :: ts').
    eexists. split; [econstructor; [|exact T']|].
    + exists (ws ++ [c]), [], []. rewrite Ek, !app_nil_r. split; [reflexivity|].
      rewrite !app_length, El'. cbn [length]. split; [lia|]. split; [eapply trivia_end; [exact Tr|reflexivity|exact hc]|].
      split; [constructor|]. split; [cbn [tk_loc]; f_equal; f_equal; lia|]. split; [intros _|reflexivity].
      apply Exists_app. right. left. exact hc.
    + constructor; [|exact R']. right. split; [exact ev|]. split; reflexivity.
  - assert (ev : tk_value t <> TPunc T_EOF) by (intros K; rewrite K in Ev; discriminate).
    destruct (IH ltac:(lia)) as (ts' & k'' & T' & R'). exists (t :: ts'), k''.
    split; [|constructor; [left; reflexivity|exact R']]. econstructor; [|exact T'].
    pose proof (tip_lexeme _ _ _ _ _ HV ev L) as Ht. assert (Hw : w <> []) by (intros ->; discriminate).
    assert (0 < length w) by (destruct w; [congruence|cbn; lia]).
    exists ws, w, (l ++ [c]). split; [exact Ek|]. split; [exact E'|]. split.
    { rewrite app_assoc. apply trivia_snoc; [exact Tr|exact hc|]. destruct w; [congruence|discriminate]. }
    split; [apply lexeme_snoc; assumption|]. split; [|exact En].
    rewrite El. f_equal; symmetry; apply posn_snoc; try lia.
    destruct l as [|x l]; [right|left; cbn in El'; lia]. rewrite Es, app_nil_r. apply tip_app, tip_app, Ht.
Qed.

(** ** Back: the tokens of a text without its last line terminator *)

Lemma prefix_more p r c : prefix p r -> prefix p (r ++ [c]).
Proof. intros [tl ->]. exists (tl ++ [c]). rewrite app_assoc. reflexivity. Qed.
Lemma starts_more P (r : str) c : starts_with P r -> starts_with P (r ++ [c]).
Proof. destruct r; [intros []|trivial]. Qed.
Lemma trivia_unsnoc b ws r0 : trivia b ws r0 -> forall r c, r0 = r ++ [c] -> r <> [] -> trivia b ws r.
Proof.
  induction 1 as [b l h|b c0 w l h T IH|b c0 w l h T IH|b o body w l h1 h2 h3 T IH|b body w l h T IH]; intros r c -> hr.
  - apply tv_done. intros K. apply h. unfold starts_trivia in *.
    destruct K as [K|[K|[K|[K|[K|[K1 K]]]]]];
      first [apply (starts_more _ _ c) in K | apply (prefix_more _ _ c) in K]; tauto.
  - apply tv_space; eauto.
  - apply tv_newline; eauto.
  - apply tv_line; eauto. right. destruct h3 as [h3|h3]; [destruct w; [destruct r; discriminate|discriminate]|].
    rewrite app_assoc in h3. apply starts_snoc in h3; [exact h3|]. destruct w; [exact hr|discriminate].
  - apply tv_block; eauto.
Qed.
Lemma snoc_app {A} (a b x : list A) c : a ++ b = x ++ [c] -> b <> [] -> exists b', b = b' ++ [c] /\ x = a ++ b'.
Proof.
  intros E h. destruct (exists_last h) as (b' & y & ->). rewrite app_assoc in E. apply app_inj_tail in E as [<- ->]. eauto.
Qed.
Lemma not_both c : white_space c -> line_terminator c -> False.
Proof. intros [h _] k. cbn in h, k. intuition (subst; discriminate). Qed.
Lemma trivia_unend b ws0 r : trivia b ws0 r -> r = [] -> forall ws c, ws0 = ws ++ [c] -> line_terminator c -> trivia b ws [].
Proof.
  induction 1 as [b l h|b c0 w l h T IH|b c0 w l h T IH|b o body w l h1 h2 h3 T IH|b body w l h T IH]; intros -> ws c E hc.
  - destruct ws; discriminate.
  - destruct w as [|y w]; [destruct ws as [|? [|]]; try discriminate; injection E as ->; destruct (not_both _ h hc)|].
    apply (snoc_app [c0]) in E as (w' & E & ->); [|discriminate]. apply tv_space; eauto.
  - destruct w as [|y w].
    + destruct ws as [|? [|]]; try discriminate. apply tv_done. unfold starts_trivia.
      intros [K|[K|[[? K]|[[? K]|[[? K]|[_ [? K]]]]]]]; try contradiction; discriminate.
    + apply (snoc_app [c0]) in E as (w' & E & ->); [|discriminate]. apply tv_newline; eauto.
  - rewrite app_assoc in E. destruct w as [|y w].
    + exfalso. rewrite app_nil_r in E. destruct body as [|z body].
      * rewrite app_nil_r in E. assert (K : In c o) by (rewrite E; apply in_or_app; right; left; reflexivity).
        revert K. apply no_lt; [exact hc|]. destruct h1 as [->|[->|[_ ->]]]; reflexivity.
      * apply snoc_app in E as (b' & E & _); [|discriminate]. rewrite E in h2. apply Forall_app in h2 as [_ h2].
        apply Forall_inv in h2. exact (h2 hc).
    + apply snoc_app in E as (w' & E & ->); [|discriminate]. rewrite <- app_assoc. apply tv_line; auto.
      * rewrite app_nil_r in *. destruct w' as [|? w']; [left; reflexivity|right].
        rewrite E in h3. destruct h3 as [h3|h3]; [discriminate|exact h3].
      * eapply IH; eauto.
  - destruct w as [|y w].
    + exfalso. apply snoc_app in E as (w' & E & _); [|destruct body; discriminate].
      apply snoc_app in E as (w2 & E & _); [|discriminate]. destruct w2 as [|? [|? [|]]]; try discriminate.
      injection E as _ <-. cbn in hc. intuition discriminate.
    + replace (lit "/*" ++ body ++ lit "*/" ++ y :: w) with ((lit "/*" ++ body ++ lit "*/") ++ y :: w) in E by (rewrite <- !app_assoc; reflexivity).
      apply snoc_app in E as (w' & E & ->); [|discriminate]. rewrite <- !app_assoc. apply tv_block; eauto.
Qed.

Lemma lexeme_unsnoc V op d w l c : ucd_ok V -> d <> TPunc T_EOF -> lexeme V op d w (l ++ [c]) -> lexeme V op d w l.
Proof.
  intros HV hd h. destruct l as [|x l].
  { eapply lexeme_before_blank; [exact HV|exact hd| |exact h]. left. reflexivity. }
  remember (x :: l) as m eqn:Em. assert (hm : m <> []) by (rewrite Em; discriminate). clear x l Em.
  pose proof (hd_snoc m c hm) as Eh. symmetry in Eh. remember (m ++ [c]) as m' eqn:Em'.
  destruct h as [|p l H1 H2 H3|r l H|n w v esc l H1 H2 H3 H4 H5|q b v l H1 H2
                          |b fw fv esc l H1 H2 H3 H4|s v l H1 H2 H3 H4 H5].
  - congruence.
  - subst l. constructor; [exact H1| |].
    + intros p' Hp' K. apply H2; [exact Hp'|]. rewrite app_assoc. apply prefix_more, K.
    + intros Hd X. apply (H3 Hd). eapply starts_hd; [exact Eh|exact X].
  - constructor. eapply word_end_hd; eassumption.
  - eapply lx_ident; try eassumption. eapply word_end_hd; eassumption.
  - constructor; [exact H1|]. eapply cooks_tail; [exact H2|reflexivity].
  - eapply lx_regexp; try eassumption. eapply word_end_hd; eassumption.
  - constructor; try assumption.
    + intros X. apply H3. eapply starts_hd; [exact Eh|exact X].
    + intros X. apply H4. eapply starts_hd; [exact Eh|exact X].
    + intros m0 Hm X. apply (H5 m0 Hm). eapply (prefix_one (chr ".")); [exact Eh|exact X].
Qed.


Lemma has_newline_dec w : exists b : bool, b = true <-> has_newline w.
Proof.
  exists (existsb (fun x => existsb (N.eqb x) [10; 13; 8232; 8233]%N) w). unfold has_newline. rewrite existsb_exists, Exists_exists.
  split; intros (x & hx & h); exists x; (split; [exact hx|]).
  - apply existsb_exists in h as (y & hy & e). apply N.eqb_eq in e as ->. exact hy.
  - apply existsb_exists. exists x. split; [exact h|apply N.eqb_refl].
Qed.

Theorem tiles_unsnoc V src ops b k ts k' c : ucd_ok V -> line_terminator c -> tiles V (src ++ [c]) ops b k ts k' -> k <= length src ->
  exists ts' k'', tiles V src ops b k ts' k'' /\ raised ts' ts.
Proof.
  intros HV hc. remember (src ++ [c]) as all eqn:Ea. induction 1 as [b k|op ops b k t k1 ts k2 N T IH]; intros hk.
  { exists [], k. split; constructor. }
  destruct N as (ws & w & l & E & E' & Tr & L & El & En).
  rewrite Ea, skipn_app in E. replace (k - length src) with 0 in E by lia. cbn [skipn] in E.
  assert (Lk : length (skipn k src) = length src - k) by apply skipn_length.
  destruct (td_eqb (tk_value t) (TPunc T_EOF)) eqn:Ev.
  - assert (ev : tk_value t = TPunc T_EOF) by (destruct (tk_value t); try discriminate; destruct p; try discriminate; reflexivity).
    rewrite ev in L.
    assert (Ew : w = [] /\ l = []) by (clear -L; inversion L as [Ew|p l' H1 H2 H3 Ep| | | | |]; subst;
      [split; reflexivity|destruct H1 as [H1 _]; congruence]).
    destruct Ew as [-> ->]. cbn [app length] in *. rewrite !app_nil_r in E. subst ws.
    rewrite app_length in E'. cbn [length] in E'.
    destruct (eof_tiles _ _ _ _ _ _ _ T ltac:(rewrite Ea, app_length; cbn; lia) src) as (ts' & T' & _ & R').
    destruct (has_newline_dec (skipn k src)) as (nb & Hnb).
    exists (Token (Span (posn_at src (length src)) (posn_at src (length src))) nb (TPunc T_EOF) :: ts').
    eexists. split; [econstructor; [|exact T']|].
    + exists (skipn k src), [], []. rewrite !app_nil_r. split; [reflexivity|]. cbn [length].
      split; [lia|]. split; [eapply trivia_unend; [exact Tr|reflexivity|reflexivity|exact hc]|].
      split; [constructor|]. split; [cbn [tk_loc]; f_equal; f_equal; lia|]. exact Hnb.
    + constructor; [|exact R']. right. split; [reflexivity|]. split; [exact ev|]. intros _. apply En. apply Exists_app. right. left. exact hc.
  - assert (ev : tk_value t <> TPunc T_EOF) by (intros K; rewrite K in Ev; discriminate).
    pose proof (tip_lexeme _ _ _ _ _ HV ev L) as Ht. assert (Hw : w <> []) by (intros ->; discriminate).
    assert (Hl : l <> []).
    { intros ->. rewrite app_nil_r in E. symmetry in E. apply snoc_app in E as (w' & -> & _); [|exact Hw]. exact (tip_last _ _ Ht hc). }
    symmetry in E. rewrite app_assoc in E. apply snoc_app in E as (l' & -> & E); [|exact Hl]. rewrite <- app_assoc in E.
    assert (Ls : length src = k + length ws + length w + length l') by (rewrite E, !app_length in Lk; lia).
    assert (0 < length w) by (destruct w; [congruence|cbn; lia]).
    destruct (IH ltac:(lia)) as (ts' & k'' & T' & R'). exists (t :: ts'), k''.
    split; [|constructor; [left; reflexivity|exact R']]. econstructor; [|exact T'].
    exists ws, w, l'. split; [exact E|]. split; [exact E'|]. split.
    { rewrite app_assoc in Tr. eapply trivia_unsnoc; [exact Tr|reflexivity|]. destruct w; [congruence|discriminate]. }
    split; [eapply lexeme_unsnoc; eassumption|]. split; [|exact En].
    rewrite El, Ea. f_equal; apply posn_snoc; try lia.
    destruct l' as [|x l']; [right|left; cbn in Ls; lia]. rewrite app_nil_r in E.
    rewrite <- (firstn_skipn k src), E. apply tip_app, tip_app, Ht.
Qed.
