(** Whole parses of the same input by different entry points, compared. *)
From Coq Require Import String Ascii List NArith Bool.
From Verif Require Import Base Chars Word Token Reader Lexer Punc Ast Track Cover Stack PState Parser Api
  KeepProofs SimProofs.
Import ListNotations.
Local Open Scope nat_scope.

Lemma span_ok {A} (set : A -> loc -> A) (m : P A) s a s' : m s = Ok (a, s') ->
  p_span set m s = Ok (set a (Some (Span (lexer_posn (p_lexer s)) (lexer_posn (p_lexer s')))), s').
Proof. intros E. unfold p_span, bind, p_posn, gets. rewrite E. reflexivity. Qed.
Lemma span_err {A} (set : A -> loc -> A) (m : P A) s e : m s = Err e -> p_span set m s = Err e.
Proof. intros E. unfold p_span, bind, p_posn, gets. rewrite E. reflexivity. Qed.
Lemma bind_err {A B} (m : P A) (k : A -> P B) s e : m s = Err e -> bind m k s = Err e.
Proof. unfold bind. intros ->. reflexivity. Qed.

Section Top.
Context (v : variant) (VO : variant_ok v).
Context (V : env) (n : nat).
Notation R := (parse_rec V n).

(** As [follows], for results of different types and with an excuse. *)
Definition followsR {A B} (skip : A -> Prop) (Q : A -> B -> Prop)
    (r1 : res perror (A * pst)) (r2 : res perror (B * pst)) : Prop :=
  match r1 with
  | Ok (a, s1') => skip a \/ (exists b s2', r2 = Ok (b, s2') /\ Q a b /\ rel v s1' s2')
                   \/ (exists e, r2 = Err e /\ v_check v (p_deferred s1') = Some e)
  | _ => True
  end.
Definition growsR {A} (skip : A -> Prop) (m : P A) : Prop := forall s a s', m s = Ok (a, s') ->
  skip a \/ exists d, p_deferred s' = p_deferred s ++ d.

Definition skip_r {A B} (skip : B -> Prop) (x : A + B) : Prop :=
  match x with inl _ => False | inr b => skip b end.
Definition both {A1 B1 A2 B2} (QX : A1 -> A2 -> Prop) (QY : B1 -> B2 -> Prop) (x : A1 + B1) (y : A2 + B2) : Prop :=
  match x, y with inl a, inl b => QX a b | inr a, inr b => QY a b | _, _ => False end.

Lemma growsR_loop {A B} (skip : B -> Prop) (body : A -> P (A + B)) :
  (forall a, growsR (skip_r skip) (body a)) -> forall k a, growsR skip (loopM k body a).
Proof.
  intros h. induction k as [|k IH]; intros a s b s' E; cbn [loopM] in E; [discriminate E|].
  apply bind_ok in E as ([a'|b'] & s1 & E1 & E2); apply h in E1 as [E1|(d1 & E1)].
  - destruct E1.
  - apply IH in E2 as [E2|(d2 & E2)]; [left; exact E2|right]. exists (d1 ++ d2). rewrite E2, E1, app_assoc. reflexivity.
  - injection E2 as <- <-. left. assumption.
  - injection E2 as <- <-. right. exists d1. exact E1.
Qed.
Lemma followsR_loop {A1 B1 A2 B2} (skip : B1 -> Prop) (QX : A1 -> A2 -> Prop) (QY : B1 -> B2 -> Prop)
    (b1 : A1 -> P (A1 + B1)) (b2 : A2 -> P (A2 + B2)) :
  (forall a, growsR (skip_r skip) (b1 a)) ->
  (forall a1 a2 s1 s2, QX a1 a2 -> rel v s1 s2 -> followsR (skip_r skip) (both QX QY) (b1 a1 s1) (b2 a2 s2)) ->
  forall k a1 a2 s1 s2, QX a1 a2 -> rel v s1 s2 -> followsR skip QY (loopM k b1 a1 s1) (loopM k b2 a2 s2).
Proof.
  intros hg h. induction k as [|k IH]; intros a1 a2 s1 s2 q r; cbn [loopM]; [exact Logic.I|].
  specialize (h a1 a2 s1 s2 q r). unfold bind. destruct (b1 a1 s1) as [[x s1']|e|p|]; try exact Logic.I.
  destruct h as [h|[(y & s2' & -> & hq & r')|(e & -> & hc)]].
  - destruct x as [x|x]; [destruct h|]. left. exact h.
  - destruct x as [x|x], y as [y|y]; try contradiction.
    + apply IH; assumption.
    + right. left. exists y, s2'. split; [reflexivity|]. split; assumption.
  - destruct x as [x|x].
    + unfold followsR. destruct (loopM k b1 x s1') as [[b s1'']|e'|p|] eqn:E; try exact Logic.I.
      destruct (growsR_loop skip b1 hg k x _ _ _ E) as [hs|(d & hd)]; [left; exact hs|right; right].
      exists e. split; [reflexivity|]. rewrite hd. apply (vo_more _ VO), hc.
    + right. right. exists e. split; [reflexivity|exact hc].
Qed.

Lemma peek_step op s1 s2 t s1' : rel v s1 s2 -> lex (peek_token V op) s1 = Ok (t, s1') ->
  exists s2', lex (peek_token V op) s2 = Ok (t, s2') /\ rel v s1' s2' /\ p_deferred s1' = p_deferred s1.
Proof.
  intros [r1 r2 r3 r4]. unfold lex. rewrite r1.
  destruct (peek_token V op (p_lexer s1)) as [[b x]|e|p|]; try discriminate.
  intros h. injection h as <- <-. eexists. split; [reflexivity|]. split; [|reflexivity]. split; auto.
Qed.
Lemma peek_same op s t s' : lex (peek_token V op) s = Ok (t, s') -> p_deferred s' = p_deferred s.
Proof.
  unfold lex. destruct (peek_token V op (p_lexer s)) as [[b x]|e|p|]; try discriminate.
  intros h. injection h as _ <-. reflexivity.
Qed.

Lemma item_sim d : sim v (r_item R d) (r_item R d).
Proof. apply sim_rec, VO. Qed.
(** One item in both parses. *)
Lemma item_step {A1 A2 B1 B2} (skip : B1 -> Prop) (QX : A1 -> A2 -> Prop) (QY : B1 -> B2 -> Prop)
    (f1 : item -> A1) (f2 : item -> A2) d s1 s2 :
  rel v s1 s2 -> (forall i, QX (f1 i) (f2 i)) ->
  followsR (skip_r skip) (both QX QY)
    ((i <- r_item R d ;; ret (inl (f1 i))) s1) ((i <- r_item R d ;; ret (inl (f2 i))) s2).
Proof.
  intros r q. pose proof (proj2 (item_sim d) s1 s2 r) as h. unfold bind, follows in *.
  destruct (r_item R d s1) as [[i s1']|e|p|]; try exact Logic.I. right. destruct h as [(s2' & -> & r')|(e & -> & hc)].
  - left. exists (inl (f2 i)), s2'. split; [reflexivity|]. split; [apply q|exact r'].
  - right. exists e. split; [reflexivity|exact hc].
Qed.
Lemma item_grows {A B} (skip : B -> Prop) (f : item -> A) d :
  growsR (skip_r skip) (i <- r_item R d ;; ret (inl (f i))).
Proof.
  intros s a s' E. apply bind_ok in E as (i & s1 & E1 & E2). injection E2 as <- <-.
  right. eapply (proj1 (item_sim d)), E1.
Qed.

Definition is_module (x : program_items) : Prop := match x with PI_Module _ => True | _ => False end.
Definition items_eq (x : program_items) (is : list item) : Prop := x = PI_Script is.
Definition mod_eq (is : list item) (ms : list mod_item) : Prop := ms = map MI_Item is.

Lemma program_grows : growsR is_module (program_items_ V R).
Proof.
  unfold program_items_. apply growsR_loop. intros a s x s' E. apply bind_ok in E as (t & s1 & E1 & E2).
  destruct (is_t t (TPunc T_EOF)).
  - injection E2 as <- <-. right. exists []. rewrite app_nil_r. eapply peek_same, E1.
  - destruct (is_t t (TReserved R_Import) || is_t t (TReserved R_Export)).
    + apply bind_ok in E2 as (u & s2 & _ & E2). apply bind_ok in E2 as (m & s3 & _ & E2).
      injection E2 as <- <-. left. exact Logic.I.
    + rewrite <- (peek_same _ _ _ _ E1). eapply (item_grows (fun _ => False)) in E2. destruct E2 as [E2|E2].
      * destruct x; contradiction.
      * right. exact E2.
Qed.

Lemma program_statements s1 s2 : rel v s1 s2 ->
  followsR is_module items_eq (program_items_ V R s1) (statement_list V R s2).
Proof.
  intros r. unfold program_items_, statement_list. apply (followsR_loop _ eq); auto.
  - intros a s x s' E. apply bind_ok in E as (t & s3 & E1 & E2).
    destruct (is_t t (TPunc T_EOF)).
    + injection E2 as <- <-. right. exists []. rewrite app_nil_r. eapply peek_same, E1.
    + destruct (is_t t (TReserved R_Import) || is_t t (TReserved R_Export)).
      * apply bind_ok in E2 as (u & s4 & _ & E2). apply bind_ok in E2 as (m & s5 & _ & E2).
        injection E2 as <- <-. left. exact Logic.I.
      * rewrite <- (peek_same _ _ _ _ E1). eapply item_grows, E2.
  - clear s1 s2 r. intros a _ s1 s2 <- r. unfold bind at 1.
    destruct (p_peek V s1) as [[t s1']|e|p|] eqn:E; try exact Logic.I.
    destruct (peek_step _ _ _ _ _ r E) as (s2' & E2 & r' & _). rewrite (bind_next (p_peek V) _ s2 t s2' _ E2 eq_refl).
    destruct (is_t t (TPunc T_EOF)) eqn:eof.
    + assert (follow_statement_list t = true) as ->.
      { unfold is_t in eof. unfold follow_statement_list. destruct (tk_value t) as [x|x| | | | ]; try discriminate;
          destruct x; try discriminate; reflexivity. }
      right. left. exists (inr a), s2'. split; [reflexivity|]. split; [reflexivity|exact r'].
    + destruct (is_t t (TReserved R_Import) || is_t t (TReserved R_Export)) eqn:port.
      * unfold bind. destruct (force_deferred_module_validation s1') as [[u s3]|e|p|]; try exact Logic.I.
        match goal with |- followsR _ _ (match ?x with _ => _ end) _ => destruct x as [[m s4]|e|p|] end;
          try exact Logic.I. left. exact Logic.I.
      * destruct (follow_statement_list t) eqn:fol; [|apply item_step; auto].
        pose proof (stops_or_eof t fol eof) as hs.
        destruct (peek_at _ _ _ _ _ E) as (g & d & rd & la & el & c & ->).
        pose proof (no_item V n t g d rd la el c true hs) as hf. unfold bind.
        destruct (r_item R true _) as [[i s3]|e|p|]; [destruct hf|exact Logic.I..].
Qed.

Lemma program_modules s1 s2 : rel v s1 s2 ->
  followsR is_module (fun x ms => exists is, x = PI_Script is /\ ms = map MI_Item is)
    (program_items_ V R s1) (module_items V R s2).
Proof.
  intros r. unfold program_items_, module_items, more_module_items.
  apply (followsR_loop is_module mod_eq); [| |reflexivity|exact r].
  - intros a s x s' E. apply bind_ok in E as (t & s3 & E1 & E2).
    destruct (is_t t (TPunc T_EOF)).
    + injection E2 as <- <-. right. exists []. rewrite app_nil_r. eapply peek_same, E1.
    + destruct (is_t t (TReserved R_Import) || is_t t (TReserved R_Export)).
      * apply bind_ok in E2 as (u & s4 & _ & E2). apply bind_ok in E2 as (m & s5 & _ & E2).
        injection E2 as <- <-. left. exact Logic.I.
      * rewrite <- (peek_same _ _ _ _ E1). eapply item_grows, E2.
  - clear s1 s2 r. intros a ms s1 s2 -> r. unfold bind at 1.
    destruct (p_peek V s1) as [[t s1']|e|p|] eqn:E; try exact Logic.I.
    destruct (peek_step _ _ _ _ _ r E) as (s2' & E2 & r' & _). rewrite (bind_next (p_peek V) _ s2 t s2' _ E2 eq_refl).
    destruct (is_t t (TPunc T_EOF)) eqn:eof.
    + right. left. eexists (inr _), s2'. split; [reflexivity|]. split; [exists a; split; reflexivity|exact r'].
    + destruct (is_t t (TReserved R_Import) || is_t t (TReserved R_Export)) eqn:port.
      * unfold bind. destruct (force_deferred_module_validation s1') as [[u s3]|e|p|]; try exact Logic.I.
        match goal with |- followsR _ _ (match ?x with _ => _ end) _ => destruct x as [[m s4]|e|p|] end;
          try exact Logic.I. left. exact Logic.I.
      * apply item_step; [exact r'|]. intros i. unfold mod_eq. rewrite map_app. reflexivity.
Qed.

Lemma module_statements s1 s2 : rel v s1 s2 ->
  followsR (fun _ => False) (fun ms is => ms = map MI_Item is) (module_items V R s1) (statement_list V R s2).
Proof.
  intros r. unfold statement_list, module_items, more_module_items.
  apply (followsR_loop (fun _ => False) (fun ms is => ms = map MI_Item is)); [| |reflexivity|exact r].
  - intros a s x s' E. apply bind_ok in E as (t & s3 & E1 & E2).
    destruct (is_t t (TPunc T_EOF)).
    + injection E2 as <- <-. right. exists []. rewrite app_nil_r. eapply peek_same, E1.
    + destruct (is_t t (TReserved R_Import) || is_t t (TReserved R_Export)); [discriminate E2|].
      rewrite <- (peek_same _ _ _ _ E1). eapply item_grows, E2.
  - clear s1 s2 r. intros ms is s1 s2 -> r. unfold bind at 1.
    destruct (p_peek V s1) as [[t s1']|e|p|] eqn:E; try exact Logic.I.
    destruct (peek_step _ _ _ _ _ r E) as (s2' & E2 & r' & _). rewrite (bind_next (p_peek V) _ s2 t s2' _ E2 eq_refl).
    destruct (is_t t (TPunc T_EOF)) eqn:eof.
    + assert (follow_statement_list t = true) as ->.
      { unfold is_t in eof. unfold follow_statement_list. destruct (tk_value t) as [x|x| | | | ]; try discriminate;
          destruct x; try discriminate; reflexivity. }
      right. left. exists (inr is), s2'. split; [reflexivity|]. split; [reflexivity|exact r'].
    + destruct (is_t t (TReserved R_Import) || is_t t (TReserved R_Export)) eqn:port; [exact Logic.I|].
      destruct (follow_statement_list t) eqn:fol.
      * pose proof (stops_or_eof t fol eof) as hs.
        destruct (peek_at _ _ _ _ _ E) as (g & d & rd & la & el & c & ->).
        pose proof (no_item V n t g d rd la el c true hs) as hf. unfold bind.
        destruct (r_item R true _) as [[i s3]|e|p|]; [destruct hf|exact Logic.I..].
      * apply item_step; [exact r'|]. intros i. rewrite map_app. reflexivity.
Qed.

(** The first parse is [program_], which keeps its deferred checks in the result. *)
Lemma program_bodies cs b s1 s1' s2 : program_ V R s1 = Ok (Pg_Ambiguous cs b, s1') -> rel v s1 s2 ->
  (exists s2', script_body V R s2 = Ok (b, s2') /\ v_check v cs = None)
  \/ (exists e, script_body V R s2 = Err e /\ v_check v cs = Some e).
Proof.
  intros E r. unfold program_ in E. apply bind_ok in E as (u & s3 & E0 & E).
  assert (s3 = s1) as ->.
  { unfold assert_goal_unknown, bind, gets in E0. destruct (goal_eqb _ _); [|discriminate]. injection E0 as _ <-. reflexivity. }
  unfold p_span in E. apply bind_ok in E as (p & s3 & E1 & E). injection E1 as <- <-.
  apply bind_ok in E as (pr & s3 & E1 & E). apply bind_ok in E as (p & s4 & E2 & E). injection E2 as <- <-.
  injection E as E <-.
  apply bind_ok in E1 as (ds & s4 & Ed & E1). apply bind_ok in E1 as (is & s5 & Ei & E1).
  destruct is as [is|ms]; [|injection E1 as <- <-; discriminate E].
  injection E1 as <- <-. cbn in E. injection E as <- <-. unfold script_body.
  pose proof (rl_lexer _ _ _ r) as hx. destruct (sim_directives v VO V R) as [gd hd].
  specialize (hd s1 s2 r). rewrite Ed in hd. destruct hd as [(s6 & Ed2 & r6)|(e & Ed2 & hc)].
  - pose proof (program_statements s4 s6 r6) as hi. rewrite Ei in hi.
    destruct hi as [[]|[(is' & s7 & Ei2 & q & r7)|(e & Ei2 & hc)]].
    + injection q as <-. left. eexists. split; [|apply (rl_none _ _ _ r7)].
      rewrite (span_ok _ _ _ _ _ (bind_next _ _ _ _ _ _ Ed2 (bind_next _ _ _ _ _ _ Ei2 eq_refl))).
      rewrite hx, (rl_lexer _ _ _ r7). reflexivity.
    + right. exists e. split; [|exact hc].
      exact (span_err _ _ _ _ (bind_next _ _ _ _ _ _ Ed2 (bind_err _ _ _ _ Ei2))).
  - right. exists e. split; [exact (span_err _ _ _ _ (bind_err _ _ _ _ Ed2))|].
    destruct (program_grows _ _ _ Ei) as [[]|(d & hd)]. cbn in hd. rewrite hd.
    apply (vo_more _ VO), hc.
Qed.

(** The body of [module_] after the goal and the strictness have been set. *)
Definition module_body : P module :=
  p_span body_set_loc (dirs <- body_directives V R ;; items <- module_items V R ;; ret (Body None dirs items)).

Lemma program_module_bodies cs b s1 s1' s2 : program_ V R s1 = Ok (Pg_Ambiguous cs b, s1') -> rel v s1 s2 ->
  (exists s2', module_body s2 = Ok (Body (bo_loc b) (bo_dirs b) (map MI_Item (bo_items b)), s2') /\ v_check v cs = None)
  \/ (exists e, module_body s2 = Err e /\ v_check v cs = Some e).
Proof.
  intros E r. unfold program_ in E. apply bind_ok in E as (u & s3 & E0 & E).
  assert (s3 = s1) as ->.
  { unfold assert_goal_unknown, bind, gets in E0. destruct (goal_eqb _ _); [|discriminate]. injection E0 as _ <-. reflexivity. }
  unfold p_span in E. apply bind_ok in E as (p & s3 & E1 & E). injection E1 as <- <-.
  apply bind_ok in E as (pr & s3 & E1 & E). apply bind_ok in E as (p & s4 & E2 & E). injection E2 as <- <-.
  injection E as E <-.
  apply bind_ok in E1 as (ds & s4 & Ed & E1). apply bind_ok in E1 as (is & s5 & Ei & E1).
  destruct is as [is|ms]; [|injection E1 as <- <-; discriminate E].
  injection E1 as <- <-. cbn in E. injection E as <- <-. unfold module_body.
  pose proof (rl_lexer _ _ _ r) as hx. destruct (sim_directives v VO V R) as [gd hd].
  specialize (hd s1 s2 r). rewrite Ed in hd. destruct hd as [(s6 & Ed2 & r6)|(e & Ed2 & hc)].
  - pose proof (program_modules s4 s6 r6) as hi. rewrite Ei in hi.
    destruct hi as [[]|[(is' & s7 & Ei2 & q & r7)|(e & Ei2 & hc)]].
    + destruct q as (is0 & q & ->). injection q as <-. left. eexists. split; [|apply (rl_none _ _ _ r7)].
      rewrite (span_ok _ _ _ _ _ (bind_next _ _ _ _ _ _ Ed2 (bind_next _ _ _ _ _ _ Ei2 eq_refl))).
      rewrite hx, (rl_lexer _ _ _ r7). reflexivity.
    + right. exists e. split; [|exact hc].
      exact (span_err _ _ _ _ (bind_next _ _ _ _ _ _ Ed2 (bind_err _ _ _ _ Ei2))).
  - right. exists e. split; [exact (span_err _ _ _ _ (bind_err _ _ _ _ Ed2))|].
    destruct (program_grows _ _ _ Ei) as [[]|(d & hd)]. cbn in hd. rewrite hd.
    apply (vo_more _ VO), hc.
Qed.

Lemma module_bodies m s1 s1' s2 : module_body s1 = Ok (m, s1') -> rel v s1 s2 -> (forall d, v_check v d = None) ->
  exists b s2', script_body V R s2 = Ok (b, s2') /\ m = Body (bo_loc b) (bo_dirs b) (map MI_Item (bo_items b)).
Proof.
  intros E r hn. unfold module_body, p_span in E. apply bind_ok in E as (p & s3 & E1 & E). injection E1 as <- <-.
  apply bind_ok in E as (pr & s3 & E1 & E). apply bind_ok in E as (p & s4 & E2 & E). injection E2 as <- <-.
  injection E as E <-.
  apply bind_ok in E1 as (ds & s4 & Ed & E1). apply bind_ok in E1 as (ms & s5 & Ei & E1).
  injection E1 as <- <-. cbn in E. subst m. unfold script_body.
  pose proof (rl_lexer _ _ _ r) as hx. destruct (sim_directives v VO V R) as [gd hd].
  specialize (hd s1 s2 r). rewrite Ed in hd.
  destruct hd as [(s6 & Ed2 & r6)|(e & Ed2 & hc)]; [|rewrite hn in hc; discriminate].
  pose proof (module_statements s4 s6 r6) as hi. rewrite Ei in hi.
  destruct hi as [[]|[(is' & s7 & Ei2 & q & r7)|(e & Ei2 & hc)]]; [|rewrite hn in hc; discriminate].
  eexists _, _. split.
  - exact (span_ok _ _ _ _ _ (bind_next _ _ _ _ _ _ Ed2 (bind_next _ _ _ _ _ _ Ei2 eq_refl))).
  - cbn. rewrite hx, (rl_lexer _ _ _ r7), q. reflexivity.
Qed.
End Top.

(** ** The comparisons that are made *)

Lemma perform_app b d d' : perform_all b (d ++ d') = match perform_all b d with Some e => Some e | None => perform_all b d' end.
Proof. induction d as [|c d IH]; [reflexivity|]. cbn. destruct (check_perform c b); auto. Qed.

Definition to_script : variant := Variant
  (fun a b => a = Unknown /\ b = No \/ a = Yes /\ b = Yes)
  (fun g h => g = G_Unknown /\ h = G_Script \/ g = G_Module /\ h = G_Module) (fun _ => None).
Definition to_strict : variant := Variant
  (fun a b => a = Unknown /\ b = Yes \/ a = Yes /\ b = Yes)
  (fun g h => g = G_Unknown /\ h = G_Script \/ g = G_Module /\ h = G_Module) (perform_all false).
Definition to_module : variant := Variant
  (fun a b => a = Unknown /\ b = Yes \/ a = Yes /\ b = Yes)
  (fun g h => g = G_Unknown /\ h = G_Module \/ g = G_Module /\ h = G_Module) (perform_all true).
Definition strict_to_script : variant := Variant
  (fun a b => a = Yes /\ b = No \/ a = Yes /\ b = Yes)
  (fun g h => g = G_Script /\ h = G_Script \/ g = G_Module /\ h = G_Module) (fun _ => None).
Definition module_to_strict : variant := Variant
  (fun a b => a = Yes /\ b = Yes)
  (fun g h => g = G_Module /\ h = G_Script \/ g = G_Module /\ h = G_Module) (fun _ => None).

Ltac variant :=
  split; cbn;
  [ intuition congruence
  | auto
  | auto
  | try discriminate; intros d d' e h; rewrite perform_app, h; reflexivity
  | intros a b g h d c hs hg hn;
    repeat match goal with H : _ \/ _ |- _ => destruct H | H : _ /\ _ |- _ => destruct H end; subst;
    destruct c; cbn; auto; rewrite ?perform_app, ?hn; reflexivity ].
Lemma to_script_ok : variant_ok to_script. Proof. variant. Qed.
Lemma to_strict_ok : variant_ok to_strict. Proof. variant. Qed.
Lemma to_module_ok : variant_ok to_module. Proof. variant. Qed.
Lemma strict_to_script_ok : variant_ok strict_to_script. Proof. variant. Qed.
Lemma module_to_strict_ok : variant_ok module_to_strict. Proof. variant. Qed.

Lemma run_ok {A} (p : P A) s a : run p s = Ok a -> exists s', p s = Ok (a, s').
Proof. unfold run. destruct (p s) as [[b s']|e|k|]; try discriminate. intros h. injection h as ->. eauto. Qed.
Lemma start_rel v src g st : v_strict v Unknown st -> v_goal v G_Unknown g -> v_check v [] = None ->
  rel v (parser_new src) (PSt g [] (lexer_new src) (set_strict st context_new)).
Proof. intros h1 h2 h3. split; cbn; auto. split; cbn; auto. Qed.

Theorem script_later V src cs b : program_of V src = Ok (Pg_Ambiguous cs b) -> script_of V src = Ok b.
Proof.
  intros E. apply run_ok in E as (s' & E).
  destruct (program_bodies _ to_script_ok V _ _ _ _ _ _ E
              (start_rel to_script src G_Script No (or_introl (conj eq_refl eq_refl))
                 (or_introl (conj eq_refl eq_refl)) eq_refl)) as [(s2 & E2 & _)|(e & _ & h)]; [|discriminate h].
  unfold script_of, run. change (script_ V (parse_rec V (fuel_for src)) false (parser_new src))
    with (script_body V (parse_rec V (fuel_for src)) (PSt G_Script [] (lexer_new src) (set_strict No context_new))).
  rewrite E2. reflexivity.
Qed.
Theorem strict_later V src cs b : program_of V src = Ok (Pg_Ambiguous cs b) ->
  strict_of V src = match perform_all false cs with Some e => Err e | None => Ok b end.
Proof.
  intros E. apply run_ok in E as (s' & E).
  destruct (program_bodies _ to_strict_ok V _ _ _ _ _ _ E
              (start_rel to_strict src G_Script Yes (or_introl (conj eq_refl eq_refl))
                 (or_introl (conj eq_refl eq_refl)) eq_refl)) as [(s2 & E2 & h)|(e & E2 & h)];
  cbn [to_strict v_check] in h; rewrite h;
  unfold strict_of, run; change (script_ V (parse_rec V (fuel_for src)) true (parser_new src))
    with (script_body V (parse_rec V (fuel_for src)) (PSt G_Script [] (lexer_new src) (set_strict Yes context_new)));
  rewrite E2; reflexivity.
Qed.
Theorem module_later V src cs b : program_of V src = Ok (Pg_Ambiguous cs b) ->
  module_of V src = match perform_all true cs with
                    | Some e => Err e
                    | None => Ok (Body (bo_loc b) (bo_dirs b) (map MI_Item (bo_items b)))
                    end.
Proof.
  intros E. apply run_ok in E as (s' & E).
  destruct (program_module_bodies _ to_module_ok V _ _ _ _ _ _ E
              (start_rel to_module src G_Module Yes (or_introl (conj eq_refl eq_refl))
                 (or_introl (conj eq_refl eq_refl)) eq_refl)) as [(s2 & E2 & h)|(e & E2 & h)];
  cbn [to_module v_check] in h; rewrite h;
  unfold module_of, run; change (module_ V (parse_rec V (fuel_for src)) (parser_new src))
    with (module_body V (fuel_for src) (PSt G_Module [] (lexer_new src) (set_strict Yes context_new)));
  rewrite E2; reflexivity.
Qed.
Theorem strict_script V src t : strict_of V src = Ok t -> script_of V src = Ok t.
Proof.
  intros E. apply run_ok in E as (s' & E).
  change (script_ V (parse_rec V (fuel_for src)) true (parser_new src))
    with (script_body V (parse_rec V (fuel_for src)) (PSt G_Script [] (lexer_new src) (set_strict Yes context_new))) in E.
  assert (rel strict_to_script (PSt G_Script [] (lexer_new src) (set_strict Yes context_new))
            (PSt G_Script [] (lexer_new src) (set_strict No context_new))) as r
    by (split; cbn; auto; split; cbn; auto).
  pose proof (sim_rec _ strict_to_script_ok V (fuel_for src)) as [_ hi].
  pose proof (proj2 (sim_script_body _ strict_to_script_ok V _ hi) _ _ r) as h.
  rewrite E in h. destruct h as [(s2 & E2 & _)|(e & _ & h)]; [|discriminate h].
  unfold script_of, run. change (script_ V (parse_rec V (fuel_for src)) false (parser_new src))
    with (script_body V (parse_rec V (fuel_for src)) (PSt G_Script [] (lexer_new src) (set_strict No context_new))).
  rewrite E2. reflexivity.
Qed.
Theorem module_strict V src m : module_of V src = Ok m ->
  exists t, strict_of V src = Ok t /\ m = Body (bo_loc t) (bo_dirs t) (map MI_Item (bo_items t)).
Proof.
  intros E. apply run_ok in E as (s' & E).
  change (module_ V (parse_rec V (fuel_for src)) (parser_new src))
    with (module_body V (fuel_for src) (PSt G_Module [] (lexer_new src) (set_strict Yes context_new))) in E.
  assert (rel module_to_strict (PSt G_Module [] (lexer_new src) (set_strict Yes context_new))
            (PSt G_Script [] (lexer_new src) (set_strict Yes context_new))) as r
    by (split; cbn; auto; split; cbn; auto).
  destruct (module_bodies _ module_to_strict_ok V _ _ _ _ _ E r (fun _ => eq_refl)) as (b & s2 & E2 & ->).
  exists b. split; [|reflexivity]. unfold strict_of, run.
  change (script_ V (parse_rec V (fuel_for src)) true (parser_new src))
    with (script_body V (parse_rec V (fuel_for src)) (PSt G_Script [] (lexer_new src) (set_strict Yes context_new))).
  rewrite E2. reflexivity.
Qed.
