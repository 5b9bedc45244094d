(** Proof infrastructure for the parser: token histories, steps between parser
    states, and what the token utilities of src/state.rs do to them. *)
From Coq Require Import String Ascii List NArith Arith Bool Lia.
From Verif Require Import Base Chars F64 Word Token Reader Lexer Punc Ast Track Cover Stack PState Parser Wp
  SpecReader ReaderProofs SpecLexer SpecClient LexWp LexLit LexerProofs LexTheorems SpecStack SpecTree
  SpecGrammar.
Import ListNotations.
Local Open Scope nat_scope.

(** ** Prefixes *)

Definition pre {A} (a b : list A) : Prop := exists c, b = a ++ c.
Lemma pre_refl {A} (a : list A) : pre a a.
Proof. exists []. symmetry; apply app_nil_r. Qed.
Lemma pre_nil {A} (a : list A) : pre [] a.
Proof. exists a. reflexivity. Qed.
Lemma pre_cons {A} (x : A) a b : pre a b -> pre (x :: a) (x :: b).
Proof. intros [c ->]. exists c. reflexivity. Qed.

(** ** Tokens *)

(** Matching against a pattern without literals. *)
Definition plain (d : token_data) : Prop :=
  match d with TPunc _ | TReserved _ | TIdent (NAtom _) => True | _ => False end.
Lemma is_t_true t d : plain d -> is_t t d = true -> tk_value t = d.
Proof.
  unfold is_t. intros Hp. destruct (tk_value t) as [r|p|n|s|r|n], d as [r'|p'|n'|s'|r'|n']; cbn;
    try discriminate; try contradiction.
  - intros H. apply internal_reserved_dec_bl in H. congruence.
  - intros H. apply internal_punc_dec_bl in H. congruence.
  - destruct n as [a|s], n' as [a'|s']; cbn in *; try discriminate; try contradiction.
    intros H. apply internal_atom_dec_bl in H. congruence.
Qed.
Lemma is_t_refl t d : plain d -> tk_value t = d -> is_t t d = true.
Proof.
  intros Hp E. unfold is_t. rewrite E.
  destruct d as [r|p|n|s|r|n]; cbn [plain] in Hp; try contradiction; cbn [td_eqb].
  - exact (internal_reserved_dec_lb r r eq_refl).
  - exact (internal_punc_dec_lb p p eq_refl).
  - destruct n as [a|s]; [|contradiction]. exact (internal_atom_dec_lb a a eq_refl).
Qed.
Lemma is_t_false t d : plain d -> is_t t d = false -> tk_value t <> d.
Proof. intros Hp H E. rewrite (is_t_refl t d Hp E) in H. discriminate. Qed.

Definition is_eof (t : token) : bool := match tk_value t with TPunc T_EOF => true | _ => false end.
(** The number of tokens other than the end of input. *)
Fixpoint W (ts : list token) : nat :=
  match ts with [] => 0 | t :: ts' => (if is_eof t then 0 else 1) + W ts' end.
Lemma W_app a b : W (a ++ b) = W a + W b.
Proof. induction a as [|t a IH]; [reflexivity|]. cbn [app W]. rewrite IH. lia. Qed.
Lemma W_snoc h t : W (h ++ [t]) = W h + (if is_eof t then 0 else 1).
Proof. rewrite W_app. cbn [W]. lia. Qed.
Lemma not_eof t : tk_value t <> TPunc T_EOF -> is_eof t = false.
Proof.
  unfold is_eof. destruct (tk_value t) as [r|p|n|s|r|n]; try reflexivity.
  destruct p; try reflexivity. congruence.
Qed.

(** ** Token sequences *)

Lemma tiles_snoc V src op ops b k ts k1 t k2 : tiles V src ops b k ts k1 ->
  next_token V src op (match ts with [] => b | _ => false end) k1 t k2 ->
  tiles V src (ops ++ [op]) b k (ts ++ [t]) k2.
Proof.
  intros H. induction H as [b k|op' ops b k t' k' ts k'' H1 H2 IH]; intros Hn; cbn [app].
  - econstructor; [exact Hn|constructor].
  - econstructor; [exact H1|]. apply IH. destruct ts; exact Hn.
Qed.

Lemma tiles_W V src ops b k ts k' : tiles V src ops b k ts k' -> k + W ts <= k'.
Proof.
  intros H. induction H as [b k|op ops b k t k1 ts k2 H1 H2 IH]; cbn [W]; [lia|].
  destruct (is_eof t) eqn:E.
  - assert (k <= k1) by (destruct H1 as (ws & w & l & _ & -> & _); lia). lia.
  - assert (k < k1).
    { eapply token_consumes; [exact H1|]. intros Ht. unfold is_eof in E. rewrite Ht in E. discriminate. }
    lia.
Qed.

(** A token of the input. *)
Definition lexed (V : env) (src : str) (t : token) : Prop :=
  exists op b k k', next_token V src op b k t k' /\ k' <= length src.
Lemma tiles_lexed V src ops b k ts k' : tiles V src ops b k ts k' -> k' <= length src ->
  forall t, In t ts -> lexed V src t.
Proof.
  intros H. induction H as [b k|op ops b k t k1 ts k2 H1 H2 IH]; intros Hk t' Hin; [contradiction|].
  destruct Hin as [<-|Hin]; [|apply IH; assumption].
  exists op, b, k, k1. split; [exact H1|]. apply tiles_W in H2. lia.
Qed.

Lemma lexed_string V src t s : lexed V src t -> tk_value t = TString s ->
  exists q r, (q = 34%N \/ q = 39%N) /\ str_source s = Some (q :: r).
Proof.
  intros (op & b & k & k' & (ws & w & l & _ & _ & _ & Hl & _) & _) Ht. rewrite Ht in Hl.
  inversion Hl; subst. eexists _, _. split; [eassumption|reflexivity].
Qed.

Section Parser.
Context (V : env) (src : str).
Context (HV : ucd_ok V).
Notation L := (length src).

Definition ahead (s : pst) : list token := lx_ahead (p_lexer s).

(** The parser has consumed exactly the tokens [h], and has looked at [ahead s]. *)
Definition At (h : list token) (s : pst) : Prop :=
  (exists ops k, tiles V src ops true 0 (h ++ ahead s) k
     /\ rd_at src k (lx_rd (p_lexer s))
     /\ lx_empty_line (p_lexer s) = match h ++ ahead s with [] => true | _ => false end)
  /\ length (ahead s) <= 2.

Lemma At_W h s : At h s -> W h <= L.
Proof.
  intros ((ops & k & Ht & (Hk & _) & _) & _). apply tiles_W in Ht. rewrite W_app in Ht. lia.
Qed.
Lemma At_lexed h s t : At h s -> In t (h ++ ahead s) -> lexed V src t.
Proof.
  intros ((ops & k & Ht & (Hk & _) & _) & _) Hin. eapply tiles_lexed; eassumption.
Qed.

Definition rel : Type := tokens -> tokens -> Prop.
Definition seq (R1 R2 : rel) : rel := fun i o => exists m, R1 i m /\ R2 m o.
Definition one (t : token) : rel := fun i o => i = t :: o.
(** Nothing consumed, and what follows satisfies [P]. *)
Definition look (P : tokens -> Prop) : rel := fun i o => i = o /\ P o.
Definition starts (t : token) (o : tokens) : Prop := exists r, o = t :: r.

(** From [s], with [h] consumed, to [s'], with [h'] consumed; the tokens consumed in
    between are related by [R] to whatever may follow. *)
Definition step (h : list token) (s : pst) (h' : list token) (s' : pst) (R : rel) : Prop :=
  At h' s' /\ W h <= W h' /\ W h' <= L
  /\ exists ts, h' = h ++ ts
     /\ forall out, pre (ahead s') out -> pre (ahead s) (ts ++ out) /\ R (ts ++ out) out.

Lemma step_refl h s : At h s -> step h s h s eq.
Proof.
  intros H. split; [exact H|]. split; [lia|]. split; [exact (At_W _ _ H)|].
  exists []. split; [symmetry; apply app_nil_r|]. intros out Ho. cbn. auto.
Qed.
Lemma step_seq h s h1 s1 h2 s2 R1 R2 : step h s h1 s1 R1 -> step h1 s1 h2 s2 R2 ->
  step h s h2 s2 (seq R1 R2).
Proof.
  intros (A1 & Ha1 & Hb1 & ts1 & E1 & H1) (A2 & Ha2 & Hb2 & ts2 & E2 & H2).
  split; [exact A2|]. split; [lia|]. split; [exact Hb2|].
  exists (ts1 ++ ts2). split; [subst; rewrite app_assoc; reflexivity|].
  intros out Ho. destruct (H2 out Ho) as [P2 Q2]. destruct (H1 _ P2) as [P1 Q1].
  rewrite <- app_assoc. split; [exact P1|]. eexists. split; eassumption.
Qed.
Lemma step_weaken h s h' s' (R R' : rel) : step h s h' s' R -> (forall i o, R i o -> R' i o) ->
  step h s h' s' R'.
Proof.
  intros (A & Ha & Hb & ts & E & H) HR. split; [exact A|]. split; [exact Ha|]. split; [exact Hb|].
  exists ts. split; [exact E|]. intros out Ho. destruct (H out Ho). auto.
Qed.
Lemma step_At h s h' s' R : step h s h' s' R -> At h' s'.
Proof. intros [H _]. exact H. Qed.
(** [step] sees only the lexer of its states. *)
Lemma step_lexer h s h' s' R s2 s2' : step h s h' s' R -> p_lexer s2 = p_lexer s ->
  p_lexer s2' = p_lexer s' -> step h s2 h' s2' R.
Proof. unfold step, At, ahead. intros H -> ->. exact H. Qed.
Lemma At_lexer h s s2 : At h s -> p_lexer s2 = p_lexer s -> At h s2.
Proof. unfold At, ahead. intros H ->. exact H. Qed.

(** The tokens of a step are tokens of the input. *)
Lemma step_lexed h s h' s' (R : rel) : step h s h' s' R ->
  step h s h' s' (fun i o => R i o /\ exists ts, i = ts ++ o /\ Forall (lexed V src) ts).
Proof.
  intros (A & Ha & Hb & ts & E & H). split; [exact A|]. split; [exact Ha|]. split; [exact Hb|].
  exists ts. split; [exact E|]. intros out Ho. destruct (H out Ho) as [H1 H2].
  split; [exact H1|]. split; [exact H2|]. exists ts. split; [reflexivity|].
  apply Forall_forall. intros t Ht. eapply At_lexed; [exact A|]. subst.
  apply in_or_app. left. apply in_or_app. right. exact Ht.
Qed.

(** ** Contexts *)

Definition mode_of (s : pst) : mode :=
  match cx_strict (p_context s) with
  | Yes => match p_goal s with G_Module => Module_ | _ => Strict end
  | _ => Sloppy
  end.
Definition label_loops (t : label_type) : bool :=
  match t with LT_Iteration => true | LT_Statement => false end.

(** The state stands at the place [g]. *)
Definition at_place (g : place) (s : pst) : Prop :=
  pl_mode g = mode_of s /\ pl_fun g = cx_function (p_context s)
  /\ pl_loop g = cx_iteration (p_context s) /\ pl_switch g = cx_switch (p_context s)
  /\ pl_in g = cx_allow_in (p_context s)
  /\ (forall n v, labels_get (cx_labels (p_context s)) n = Some v ->
        label_in (pl_labels g) n (label_loops v)).

(** [s'] has the context of [s], but possibly fewer labels. *)
Definition sub (s' s : pst) : Prop :=
  p_goal s' = p_goal s /\ cx_strict (p_context s') = cx_strict (p_context s)
  /\ cx_function (p_context s') = cx_function (p_context s)
  /\ cx_iteration (p_context s') = cx_iteration (p_context s)
  /\ cx_switch (p_context s') = cx_switch (p_context s)
  /\ cx_allow_in (p_context s') = cx_allow_in (p_context s)
  /\ (forall n v, labels_get (cx_labels (p_context s')) n = Some v ->
        labels_get (cx_labels (p_context s)) n = Some v).
Lemma sub_refl s : sub s s.
Proof. repeat split; auto. Qed.
Lemma sub_trans s2 s1 s0 : sub s2 s1 -> sub s1 s0 -> sub s2 s0.
Proof.
  intros (A1 & A2 & A3 & A4 & A5 & A6 & A7) (B1 & B2 & B3 & B4 & B5 & B6 & B7).
  repeat split; try congruence. intros n v H. apply B7, A7, H.
Qed.
Lemma at_place_sub g s s' : at_place g s -> sub s' s -> at_place g s'.
Proof.
  intros (A1 & A2 & A3 & A4 & A5 & A6) (B1 & B2 & B3 & B4 & B5 & B6 & B7).
  unfold at_place, mode_of. rewrite B1, B2, B3, B4, B5, B6.
  split; [exact A1|]. split; [exact A2|]. split; [exact A3|]. split; [exact A4|]. split; [exact A5|].
  intros n v H. apply A6, B7, H.
Qed.
Lemma sub_context s s' : p_goal s' = p_goal s -> p_context s' = p_context s -> sub s' s.
Proof. unfold sub. intros -> ->. repeat split; auto. Qed.
Lemma sub_lexer x s : sub (set_lexer x s) s.
Proof. apply sub_context; reflexivity. Qed.
#[local] Hint Resolve sub_refl : core.

(** ** Outcomes *)

(** Panics: those of the lexer. *)
Definition Kp (k : panic) : Prop :=
  (k = P_read_eof /\ (ends_in_escape src \/ ends_in_regexp src))
  \/ (k = P_overflow /\ overflow_checks V = true /\ has_long_escape src).
Definition anyP (e : perror) : Prop := True.
Definition wpP {A} (m : P A) (s : pst) (Q : A -> pst -> Prop) : Prop := wp m s Q anyP Kp.

Lemma wpP_bind {A B} (m : P A) (f : A -> P B) s (Q : B -> pst -> Prop) (Q1 : A -> pst -> Prop) :
  wpP m s Q1 -> (forall a s', Q1 a s' -> wpP (f a) s' Q) -> wpP (bind m f) s Q.
Proof. intros H1 H2. apply wp_bind. eapply wp_conseq; [exact H1|exact H2]. Qed.
Lemma wpP_ret {A} (a : A) s (Q : A -> pst -> Prop) : Q a s -> wpP (ret a) s Q.
Proof. apply wp_ret. Qed.
Lemma wpP_err {A} e s (Q : A -> pst -> Prop) : wpP (err e) s Q.
Proof. apply wp_err. exact I. Qed.
Lemma wpP_conseq {A} (m : P A) s (Q Q' : A -> pst -> Prop) :
  wpP m s Q' -> (forall a s', Q' a s' -> Q a s') -> wpP m s Q.
Proof. apply wp_conseq. Qed.
Lemma wpP_gets {A B} (f : pst -> A) (k : A -> P B) s (Q : B -> pst -> Prop) :
  wpP (k (f s)) s Q -> wpP (bind (gets f) k) s Q.
Proof. intros H. exact H. Qed.
Lemma wpP_modify {B} (f : pst -> pst) (k : unit -> P B) s (Q : B -> pst -> Prop) :
  wpP (k tt) (f s) Q -> wpP (bind (modify f) k) s Q.
Proof. intros H. exact H. Qed.
Lemma wpP_get_context {B} (k : context -> P B) s (Q : B -> pst -> Prop) :
  wpP (k (p_context s)) s Q -> wpP (bind get_context k) s Q.
Proof. intros H. exact H. Qed.
Lemma wpP_posn {B} (k : posn -> P B) s (Q : B -> pst -> Prop) :
  (forall p, wpP (k p) s Q) -> wpP (bind p_posn k) s Q.
Proof. intros H. apply H. Qed.
Lemma wpP_assoc {A B C} (m : P A) (f : A -> P B) (k : B -> P C) s (Q : C -> pst -> Prop) :
  wpP (bind m (fun a => bind (f a) k)) s Q -> wpP (bind (bind m f) k) s Q.
Proof. unfold wpP, wp. rewrite bind_bind. intros H; exact H. Qed.

(** Loops, with a bound on the number of remaining iterations. *)
Lemma wpP_loop {A B} (body : A -> P (A + B)) (I : nat -> A -> pst -> Prop) (Q : B -> pst -> Prop) :
  (forall n a s, I n a s ->
     wpP (body a) s (fun x s' => match x with
                                 | inl a' => exists n', n' < n /\ I n' a' s'
                                 | inr b => Q b s'
                                 end)) ->
  forall fuel n a s, I n a s -> n < fuel -> wpP (loopM fuel body a) s Q.
Proof.
  intros Hb. induction fuel as [|fuel IH]; intros n a s HI Hn; [lia|].
  cbn [loopM]. eapply wpP_bind; [exact (Hb n a s HI)|].
  intros [a'|b] s'; cbn beta iota.
  - intros (n' & Hlt & HI'). apply (IH n'); [exact HI'|lia].
  - intros HQ. apply wpP_ret, HQ.
Qed.

(** ** Lexer operations *)

Lemma lex_ok {A} (m : XM A) s (Q : A -> pst -> Prop) :
  wp m (p_lexer s) (fun a x => Q a (set_lexer x s)) anyE Kp -> wpP (lex m) s Q.
Proof.
  unfold wpP, wp, lex. destruct (m (p_lexer s)) as [[a x]|e|k|]; auto.
Qed.

Lemma skipn_pre k : exists u : str, src = u ++ skipn k src.
Proof. exists (firstn k src). symmetry. apply firstn_skipn. Qed.
Lemma Ktok_Kp op k p : Ktok V op (skipn k src) p -> Kp p.
Proof.
  destruct (skipn_pre k) as [u Hu].
  intros [[(-> & (v & ds & E & Hd))|(-> & Hc & (v & ds & w & E & Hd & Hl))]|(-> & _ & (v & b & E & Hb))].
  - left. split; [reflexivity|]. left. exists (u ++ v), ds. split; [|exact Hd].
    rewrite Hu at 1. rewrite E. rewrite !app_assoc. reflexivity.
  - right. split; [reflexivity|]. split; [exact Hc|]. exists (u ++ v), ds, w.
    split; [|split; assumption]. rewrite Hu at 1. rewrite E. rewrite !app_assoc. reflexivity.
  - left. split; [reflexivity|]. right. exists (u ++ v), b. split; [|exact Hb].
    rewrite Hu at 1. rewrite E. rewrite !app_assoc. reflexivity.
Qed.

(** Reading one more token when nothing has been looked at. *)
Lemma read_next_ok op h s : At h s -> ahead s = [] ->
  wp (read_next_token V op) (p_lexer s)
     (fun t x => lx_ahead x = []
        /\ At (h ++ [t]) (set_lexer (Lexer (lx_rd x) [] (lx_empty_line x)) s)
        /\ At h (set_lexer (Lexer (lx_rd x) [t] (lx_empty_line x)) s)) anyE Kp.
Proof.
  intros ((ops & k & Ht & Hat & He) & Hlen) Ha. rewrite Ha, app_nil_r in Ht, He.
  eapply wp_mono; [apply (read_next_token_spec V src op (p_lexer s) k (ucd_start_part V HV) Hat)| | |].
  - intros t x (k' & Hn & Hat' & Hla & He'). unfold ahead in Ha. rewrite Ha in Hla.
    split; [exact Hla|].
    assert (Hsn : tiles V src (ops ++ [op]) true 0 (h ++ [t]) k').
    { eapply tiles_snoc; [exact Ht|]. rewrite He in Hn. exact Hn. }
    assert (Hne : forall (A : Type) (l : list A) a (u v : bool),
      match l ++ [a] with [] => u | _ => v end = v) by (intros A [|a0 l] a u v; reflexivity).
    split; (split; [exists (ops ++ [op]), k'|cbn; lia]); cbn [ahead set_lexer p_lexer lx_ahead lx_rd lx_empty_line];
      rewrite ?app_nil_r, Hne; auto.
  - intros e _. exact I.
  - intros k0. apply Ktok_Kp.
Qed.

Definition same (s' s : pst) : Prop := p_goal s' = p_goal s /\ p_context s' = p_context s.
Lemma same_sub s' s : same s' s -> sub s' s.
Proof. intros [H1 H2]. apply sub_context; assumption. Qed.
Lemma same_trans s2 s1 s0 : same s2 s1 -> same s1 s0 -> same s2 s0.
Proof. intros [H1 H2] [H3 H4]. split; congruence. Qed.
Lemma same_refl s : same s s.
Proof. split; reflexivity. Qed.

(** What reading a token does. *)
Definition readQ (h : list token) (s : pst) (t : token) (s' : pst) : Prop :=
  step h s (h ++ [t]) s' (one t) /\ same s' s
  /\ length (ahead s') <= 1 /\ length (ahead s') <= pred (length (ahead s)).
(** What looking at the next token does. *)
Definition peekQ (h : list token) (s : pst) (t : token) (s' : pst) : Prop :=
  step h s h s' (look (starts t)) /\ same s' s
  /\ (exists r, ahead s' = t :: r) /\ length (ahead s') <= Nat.max 1 (length (ahead s)).

Lemma step_one h s t s' : At (h ++ [t]) s' -> pre (ahead s) (t :: ahead s') ->
  step h s (h ++ [t]) s' (one t).
Proof.
  intros HA [c Hc]. split; [exact HA|]. split; [rewrite W_snoc; lia|].
  split; [eapply At_W, HA|]. exists [t]. split; [reflexivity|].
  intros out [d ->]. cbn [app]. split; [|reflexivity].
  exists (c ++ d). rewrite app_assoc, <- Hc. reflexivity.
Qed.
Lemma step_look h s t s' r : At h s' -> ahead s' = t :: r -> pre (ahead s) (t :: r) ->
  step h s h s' (look (starts t)).
Proof.
  intros HA Ha [c Hc]. split; [exact HA|]. split; [lia|]. split; [eapply At_W, HA|].
  exists []. split; [symmetry; apply app_nil_r|]. rewrite Ha.
  intros out [d ->]. cbn [app]. split.
  - exists (c ++ d). change (t :: r ++ d) with ((t :: r) ++ d). rewrite Hc, <- app_assoc. reflexivity.
  - split; [reflexivity|]. eexists. reflexivity.
Qed.

Lemma set_lexer_same x s : same (set_lexer x s) s.
Proof. split; reflexivity. Qed.

Lemma read_tok_ok op h s : At h s -> wpP (lex (read_token V op)) s (readQ h s).
Proof.
  intros HA. apply lex_ok. unfold wp, read_token, bind, gets.
  destruct (lx_ahead (p_lexer s)) as [|t la] eqn:Hla.
  - pose proof (read_next_ok op h s HA Hla) as H. unfold wp in H.
    destruct (read_next_token V op (p_lexer s)) as [[t [r la e]]|e|k|]; auto.
    cbn in H. destruct H as [-> [H1 _]]. cbn in H1.
    split; [|split; [apply set_lexer_same|unfold ahead; rewrite ?Hla; cbn; lia]].
    apply step_one; [exact H1|]. unfold ahead. rewrite Hla. apply pre_nil.
  - unfold modify, ret. assert (Hlen := proj2 HA). unfold ahead in Hlen. rewrite Hla in Hlen. cbn in Hlen.
    split; [|split; [apply set_lexer_same|unfold ahead; rewrite ?Hla; cbn; lia]].
    apply step_one; [|unfold ahead; rewrite Hla; apply pre_refl].
    destruct HA as ((ops & k & Ht & Hat & He) & _). split; [|cbn; lia].
    exists ops, k. unfold ahead in Ht, He |- *. rewrite Hla in Ht, He. cbn.
    rewrite <- app_assoc. cbn [app]. auto.
Qed.
Lemma p_read_ok h s : At h s -> wpP (p_read V) s (readQ h s).
Proof. apply read_tok_ok. Qed.
Lemma p_read_op_ok h s : At h s -> wpP (p_read_op V) s (readQ h s).
Proof. apply read_tok_ok. Qed.

Lemma peek_tok_ok op h s : At h s -> wpP (lex (peek_token V op)) s (peekQ h s).
Proof.
  intros HA. apply lex_ok. unfold wp, peek_token, bind, gets.
  destruct (lx_ahead (p_lexer s)) as [|t la] eqn:Hla.
  - pose proof (read_next_ok op h s HA Hla) as H. unfold wp in H.
    destruct (read_next_token V op (p_lexer s)) as [[t [r la e]]|e|k|]; auto.
    cbn in H. destruct H as [-> [_ H1]]. cbn in H1 |- *.
    split; [|split; [apply set_lexer_same|split; [exists []; reflexivity|apply Nat.le_max_l]]].
    apply (step_look _ _ _ _ []); [exact H1|reflexivity|]. unfold ahead. rewrite Hla. apply pre_nil.
  - unfold ret. split; [|split; [apply set_lexer_same|split; [exists la; exact Hla|]]].
    + apply (step_look _ _ _ _ la); [|exact Hla|unfold ahead; rewrite Hla; apply pre_refl].
      eapply At_lexer; [exact HA|reflexivity].
    + apply Nat.le_max_r.
Qed.
Lemma p_peek_ok h s : At h s -> wpP (p_peek V) s (peekQ h s).
Proof. apply peek_tok_ok. Qed.
Lemma p_peek_op_ok h s : At h s -> wpP (p_peek_op V) s (peekQ h s).
Proof. apply peek_tok_ok. Qed.

Lemma p_skip_ok h s : At h s -> wpP (p_skip V) s (fun _ s' => exists t, readQ h s t s').
Proof.
  intros HA. pose proof (read_tok_ok false h s HA) as H.
  unfold p_skip, skip_token, wpP, wp, lex, bind, ret in *.
  destruct (read_token V false (p_lexer s)) as [[t x]|e|k|]; auto. exists t. exact H.
Qed.

(** Taking a token that was looked at. *)
Definition rereadQ (h : list token) (s : pst) (t : token) (t' : token) (s' : pst) : Prop :=
  t' = t /\ readQ h s t s' /\ ahead s = t :: ahead s'.
Lemma p_reread_token_ok h s t r : At h s -> ahead s = t :: r ->
  wpP p_reread_token s (rereadQ h s t).
Proof.
  intros HA Ha. apply lex_ok. unfold wp, reread_token, bind, gets.
  unfold ahead in Ha. rewrite Ha. unfold modify, ret. cbn.
  assert (Hlen := proj2 HA). unfold ahead in Hlen. rewrite Ha in Hlen. cbn in Hlen.
  split; [reflexivity|]. split; [|exact Ha].
  split; [|split; [apply set_lexer_same|unfold ahead; rewrite Ha; cbn; lia]].
  apply step_one; [|unfold ahead; rewrite Ha; apply pre_refl].
  destruct HA as ((ops & k & Ht & Hat & He) & _). split; [|cbn; lia].
  exists ops, k. unfold ahead in Ht, He |- *. rewrite Ha in Ht, He. cbn.
  rewrite <- app_assoc. cbn [app]. auto.
Qed.
Lemma p_reread_ok d h s t r : At h s -> ahead s = t :: r -> is_t t d = true ->
  wpP (p_reread d) s (rereadQ h s t).
Proof.
  intros HA Ha Hd. pose proof (p_reread_token_ok h s t r HA Ha) as H.
  replace (wpP (p_reread d) s (rereadQ h s t)) with (wpP p_reread_token s (rereadQ h s t)); [exact H|].
  unfold wpP, wp. replace (p_reread d s) with (p_reread_token s); [reflexivity|].
  destruct s as [g df [rd la e] c]. unfold ahead in Ha. cbn in Ha. subst la.
  unfold p_reread, bind, lex, repeek_token, gets. cbn. rewrite Hd. reflexivity.
Qed.

(** Pushing a token back. *)
Lemma p_unread_ok h s t s1 s2 (P : tokens -> Prop) :
  step h s (h ++ [t]) s1 (one t) -> step (h ++ [t]) s1 (h ++ [t]) s2 (look P) ->
  length (ahead s2) <= 1 ->
  wpP (p_unread t) s2
      (fun _ s3 => step h s h s3 (look (fun o => exists o', o = t :: o' /\ P o'))
                   /\ same s3 s2 /\ ahead s3 = t :: ahead s2).
Proof.
  intros S1 S2 Hlen. unfold p_unread. apply lex_ok. unfold wp, unread_token, bind, gets.
  unfold ahead in Hlen. replace (Nat.ltb (length (lx_ahead (p_lexer s2))) lookahead_capacity) with true.
  2:{ symmetry. apply Nat.ltb_lt. unfold lookahead_capacity. lia. }
  unfold modify. split; [|split; [apply set_lexer_same|reflexivity]].
  assert (A2 := step_At _ _ _ _ _ S2).
  assert (A3 : At h (set_lexer (Lexer (lx_rd (p_lexer s2)) (t :: lx_ahead (p_lexer s2))
                                      (lx_empty_line (p_lexer s2))) s2)).
  { destruct A2 as ((ops & k & Ht & Hat & He) & _). split; [|cbn; lia].
    exists ops, k. unfold ahead in *. cbn. rewrite <- app_assoc in Ht, He. auto. }
  split; [exact A3|]. split; [lia|]. split; [eapply At_W, A3|].
  exists []. split; [symmetry; apply app_nil_r|]. intros out Ho.
  destruct Ho as [d Hd]. cbn in Hd. subst out. cbn [app].
  destruct S1 as (_ & _ & _ & ts1 & E1 & H1). destruct S2 as (_ & _ & _ & ts2 & E2 & H2).
  assert (ts1 = [t]) by (apply app_inv_head in E1; congruence). subst ts1.
  assert (ts2 = []).
  { rewrite <- (app_nil_r (h ++ [t])) in E2 at 1. apply app_inv_head in E2. congruence. }
  subst ts2. destruct (H2 (lx_ahead (p_lexer s2) ++ d)) as [P2 [_ Q2]]; [exists d; reflexivity|].
  cbn [app] in P2, Q2. destruct (H1 _ P2) as [P1 _]. split; [exact P1|].
  split; [reflexivity|]. eexists. split; [reflexivity|exact Q2].
Qed.
(** ... immediately after reading it *)
Lemma p_unread_now h s t s1 : readQ h s t s1 ->
  wpP (p_unread t) s1
      (fun _ s2 => step h s h s2 (look (starts t)) /\ same s2 s1 /\ ahead s2 = t :: ahead s1).
Proof.
  intros (S1 & _ & Hlen & _).
  assert (S2 : step (h ++ [t]) s1 (h ++ [t]) s1 (look (fun _ => True))).
  { eapply step_weaken; [apply step_refl, (step_At _ _ _ _ _ S1)|]. intros i o ->. split; auto. }
  eapply wpP_conseq; [apply (p_unread_ok _ _ _ _ _ _ S1 S2 Hlen)|].
  intros _ s2 (S3 & Hs & Ha). split; [|split; assumption].
  eapply step_weaken; [exact S3|]. intros i o (-> & o' & -> & _). split; [reflexivity|eexists; reflexivity].
Qed.

(** ** Derived utilities *)

(** Progress: at least one token other than the end of input is consumed. *)
Definition post1 {A} (h : list token) (s : pst) (R : A -> rel) (a : A) (s' : pst) : Prop :=
  exists h', step h s h' s' (R a) /\ W h < W h' /\ sub s' s.
Definition post0 {A} (h : list token) (s : pst) (R : A -> rel) (a : A) (s' : pst) : Prop :=
  exists h', step h s h' s' (R a) /\ sub s' s.
Lemma post1_0 {A} h s (R : A -> rel) a s' : post1 h s R a s' -> post0 h s R a s'.
Proof. intros (h' & H1 & _ & H2). exists h'. auto. Qed.

(** A token matched. *)
Definition tookQ (h : list token) (s : pst) (d : token_data) (t : token) (s' : pst) : Prop :=
  readQ h s t s' /\ tk_value t = d /\ (d <> TPunc T_EOF -> W h < W (h ++ [t])).
Lemma took_of h s d t s' : plain d -> readQ h s t s' -> is_t t d = true -> tookQ h s d t s'.
Proof.
  intros Hp H Ht. apply is_t_true in Ht; [|exact Hp]. split; [exact H|]. split; [exact Ht|].
  intros Hd. rewrite W_snoc, not_eof; [lia|congruence].
Qed.
Lemma took_step h s d t s' : tookQ h s d t s' -> step h s (h ++ [t]) s' (eat d).
Proof.
  intros ((S1 & _) & Ht & _). eapply step_weaken; [exact S1|]. intros i o ->. exists t. auto.
Qed.
(** A token looked at and not matched. *)
Definition leftQ (h : list token) (s : pst) (t : token) (s' : pst) : Prop :=
  step h s h s' (look (starts t)) /\ same s' s /\ exists r, ahead s' = t :: r.

Lemma p_expect_ok d h s : plain d -> At h s -> wpP (p_expect V d) s (tookQ h s d).
Proof.
  intros Hp HA. eapply wpP_bind; [apply p_read_ok, HA|]. intros t s1 H1.
  destruct (is_t t d) eqn:E; [|apply wpP_err]. apply wpP_ret. apply took_of; assumption.
Qed.

Lemma p_matches_gen op d h s : plain d -> At h s ->
  wpP (t <- lex (read_token V op) ;; if is_t t d then ret true else p_unread t ;;; ret false) s
      (fun b s' => exists t, if b : bool then tookQ h s d t s' else leftQ h s t s' /\ tk_value t <> d).
Proof.
  intros Hp HA. eapply wpP_bind; [apply read_tok_ok, HA|]. intros t s1 H1.
  destruct (is_t t d) eqn:E.
  - apply wpP_ret. exists t. apply took_of; assumption.
  - eapply wpP_bind; [apply p_unread_now, H1|]. intros _ s2 (S2 & Hs & Ha). apply wpP_ret.
    exists t. split; [|apply is_t_false; assumption]. split; [exact S2|].
    split; [eapply same_trans; [exact Hs|apply H1]|eexists; exact Ha].
Qed.
Lemma p_matches_ok d h s : plain d -> At h s ->
  wpP (p_matches V d) s
      (fun b s' => exists t, if b : bool then tookQ h s d t s' else leftQ h s t s' /\ tk_value t <> d).
Proof. apply (p_matches_gen false). Qed.
Lemma p_matches_op_ok d h s : plain d -> At h s ->
  wpP (p_matches_op V d) s
      (fun b s' => exists t, if b : bool then tookQ h s d t s' else leftQ h s t s' /\ tk_value t <> d).
Proof. apply (p_matches_gen true). Qed.

Lemma p_matches_token_ok d h s : plain d -> At h s ->
  wpP (p_matches_token V d) s
      (fun o s' => match o with
                   | Some t => tookQ h s d t s'
                   | None => exists t, leftQ h s t s' /\ tk_value t <> d
                   end).
Proof.
  intros Hp HA. eapply wpP_bind; [apply p_read_ok, HA|]. intros t s1 H1.
  destruct (is_t t d) eqn:E.
  - apply wpP_ret. apply took_of; assumption.
  - eapply wpP_bind; [apply p_unread_now, H1|]. intros _ s2 (S2 & Hs & Ha). apply wpP_ret.
    exists t. split; [|apply is_t_false; assumption]. split; [exact S2|].
    split; [eapply same_trans; [exact Hs|apply H1]|eexists; exact Ha].
Qed.

(** [unexpected] fails. *)
Lemma unexpected_ok {A} h s t r (Q : A -> pst -> Prop) : At h s -> ahead s = t :: r ->
  wpP unexpected s Q.
Proof.
  intros HA Ha. eapply wpP_bind; [eapply p_reread_token_ok; eassumption|]. intros; apply wpP_err.
Qed.

Lemma p_span_ok {A} (set : A -> loc -> A) (m : P A) s (Q : A -> pst -> Prop) :
  wpP m s (fun v s' => forall l, Q (set v (Some l)) s') -> wpP (p_span set m) s Q.
Proof.
  intros H. unfold p_span. apply wpP_posn. intros p. eapply wpP_bind; [exact H|].
  intros v s1 H1. apply wpP_posn. intros p'. apply wpP_ret, H1.
Qed.

Definition is_lax (nl : newline) : bool := match nl with NL_Required => false | NL_Optional => true end.
Lemma end_with_auto_semi_ok {A} (set : A -> loc -> A) start nl (cons : semi -> A) h s : At h s ->
  wpP (end_with_auto_semi V set start nl cons) s
      (fun v s' => exists h' sm l, v = set (cons sm) (Some l)
         /\ step h s h' s' (fun i o => ends (is_lax nl) i o sm) /\ sub s' s).
Proof.
  intros HA. unfold end_with_auto_semi. apply wpP_posn. intros before.
  eapply wpP_bind; [apply p_peek_ok, HA|]. intros t s1 (S1 & Hs1 & (r & Ha) & _).
  assert (A1 := step_At _ _ _ _ _ S1).
  destruct (is_t t (TPunc T_Semi)) eqn:E1.
  - eapply wpP_bind; [eapply p_reread_ok; eassumption|]. intros t' s2 (-> & (S2 & Hs2 & _) & _).
    apply wpP_posn. intros e. apply wpP_ret. exists (h ++ [t]). do 2 eexists. split; [reflexivity|].
    split; [|eapply sub_trans; apply same_sub; eassumption].
    eapply step_weaken; [apply (step_seq _ _ _ _ _ _ _ _ S1 S2)|].
    intros i o (m & (-> & _) & ->). apply is_t_true in E1; [|exact I]. constructor. exact E1.
  - apply is_t_false in E1; [|exact I].
    assert (Hins : forall (b : bool), (tk_value t = TPunc T_RBrace \/ tk_value t = TPunc T_EOF
      \/ tk_newline t = true \/ is_lax nl = true) ->
      step h s h s1 (fun i o => ends (is_lax nl) i o Inserted)).
    { intros _ Hor. eapply step_weaken; [exact S1|]. intros i o (-> & r' & ->).
      apply en_inserted; assumption. }
    destruct (is_t t (TPunc T_RBrace) || is_t t (TPunc T_EOF)) eqn:E2.
    + apply wpP_ret. exists h, Inserted. eexists. split; [reflexivity|].
      split; [|apply same_sub, Hs1]. apply (Hins true).
      apply orb_true_iff in E2 as [E2|E2]; apply is_t_true in E2; auto; exact I.
    + destruct nl; cbn [is_lax] in *.
      * destruct (tk_newline t) eqn:Hn; cbn [negb].
        -- apply wpP_ret. exists h, Inserted. eexists. split; [reflexivity|].
           split; [|apply same_sub, Hs1]. apply (Hins true). auto.
        -- eapply wpP_bind; [apply p_read_ok, A1|]. intros; apply wpP_err.
      * apply wpP_ret. exists h, Inserted. eexists. split; [reflexivity|].
        split; [|apply same_sub, Hs1]. apply (Hins true). auto.
Qed.

Lemma p_has_arg_same_line_ok h s : At h s ->
  wpP (p_has_arg_same_line V) s
      (fun b s' => exists t, leftQ h s t s' /\ (if b : bool then ~ no_arg t else no_arg t)).
Proof.
  intros HA. eapply wpP_bind; [apply p_peek_ok, HA|]. intros t s1 (S1 & Hs1 & Ha & _).
  apply wpP_ret. exists t. split; [split; auto|]. unfold no_arg.
  destruct (tk_newline t); cbn [negb andb]; [auto|].
  destruct (is_t t (TPunc T_Semi)) eqn:E1; cbn [negb andb].
  { apply is_t_true in E1; [auto|exact I]. }
  destruct (is_t t (TPunc T_RBrace)) eqn:E2; cbn [negb andb].
  { apply is_t_true in E2; [auto|exact I]. }
  apply is_t_false in E1; [|exact I]. apply is_t_false in E2; [|exact I].
  intros [H|[H|H]]; congruence.
Qed.

(** ** Contexts *)

Lemma at_place_in g s b : at_place g s ->
  at_place (with_in b g) (set_context (set_allow_in b (p_context s)) s).
Proof. intros (A1 & A2 & A3 & A4 & A5 & A6). repeat split; assumption. Qed.

Lemma p_allow_in_ok {A} b (m : P A) s (Q : A -> pst -> Prop) (Q1 : A -> pst -> Prop) :
  wpP m (set_context (set_allow_in b (p_context s)) s) Q1 ->
  (forall a s', Q1 a s' ->
     Q a (set_context (set_allow_in (cx_allow_in (p_context s)) (p_context s')) s')) ->
  wpP (p_allow_in b m) s Q.
Proof.
  intros H HQ. unfold p_allow_in. apply wpP_get_context.
  apply (wpP_modify (fun s0 => set_context (set_allow_in b (p_context s0)) s0)).
  eapply wpP_bind; [exact H|]. intros a s1 H1.
  apply (wpP_modify (fun s0 => set_context (set_allow_in (cx_allow_in (p_context s)) (p_context s0)) s0)).
  apply wpP_ret, HQ, H1.
Qed.
Lemma sub_allow_in b s s1 : sub s1 (set_context (set_allow_in b (p_context s)) s) ->
  sub (set_context (set_allow_in (cx_allow_in (p_context s)) (p_context s1)) s1) s.
Proof. intros (A1 & A2 & A3 & A4 & A5 & A6 & A7). repeat split; assumption. Qed.

(** [allow_in] around a computation that makes progress. *)
Lemma allow_in1 {A} b (m : P A) h s (R : A -> rel) :
  wpP m (set_context (set_allow_in b (p_context s)) s)
      (post1 h (set_context (set_allow_in b (p_context s)) s) R) ->
  wpP (p_allow_in b m) s (post1 h s R).
Proof.
  intros H. eapply p_allow_in_ok; [exact H|]. intros a s1 (h1 & S1 & Hw & Hsub).
  exists h1. split; [|split; [exact Hw|eapply sub_allow_in, Hsub]].
  eapply step_lexer; [exact S1|reflexivity|reflexivity].
Qed.

(** ** Names *)

Lemma strict_check_ok f h s (Pr : Prop) : At h s ->
  wp f s (fun k s' => s' = s /\ (mode_of s <> Sloppy ->
     match k with
     | Some (Ck_Strict _) => True
     | Some (Ck_Module _) => mode_of s = Strict -> Pr
     | None => Pr
     end)) anyP Kp ->
  (mode_of s = Sloppy -> Pr) ->
  wpP (strict_check f) s (fun _ s' => same s' s /\ p_lexer s' = p_lexer s /\ Pr).
Proof.
  intros HA Hf Hs. unfold strict_check. apply wpP_get_context.
  assert (Hsl : cx_strict (p_context s) <> Yes -> Pr).
  { intros H. apply Hs. unfold mode_of. destruct (cx_strict (p_context s)); congruence. }
  destruct (tri_eqb (cx_strict (p_context s)) No) eqn:E.
  - apply wpP_ret. split; [apply same_refl|]. split; [reflexivity|].
    apply Hsl. destruct (cx_strict (p_context s)); discriminate.
  - eapply wpP_bind; [apply Hf|]. intros k s1 (-> & Hk). destruct k as [[e|e]|].
    + destruct (tri_eqb (cx_strict (p_context s)) Yes) eqn:E2; [apply wpP_err|].
      split; [split; reflexivity|]. split; [reflexivity|]. apply Hsl.
      intros H. rewrite H in E2. discriminate.
    + apply wpP_gets. destruct (goal_eqb (p_goal s) G_Module) eqn:E3; [apply wpP_err|].
      assert (HP : Pr).
      { destruct (cx_strict (p_context s)) eqn:Hst; try (apply Hsl; congruence).
        assert (Hm : mode_of s = Strict).
        { unfold mode_of. rewrite Hst. destruct (p_goal s); try reflexivity. discriminate. }
        apply Hk; [rewrite Hm; discriminate|exact Hm]. }
      destruct (negb (goal_eqb (p_goal s) G_Script)).
      * split; [split; reflexivity|]. split; [reflexivity|exact HP].
      * apply wpP_ret. split; [apply same_refl|]. split; [reflexivity|exact HP].
    + apply wpP_ret. split; [apply same_refl|]. split; [reflexivity|].
      destruct (mode_of s) eqn:Hm; [auto|apply Hk; discriminate|apply Hk; discriminate].
Qed.

Lemma name_ok_dec (m : mode) b n : m = Sloppy \/
  (if (b && name_illegal_strict_binding n)%bool then True
   else match name_strict_reserved n with
        | No => name_ok m b n
        | Yes => True
        | Unknown => m = Strict -> name_ok m b n
        end).
Proof.
  destruct m; [left; reflexivity|right|right];
    destruct n as [[]|s], b; cbn [andb name_illegal_strict_binding atom_illegal_strict_binding
      name_strict_reserved atom_strict_reserved]; try exact I; try (intros Hm; try discriminate Hm);
    (right; split; [intros Hx; cbn in Hx; intuition discriminate|split; intros Hy; try discriminate Hy;
      try (intros Hx; cbn in Hx; intuition discriminate)]).
Qed.

Lemma new_id_ok b n l h s : At h s ->
  wpP (new_id b n l) s
      (fun i s' => i = Id (Some l) n /\ same s' s /\ p_lexer s' = p_lexer s /\ name_ok (mode_of s) b n).
Proof.
  intros HA. unfold new_id.
  eapply wpP_bind; [apply (strict_check_ok _ h s (name_ok (mode_of s) b n)); [exact HA| |]|].
  - unfold id_check. pose proof (name_ok_dec (mode_of s) b n) as Hn.
    destruct (b && name_illegal_strict_binding n)%bool eqn:E.
    { destruct n as [a|st]; [|destruct b; discriminate E]. cbn. auto. }
    destruct (name_strict_reserved n) eqn:Er.
    + cbn. split; [reflexivity|]. intros Hm. destruct Hn; [contradiction|assumption].
    + destruct n as [a|st]; [|discriminate Er]. cbn. split; [reflexivity|].
      intros Hm. destruct Hn; [contradiction|assumption].
    + destruct n as [a|st]; [|discriminate Er]. cbn. auto.
  - intros H. left. exact H.
  - intros _ s1 (H1 & H2 & H3). apply wpP_ret. auto.
Qed.
End Parser.
