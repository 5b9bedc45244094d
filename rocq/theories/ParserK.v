(** Proof infrastructure for the parser, continued: the running step of a parser
    method, and one rule per primitive for extending it. *)
From Coq Require Import String Ascii List NArith Arith Bool Lia.
From Verif Require Import Base Chars F64 Word Token Reader Lexer Punc Ast Track Cover Stack PState Parser Wp
  SpecReader ReaderProofs SpecLexer SpecClient LexWp LexLit LexerProofs LexTheorems SpecStack SpecTree
  SpecGrammar ParserWp.
Import ListNotations.
Local Open Scope nat_scope.

Section K.
Context (V : env) (src : str).
Context (HV : ucd_ok V).
Notation L := (length src).
Notation step := (step V src).
Notation At := (At V src).
Notation wpP := (wpP V src).
Notation readQ := (readQ V src).
Notation post1 := (post1 V src).
Notation post0 := (post0 V src).

(** Since the state [s0], with [h0] consumed, the method has come to [s], with [h]
    consumed. *)
Definition cur (h0 : list token) (s0 : pst) (h : list token) (s : pst) (R : rel) : Prop :=
  step h0 s0 h s R /\ sub s s0.

Lemma cur_refl h s : At h s -> cur h s h s eq.
Proof. intros H. split; [apply step_refl, H|apply sub_refl]. Qed.
Lemma cur_seq h0 s0 h1 s1 h2 s2 R1 R2 : cur h0 s0 h1 s1 R1 -> cur h1 s1 h2 s2 R2 ->
  cur h0 s0 h2 s2 (seq R1 R2).
Proof.
  intros [A1 B1] [A2 B2]. split; [eapply step_seq; eassumption|eapply sub_trans; eassumption].
Qed.
Lemma cur_weaken h0 s0 h s (R R' : rel) : cur h0 s0 h s R -> (forall i o, R i o -> R' i o) ->
  cur h0 s0 h s R'.
Proof. intros [A B] H. split; [eapply step_weaken; eassumption|exact B]. Qed.
Lemma cur_At h0 s0 h s R : cur h0 s0 h s R -> At h s.
Proof. intros [[H _] _]. exact H. Qed.
Lemma cur_place g h0 s0 h s R : at_place g s0 -> cur h0 s0 h s R -> at_place g s.
Proof. intros H [_ B]. eapply at_place_sub; eassumption. Qed.
Lemma cur_W h0 s0 h s R : cur h0 s0 h s R -> W h0 <= W h /\ W h <= L.
Proof. intros [(_ & H1 & H2 & _) _]. auto. Qed.
Lemma cur_same h0 s0 h s R s' : cur h0 s0 h s R -> same s' s -> p_lexer s' = p_lexer s ->
  cur h0 s0 h s' R.
Proof.
  intros [A B] Hs Hl. split; [eapply step_lexer; [exact A|reflexivity|exact Hl]|].
  eapply sub_trans; [apply same_sub, Hs|exact B].
Qed.
Lemma post0_cur {A} h s (R : A -> rel) a s' h' : cur h s h' s' (R a) -> post0 h s R a s'.
Proof. intros [A0 B]. exists h'. auto. Qed.
Lemma post1_cur {A} h s (R : A -> rel) a s' h' : cur h s h' s' (R a) -> W h < W h' -> post1 h s R a s'.
Proof. intros [A0 B] H. exists h'. auto. Qed.

Lemma wpP_eta {A} (m : P A) s (Q : A -> pst -> Prop) : wpP (bind m ret) s Q -> wpP m s Q.
Proof.
  unfold ParserWp.wpP, wp, bind, ret. destruct (m s) as [[x s']|e|k|]; auto.
Qed.

Lemma wpP_conj {A} (m : P A) s (Q1 Q2 : A -> pst -> Prop) : wpP m s Q1 -> wpP m s Q2 ->
  wpP m s (fun x s' => Q1 x s' /\ Q2 x s').
Proof.
  unfold ParserWp.wpP, wp. destruct (m s) as [[x s']|e|k|]; auto.
Qed.

Section Rules.
Context {B : Type} (Q : B -> pst -> Prop).
Context (h0 : list token) (s0 : pst).
Notation cur := (cur h0 s0).

Lemma readQ_cur h s t s1 R : cur h s R -> readQ h s t s1 -> cur (h ++ [t]) s1 (seq R (one t)).
Proof.
  intros C (S1 & Hs & _). eapply cur_seq; [exact C|]. split; [exact S1|apply same_sub, Hs].
Qed.

(** A token that is not the end of input adds to the weight of the history. *)
Definition weighs (h : list token) (t : token) : Prop :=
  tk_value t <> TPunc T_EOF -> W (h ++ [t]) = S (W h).
Lemma weighs_all h t : weighs h t.
Proof. intros H. rewrite W_snoc, not_eof; [lia|exact H]. Qed.

Lemma k_read h s R (k : token -> P B) : cur h s R ->
  (forall t s1, weighs h t -> readQ h s t s1 -> cur (h ++ [t]) s1 (seq R (one t)) -> wpP (k t) s1 Q) ->
  wpP (bind (p_read V) k) s Q.
Proof.
  intros C K. eapply wpP_bind; [apply p_read_ok; [exact HV|exact (cur_At _ _ _ _ _ C)]|].
  intros t s1 H. eapply K; [apply weighs_all|exact H|]. eapply readQ_cur; eassumption.
Qed.
Lemma k_read_op h s R (k : token -> P B) : cur h s R ->
  (forall t s1, weighs h t -> readQ h s t s1 -> cur (h ++ [t]) s1 (seq R (one t)) -> wpP (k t) s1 Q) ->
  wpP (bind (p_read_op V) k) s Q.
Proof.
  intros C K. eapply wpP_bind; [apply p_read_op_ok; [exact HV|exact (cur_At _ _ _ _ _ C)]|].
  intros t s1 H. eapply K; [apply weighs_all|exact H|]. eapply readQ_cur; eassumption.
Qed.
Lemma k_skip h s R (k : unit -> P B) : cur h s R ->
  (forall t s1, weighs h t -> readQ h s t s1 -> cur (h ++ [t]) s1 (seq R (one t)) -> wpP (k tt) s1 Q) ->
  wpP (bind (p_skip V) k) s Q.
Proof.
  intros C K. eapply wpP_bind; [apply p_skip_ok; [exact HV|exact (cur_At _ _ _ _ _ C)]|].
  intros [] s1 (t & H). eapply K; [apply weighs_all|exact H|]. eapply readQ_cur; eassumption.
Qed.

Lemma k_peek h s R (k : token -> P B) : cur h s R ->
  (forall t s1 r, ahead s1 = t :: r -> length (ahead s1) <= Nat.max 1 (length (ahead s)) ->
     same s1 s -> step h s h s1 (look (starts t)) ->
     cur h s1 (seq R (look (starts t))) -> wpP (k t) s1 Q) ->
  wpP (bind (p_peek V) k) s Q.
Proof.
  intros C K. eapply wpP_bind; [apply p_peek_ok; [exact HV|exact (cur_At _ _ _ _ _ C)]|].
  intros t s1 (S1 & Hs & (r & Ha) & Hl). eapply K; [exact Ha|exact Hl|exact Hs|exact S1|].
  eapply cur_seq; [exact C|]. split; [exact S1|apply same_sub, Hs].
Qed.
Lemma k_peek_op h s R (k : token -> P B) : cur h s R ->
  (forall t s1 r, ahead s1 = t :: r -> length (ahead s1) <= Nat.max 1 (length (ahead s)) ->
     same s1 s -> step h s h s1 (look (starts t)) ->
     cur h s1 (seq R (look (starts t))) -> wpP (k t) s1 Q) ->
  wpP (bind (p_peek_op V) k) s Q.
Proof.
  intros C K. eapply wpP_bind; [apply p_peek_op_ok; [exact HV|exact (cur_At _ _ _ _ _ C)]|].
  intros t s1 (S1 & Hs & (r & Ha) & Hl). eapply K; [exact Ha|exact Hl|exact Hs|exact S1|].
  eapply cur_seq; [exact C|]. split; [exact S1|apply same_sub, Hs].
Qed.

Lemma k_reread_token h s R t r (k : token -> P B) : cur h s R -> ahead s = t :: r ->
  (forall s1, weighs h t -> readQ h s t s1 -> ahead s1 = r -> cur (h ++ [t]) s1 (seq R (one t)) -> wpP (k t) s1 Q) ->
  wpP (bind p_reread_token k) s Q.
Proof.
  intros C Ha K. eapply wpP_bind; [eapply p_reread_token_ok; [exact (cur_At _ _ _ _ _ C)|exact Ha]|].
  intros t' s1 (-> & H & Ha'). eapply K; [apply weighs_all|exact H|congruence|]. eapply readQ_cur; eassumption.
Qed.
Lemma k_reread h s R d t r (k : token -> P B) : plain d -> cur h s R -> ahead s = t :: r -> is_t t d = true ->
  (forall s1, tk_value t = d -> weighs h t -> readQ h s t s1 -> ahead s1 = r ->
     cur (h ++ [t]) s1 (seq R (one t)) -> wpP (k t) s1 Q) ->
  wpP (bind (p_reread d) k) s Q.
Proof.
  intros Hp C Ha Hd K.
  eapply wpP_bind; [eapply p_reread_ok; [exact (cur_At _ _ _ _ _ C)|exact Ha|exact Hd]|].
  intros t' s1 (-> & H & Ha'). eapply K; [apply is_t_true; assumption|apply weighs_all|exact H|congruence|].
  eapply readQ_cur; eassumption.
Qed.

Lemma k_unread h s R t s1 (k : unit -> P B) : cur h s R -> readQ h s t s1 ->
  (forall s2, ahead s2 = t :: ahead s1 -> cur h s2 (seq R (look (starts t))) -> wpP (k tt) s2 Q) ->
  wpP (bind (p_unread t) k) s1 Q.
Proof.
  intros C H K. eapply wpP_bind; [apply p_unread_now, H|].
  intros [] s2 (S2 & Hs & Ha). eapply K; [exact Ha|]. eapply cur_seq; [exact C|].
  split; [exact S2|]. apply same_sub. eapply same_trans; [exact Hs|apply H].
Qed.
(** ... after looking at the token behind it *)
Lemma k_unread2 h s R t s1 s2 t2 (k : unit -> P B) : cur h s R -> readQ h s t s1 ->
  step (h ++ [t]) s1 (h ++ [t]) s2 (look (starts t2)) -> same s2 s1 ->
  length (ahead s2) <= Nat.max 1 (length (ahead s1)) ->
  (forall s3, ahead s3 = t :: ahead s2 ->
     cur h s3 (seq R (look (fun o => exists o', o = t :: t2 :: o'))) -> wpP (k tt) s3 Q) ->
  wpP (bind (p_unread t) k) s2 Q.
Proof.
  intros C (S1 & Hs1 & Hl1) S2 Hs2 Hl2 K.
  eapply wpP_bind; [eapply p_unread_ok; [exact S1|exact S2|lia]|].
  intros [] s3 (S3 & Hs3 & Ha). eapply K; [exact Ha|]. eapply cur_seq; [exact C|]. split.
  - eapply step_weaken; [exact S3|]. intros i o (-> & o' & -> & r & ->).
    split; [reflexivity|]. eexists. reflexivity.
  - apply same_sub. eapply same_trans; [exact Hs3|]. eapply same_trans; eassumption.
Qed.

Lemma k_expect h s R d (k : token -> P B) : plain d -> cur h s R ->
  (forall t s1, tk_value t = d -> weighs h t -> readQ h s t s1 ->
     cur (h ++ [t]) s1 (seq R (one t)) -> wpP (k t) s1 Q) ->
  wpP (bind (p_expect V d) k) s Q.
Proof.
  intros Hp C K. eapply wpP_bind; [apply p_expect_ok; [exact HV|exact Hp|exact (cur_At _ _ _ _ _ C)]|].
  intros t s1 (H & Ht & _). eapply K; [exact Ht|apply weighs_all|exact H|]. eapply readQ_cur; eassumption.
Qed.

Lemma k_matches h s R d (k : bool -> P B) : plain d -> cur h s R ->
  (forall t s1, tk_value t = d -> weighs h t ->
     cur (h ++ [t]) s1 (seq R (one t)) -> wpP (k true) s1 Q) ->
  (forall t s1 r, tk_value t <> d -> ahead s1 = t :: r -> cur h s1 (seq R (look (starts t))) ->
     wpP (k false) s1 Q) ->
  wpP (bind (p_matches V d) k) s Q.
Proof.
  intros Hp C K1 K2.
  eapply wpP_bind; [apply p_matches_ok; [exact HV|exact Hp|exact (cur_At _ _ _ _ _ C)]|].
  intros [|] s1 (t & H).
  - destruct H as (H & Ht & _). eapply K1; [exact Ht|apply weighs_all|]. eapply readQ_cur; eassumption.
  - destruct H as ((S1 & Hs & r & Ha) & Ht). eapply K2; [exact Ht|exact Ha|].
    eapply cur_seq; [exact C|]. split; [exact S1|apply same_sub, Hs].
Qed.
Lemma k_matches_op h s R d (k : bool -> P B) : plain d -> cur h s R ->
  (forall t s1, tk_value t = d -> weighs h t ->
     cur (h ++ [t]) s1 (seq R (one t)) -> wpP (k true) s1 Q) ->
  (forall t s1 r, tk_value t <> d -> ahead s1 = t :: r -> cur h s1 (seq R (look (starts t))) ->
     wpP (k false) s1 Q) ->
  wpP (bind (p_matches_op V d) k) s Q.
Proof.
  intros Hp C K1 K2.
  eapply wpP_bind; [apply p_matches_op_ok; [exact HV|exact Hp|exact (cur_At _ _ _ _ _ C)]|].
  intros [|] s1 (t & H).
  - destruct H as (H & Ht & _). eapply K1; [exact Ht|apply weighs_all|]. eapply readQ_cur; eassumption.
  - destruct H as ((S1 & Hs & r & Ha) & Ht). eapply K2; [exact Ht|exact Ha|].
    eapply cur_seq; [exact C|]. split; [exact S1|apply same_sub, Hs].
Qed.
(** [matches_op] on a token just looked at, with the token before it in hand *)
Lemma k_matches_token h s R d (k : option token -> P B) : plain d -> cur h s R ->
  (forall t s1, tk_value t = d -> weighs h t ->
     cur (h ++ [t]) s1 (seq R (one t)) -> wpP (k (Some t)) s1 Q) ->
  (forall t s1 r, tk_value t <> d -> ahead s1 = t :: r -> cur h s1 (seq R (look (starts t))) ->
     wpP (k None) s1 Q) ->
  wpP (bind (p_matches_token V d) k) s Q.
Proof.
  intros Hp C K1 K2.
  eapply wpP_bind; [apply p_matches_token_ok; [exact HV|exact Hp|exact (cur_At _ _ _ _ _ C)]|].
  intros [t|] s1 H.
  - destruct H as (H & Ht & _). eapply K1; [exact Ht|apply weighs_all|]. eapply readQ_cur; eassumption.
  - destruct H as (t & (S1 & Hs & r & Ha) & Ht). eapply K2; [exact Ht|exact Ha|].
    eapply cur_seq; [exact C|]. split; [exact S1|apply same_sub, Hs].
Qed.

Lemma k_call {A} h s R (m : P A) (Rm : A -> rel) (k : A -> P B) : cur h s R ->
  wpP m s (post1 h s Rm) ->
  (forall a s1 h1, W h < W h1 -> cur h1 s1 (seq R (Rm a)) -> wpP (k a) s1 Q) ->
  wpP (bind m k) s Q.
Proof.
  intros C H K. eapply wpP_bind; [exact H|]. intros a s1 (h1 & S1 & Hw & Hs).
  eapply K; [exact Hw|]. eapply cur_seq; [exact C|]. split; assumption.
Qed.
Lemma k_call0 {A} h s R (m : P A) (Rm : A -> rel) (k : A -> P B) : cur h s R ->
  wpP m s (post0 h s Rm) ->
  (forall a s1 h1, W h <= W h1 -> cur h1 s1 (seq R (Rm a)) -> wpP (k a) s1 Q) ->
  wpP (bind m k) s Q.
Proof.
  intros C H K. eapply wpP_bind; [exact H|]. intros a s1 (h1 & S1 & Hs).
  eapply K; [|eapply cur_seq; [exact C|]; split; eassumption].
  destruct S1 as (_ & Hw & _). exact Hw.
Qed.

(** [allow_in] *)
Lemma k_in {A} g h s R b (m : P A) (Rm : A -> rel) (k : A -> P B) : at_place g s -> cur h s R ->
  (forall s', At h s' -> at_place (with_in b g) s' -> wpP m s' (post1 h s' Rm)) ->
  (forall a s1 h1, W h < W h1 -> cur h1 s1 (seq R (Rm a)) -> wpP (k a) s1 Q) ->
  wpP (bind (p_allow_in b m) k) s Q.
Proof.
  intros Hg C H K. eapply k_call; [exact C| |exact K].
  apply allow_in1. apply H; [|apply at_place_in, Hg].
  eapply At_lexer; [exact (cur_At _ _ _ _ _ C)|reflexivity].
Qed.

Lemma k_new_id g h s R b n l (k : id -> P B) : at_place g s -> cur h s R ->
  (forall s1, name_ok (pl_mode g) b n -> ahead s1 = ahead s -> same s1 s ->
     cur h s1 R -> wpP (k (Id (Some l) n)) s1 Q) ->
  wpP (bind (new_id b n l) k) s Q.
Proof.
  intros Hg C K. eapply wpP_bind; [eapply new_id_ok, (cur_At _ _ _ _ _ C)|].
  intros i s1 (-> & Hs & Hl & Hn). apply K; [destruct Hg as [-> _]; exact Hn| |exact Hs|].
  - unfold ahead. rewrite Hl. reflexivity.
  - eapply cur_same; eassumption.
Qed.

Lemma k_has_arg h s R (k : bool -> P B) : cur h s R ->
  (forall t s1 r, ~ no_arg t -> ahead s1 = t :: r -> cur h s1 (seq R (look (starts t))) -> wpP (k true) s1 Q) ->
  (forall t s1 r, no_arg t -> ahead s1 = t :: r -> cur h s1 (seq R (look (starts t))) -> wpP (k false) s1 Q) ->
  wpP (bind (p_has_arg_same_line V) k) s Q.
Proof.
  intros C K1 K2. eapply wpP_bind; [apply p_has_arg_same_line_ok; [exact HV|exact (cur_At _ _ _ _ _ C)]|].
  intros [|] s1 (t & (S1 & Hs & r & Ha) & Ht); [eapply K1|eapply K2]; try eassumption;
    (eapply cur_seq; [exact C|]; split; [exact S1|apply same_sub, Hs]).
Qed.

Lemma k_unexpected {A} h s R t r (Q' : A -> pst -> Prop) : cur h s R -> ahead s = t :: r -> wpP unexpected s Q'.
Proof. intros C Ha. eapply unexpected_ok; [exact (cur_At _ _ _ _ _ C)|exact Ha]. Qed.
End Rules.

(** Endings. *)
Lemma k_ret {A} h0 s0 h s R (a : A) (Ra : A -> rel) : cur h0 s0 h s R -> W h0 < W h ->
  (forall i o, R i o -> Ra a i o) -> wpP (ret a) s (post1 h0 s0 Ra).
Proof. intros C Hw HR. apply wpP_ret. eapply post1_cur; [eapply cur_weaken; eassumption|exact Hw]. Qed.
Lemma k_ret0 {A} h0 s0 h s R (a : A) (Ra : A -> rel) : cur h0 s0 h s R ->
  (forall i o, R i o -> Ra a i o) -> wpP (ret a) s (post0 h0 s0 Ra).
Proof. intros C HR. apply wpP_ret. eapply post0_cur; eapply cur_weaken; eassumption. Qed.
Lemma k_tail {A} h0 s0 h s R (m : P A) (Rm Ra : A -> rel) : cur h0 s0 h s R ->
  wpP m s (post1 h s Rm) -> (forall a i o, seq R (Rm a) i o -> Ra a i o) -> wpP m s (post1 h0 s0 Ra).
Proof.
  intros C H HR. eapply wpP_conseq; [exact H|]. intros a s1 (h1 & S1 & Hw & Hs).
  pose proof (proj1 (cur_W _ _ _ _ _ C)).
  eapply post1_cur; [eapply cur_weaken; [eapply cur_seq; [exact C|split; eassumption]|apply HR]|lia].
Qed.
(** ... to a method that need not consume *)
Lemma k_tail0 {A} h0 s0 h s R (m : P A) (Rm Ra : A -> rel) : cur h0 s0 h s R -> W h0 < W h ->
  wpP m s (post0 h s Rm) -> (forall a i o, seq R (Rm a) i o -> Ra a i o) -> wpP m s (post1 h0 s0 Ra).
Proof.
  intros C Hw H HR. eapply wpP_conseq; [exact H|]. intros a s1 (h1 & S1 & Hs).
  assert (W h <= W h1) by apply S1.
  eapply post1_cur; [eapply cur_weaken; [eapply cur_seq; [exact C|split; eassumption]|apply HR]|lia].
Qed.
Lemma k_tail00 {A} h0 s0 h s R (m : P A) (Rm Ra : A -> rel) : cur h0 s0 h s R ->
  wpP m s (post0 h s Rm) -> (forall a i o, seq R (Rm a) i o -> Ra a i o) -> wpP m s (post0 h0 s0 Ra).
Proof.
  intros C H HR. eapply wpP_conseq; [exact H|]. intros a s1 (h1 & S1 & Hs).
  eapply post0_cur. eapply cur_weaken; [eapply cur_seq; [exact C|split; eassumption]|apply HR].
Qed.
Lemma k_semi {A} h0 s0 h s R (set : A -> loc -> A) start nl (cons : semi -> A) (Ra : A -> rel) :
  cur h0 s0 h s R -> W h0 < W h ->
  (forall sm l i o, seq R (fun i o => ends (is_lax nl) i o sm) i o -> Ra (set (cons sm) (Some l)) i o) ->
  wpP (end_with_auto_semi V set start nl cons) s (post1 h0 s0 Ra).
Proof.
  intros C Hw HR.
  eapply wpP_conseq; [apply end_with_auto_semi_ok; [exact HV|exact (cur_At _ _ _ _ _ C)]|].
  intros v s1 (h1 & sm & l & -> & S1 & Hs). assert (W h <= W h1) by apply S1.
  eapply post1_cur; [eapply cur_weaken; [eapply cur_seq; [exact C|split; eassumption]|apply HR]|lia].
Qed.
Lemma k_span {A} h0 s0 (set : A -> loc -> A) (m : P A) (Ra Rm : A -> rel) :
  wpP m s0 (post1 h0 s0 Rm) -> (forall a l i o, Rm a i o -> Ra (set a (Some l)) i o) ->
  wpP (p_span set m) s0 (post1 h0 s0 Ra).
Proof.
  intros H HR. apply p_span_ok. eapply wpP_conseq; [exact H|].
  intros a s1 (h1 & S1 & Hw & Hs) l. exists h1. split; [|split; assumption].
  eapply step_weaken; [exact S1|]. intros i o. apply HR.
Qed.
Lemma k_span0 {A} h0 s0 (set : A -> loc -> A) (m : P A) (Ra Rm : A -> rel) :
  wpP m s0 (post0 h0 s0 Rm) -> (forall a l i o, Rm a i o -> Ra (set a (Some l)) i o) ->
  wpP (p_span set m) s0 (post0 h0 s0 Ra).
Proof.
  intros H HR. apply p_span_ok. eapply wpP_conseq; [exact H|].
  intros a s1 (h1 & S1 & Hs) l. exists h1. split; [|assumption].
  eapply step_weaken; [exact S1|]. intros i o. apply HR.
Qed.

(** Loops: every iteration but the last consumes something. *)
Lemma k_loop {A B} fuel (body : A -> P (A + B)) (Ra : A -> rel) (Rb : B -> rel) h0 s0 a0 :
  At h0 s0 -> L < W h0 + fuel -> (forall i o, i = o -> Ra a0 i o) ->
  (forall a h s, cur h0 s0 h s (Ra a) ->
     wpP (body a) s (fun x s' => match x with
                                 | inl a' => exists h', cur h0 s0 h' s' (Ra a') /\ W h < W h'
                                 | inr b => exists h', cur h0 s0 h' s' (Rb b)
                                 end)) ->
  wpP (loopM fuel body a0) s0 (post0 h0 s0 Rb).
Proof.
  intros HA Hf HR Hb.
  apply (wpP_loop V src body (fun n a s => exists h, cur h0 s0 h s (Ra a) /\ n = L - W h)) with (n := L - W h0).
  - intros n a s (h & C & ->). eapply wpP_conseq; [apply (Hb a h s C)|].
    intros [a'|b] s'.
    + intros (h' & C' & Hw). pose proof (cur_W _ _ _ _ _ C'). exists (L - W h').
      split; [lia|]. exists h'. auto.
    + intros (h' & C'). eapply post0_cur, C'.
  - exists h0. split; [|reflexivity]. eapply cur_weaken; [apply cur_refl, HA|exact HR].
  - pose proof (At_W _ _ _ _ HA). lia.
Qed.
Lemma k_loop_next {A B} h0 s0 h s hb R (a' : A) (Ra : A -> rel) (Rb : B -> rel) :
  cur h0 s0 h s R -> W hb < W h -> (forall i o, R i o -> Ra a' i o) ->
  wpP (ret (inl a')) s
      (fun x s' => match x with
                   | inl a' => exists h', cur h0 s0 h' s' (Ra a') /\ W hb < W h'
                   | inr b => exists h', cur h0 s0 h' s' (Rb b)
                   end).
Proof. intros C Hw HR. apply wpP_ret. exists h. split; [eapply cur_weaken; eassumption|exact Hw]. Qed.
Lemma k_loop_done {A B} h0 s0 h s hb R (b : B) (Ra : A -> rel) (Rb : B -> rel) :
  cur h0 s0 h s R -> (forall i o, R i o -> Rb b i o) ->
  wpP (ret (inr b)) s
      (fun x s' => match x with
                   | inl a' => exists h', cur h0 s0 h' s' (Ra a') /\ W hb < W h'
                   | inr b => exists h', cur h0 s0 h' s' (Rb b)
                   end).
Proof. intros C HR. apply wpP_ret. exists h. eapply cur_weaken; eassumption. Qed.
End K.

(** Open a composed relation. *)
Ltac unpack :=
  repeat match goal with
         | H : seq _ _ _ _ |- _ => destruct H as (? & ? & ?)
         | H : look _ _ _ |- _ => destruct H as (? & ?); subst
         | H : starts _ _ |- _ => destruct H as (? & ?); subst
         | H : one _ _ _ |- _ => unfold one in H; subst
         | H : exists _, _ |- _ => destruct H
         | H : _ /\ _ |- _ => destruct H
         | H : @eq tokens _ _ |- _ => subst
         | H : @eq (list token) _ _ |- _ => subst
         end.
