(** Every node the parser builds is located: its location begins and ends in the
    text, in that order.  Every error names tokens and places of the text. *)
From Coq Require Import String Ascii List NArith Arith Bool Lia.
From Verif Require Import Base Chars F64 Word Token Reader Lexer Punc Ast Track Cover Stack PState Parser Api Wp
  SpecReader ReaderProofs SpecLexer LexWp LexLit LexerProofs LexTheorems Node NodeProofs SpecTree CoverProofs
  LexClient SpecClient KeepProofs SpecLoc SpecError.
Import ListNotations.
Local Open Scope nat_scope.

Section Loc.
Context (V : env) (src : str) (HV : ucd_ok V).

(** ** Positions, locations, tokens *)

Definition off (p : posn) : nat := N.to_nat (offset p).
(** A position in the text. *)
Definition pw (p : posn) : Prop := exists k, k <= length src /\ p = posn_at src k.
Lemma off_at k : off (posn_at src k) = k.
Proof. unfold off, posn_at. cbn. apply Nat2N.id. Qed.
Lemma pw_at k : k <= length src -> pw (posn_at src k).
Proof. intros H. exists k. auto. Qed.
Lemma pw_off p : pw p -> p = posn_at src (off p) /\ off p <= length src.
Proof. intros (k & H & ->). rewrite off_at. auto. Qed.

(** A proper location from index [i] to index [j]. *)
Definition gl (l : loc) (i j : nat) : Prop :=
  match l with
  | Some (Span a b) => pw a /\ pw b /\ off a = i /\ off b = j
  | None => False
  end.
Lemma gl_span l1 l2 i1 j1 i2 j2 : gl l1 i1 j1 -> gl l2 i2 j2 -> gl (span_of l1 l2) i1 j2.
Proof. destruct l1 as [[a b]|], l2 as [[c d]|]; cbn; tauto. Qed.
Lemma gl_mk p q : pw p -> pw q -> gl (Some (Span p q)) (off p) (off q).
Proof. cbn. auto. Qed.

Definition ti (t : token) : nat := off (sp_start (tk_loc t)).
Definition te (t : token) : nat := off (sp_end (tk_loc t)).
Definition tokok (t : token) : Prop :=
  pw (sp_start (tk_loc t)) /\ pw (sp_end (tk_loc t)) /\ ti t <= te t /\ te t <= length src /\ delivers V src t.
Lemma gl_tok t : tokok t -> gl (Some (tk_loc t)) (ti t) (te t).
Proof. unfold tokok, ti, te. destruct (tk_loc t) as [a b]. cbn. tauto. Qed.

(** ** Nodes *)

Definition st (n : node) : nat := match node_loc n with Some s => off (sp_start s) | None => 0 end.
Definition en (n : node) : nat := match node_loc n with Some s => off (sp_end s) | None => 0 end.
Lemma st_gl n i j : gl (node_loc n) i j -> st n = i.
Proof. unfold st. destruct (node_loc n) as [[a b]|]; cbn; tauto. Qed.
Lemma en_gl n i j : gl (node_loc n) i j -> en n = j.
Proof. unfold en. destruct (node_loc n) as [[a b]|]; cbn; tauto. Qed.

(** The nodes start no earlier than [i], if [bl], and end no later than [j], if [br]. *)
Definition Bd (bl br : bool) (i j : nat) (l : list node) : Prop :=
  forall c, In c l -> (bl = true -> i <= st c) /\ (br = true -> en c <= j).
(** The node starts where the first node below it does, and ends where the last does, if it is of such a kind. *)
Definition Fit (n : node) (i j : nat) : Prop :=
  (starts_with_first n = true -> match children n with c :: _ => i = st c | [] => True end) /\
  (ends_with_last n = true -> match rev (children n) with c :: _ => j = en c | [] => True end).
(** All locations in the tree lie between [lo] and [hi], and nodes enclose the nodes below them. *)
Inductive Lc (lo hi : nat) : node -> Prop :=
| Lc_intro : forall n i j, gl (node_loc n) i j -> lo <= i -> i <= j -> j <= hi ->
    (forall c, In c (children n) -> Lc lo hi c) ->
    Bd (starts_first n) (ends_last n) i j (children n) -> Fit n i j -> delimited V src n -> Lc lo hi n.
Definition LcA (lo hi : nat) (l : list node) : Prop := forall c, In c l -> Lc lo hi c.
(** Moreover the node ends no later than [m]. *)
Definition XL (lo m hi : nat) (n : node) : Prop := Lc lo hi n /\ en n <= m.

Lemma Lc_gl lo hi n : Lc lo hi n -> gl (node_loc n) (st n) (en n) /\ lo <= st n /\ st n <= en n /\ en n <= hi.
Proof.
  intros [m i j H H1 H2 H3 _ _ _ _]. rewrite (st_gl _ _ _ H), (en_gl _ _ _ H). auto.
Qed.
Lemma Lc_children lo hi n : Lc lo hi n -> LcA lo hi (children n).
Proof. intros [m i j H H1 H2 H3 Hc _ _ _]. exact Hc. Qed.
Lemma Lc_Bd lo hi n : Lc lo hi n -> Bd (starts_first n) (ends_last n) (st n) (en n) (children n).
Proof. intros [m i j H H1 H2 H3 Hc B _ _]. rewrite (st_gl _ _ _ H), (en_gl _ _ _ H). exact B. Qed.
Lemma Bd_nil bl br i j : Bd bl br i j [].
Proof. intros c []. Qed.
Lemma Bd_cons bl br i j n l : (bl = true -> i <= st n) /\ (br = true -> en n <= j) -> Bd bl br i j l -> Bd bl br i j (n :: l).
Proof. intros H1 H2 c [<-|H]; auto. Qed.
Lemma Bd_app bl br i j l1 l2 : Bd bl br i j l1 -> Bd bl br i j l2 -> Bd bl br i j (l1 ++ l2).
Proof. intros H1 H2 c H. apply in_app_or in H as [H|H]; auto. Qed.
Lemma Bd_LcA a b bl br i j l : LcA a b l -> (bl = true -> i <= a) /\ (br = true -> b <= j) -> Bd bl br i j l.
Proof.
  intros H [H1 H2] c Hc. destruct (Lc_gl _ _ _ (H _ Hc)) as (_ & ? & ? & ?).
  split; intros E; [specialize (H1 E)|specialize (H2 E)]; lia.
Qed.
Lemma Lc_mono lo hi n : Lc lo hi n -> forall lo' hi', lo' <= lo -> hi <= hi' -> Lc lo' hi' n.
Proof.
  intros H lo' hi' Hl Hh. induction H as [n i j H H1 H2 H3 Hc IH B F D].
  econstructor; [exact H|lia|lia|lia|exact IH|exact B|exact F|exact D].
Qed.
Lemma LcA_mono lo hi l : LcA lo hi l -> forall lo' hi', lo' <= lo -> hi <= hi' -> LcA lo' hi' l.
Proof. intros H lo' hi' Hl Hh c Hc. eapply Lc_mono; [apply H, Hc|lia|lia]. Qed.
Lemma XL_mono lo m hi n : XL lo m hi n -> forall lo' m' hi', lo' <= lo -> hi <= hi' -> m <= m' -> XL lo' m' hi' n.
Proof. intros [H1 H2] lo' m' hi' Hl Hh Hm. split; [eapply Lc_mono; eauto|lia]. Qed.
Lemma LcA_nil lo hi : LcA lo hi [].
Proof. intros c []. Qed.
Lemma LcA_cons lo hi n l : Lc lo hi n -> LcA lo hi l -> LcA lo hi (n :: l).
Proof. intros H1 H2 c [<-|H]; auto. Qed.
Lemma LcA_app lo hi l1 l2 : LcA lo hi l1 -> LcA lo hi l2 -> LcA lo hi (l1 ++ l2).
Proof. intros H1 H2 c H. apply in_app_or in H as [H|H]; auto. Qed.
Lemma LcA_one lo hi n : LcA lo hi [n] -> Lc lo hi n.
Proof. intros H. apply H. left. reflexivity. Qed.
Lemma LcA_head lo hi n l : LcA lo hi (n :: l) -> Lc lo hi n /\ LcA lo hi l.
Proof. intros H. split; [apply H; left; reflexivity|]. intros c Hc. apply H. right. exact Hc. Qed.
Lemma of_list_app {A} (f : A -> node) a b : of_list f (a ++ b) = of_list f a ++ of_list f b.
Proof. apply map_app. Qed.
Lemma of_holes_app {A} (f : A -> node) a b : of_holes f (a ++ b) = of_holes f a ++ of_holes f b.
Proof. apply flat_map_app. Qed.
Lemma XL_intro lo m hi n i j : gl (node_loc n) i j -> lo <= i -> i <= j -> j <= hi -> j <= m ->
  LcA lo hi (children n) -> Bd (starts_first n) (ends_last n) i j (children n) -> Fit n i j -> delimited V src n -> XL lo m hi n.
Proof.
  intros H H1 H2 H3 H4 H5 H6 H7 H8. split; [econstructor; eauto|]. rewrite (en_gl _ _ _ H). exact H4.
Qed.

(** ** Marks of a state *)

Definition ahead (s : pst) : list token := lx_ahead (p_lexer s).
Definition R (s : pst) : nat := off (pos (lx_rd (p_lexer s))).
Definition B0 (s : pst) : nat := match ahead s with t :: _ => ti t | [] => R s end.
Definition B1 (s : pst) : nat := match ahead s with _ :: t :: _ => ti t | _ => R s end.
Definition la (s : pst) : nat := length (ahead s).
Fixpoint chain (l : list token) (r : nat) : Prop :=
  match l with
  | [] => True
  | t :: l' => tokok t /\ match l' with t' :: _ => te t <= ti t' | [] => te t = r end /\ chain l' r
  end.
(** The lexer has come to its place by reading tokens. *)
Definition hist (x : lexer) : Prop :=
  exists ops ts, read_tokens V ops (lexer_new src) = Ok (ts, Lexer (lx_rd x) [] (lx_empty_line x)).
(** The tokens that may be put back when the one after them has been looked at. *)
Definition soft (t : token) : bool :=
  match tk_value t with TIdent _ | TString _ => true | TReserved R_Const => true | _ => false end.
Definition softly (l : list token) : Prop := match l with t :: _ :: _ => soft t = true | _ => True end.
Definition Inv (s : pst) : Prop :=
  rd_at src (R s) (lx_rd (p_lexer s)) /\ chain (ahead s) (R s) /\ la s <= 2
  /\ hist (p_lexer s) /\ Forall (check_honest V src) (p_deferred s) /\ softly (ahead s).

Lemma rd_at_off k r : rd_at src k r -> off (pos r) = k.
Proof. intros (_ & _ & ->). apply off_at. Qed.

(** The number of tokens looked at, if the first is [const]. *)
Definition unconst (t : token) : bool := match tk_value t with TReserved R_Const => false | _ => true end.
Definition lb (s : pst) : nat := match ahead s with t :: _ => if unconst t then 1 else la s | [] => 0 end.
Lemma lb_la s : lb s <= la s.
Proof. unfold lb, la. destruct (ahead s) as [|t l]; cbn; [lia|]. destruct (unconst t); lia. Qed.
Lemma lb_not s t : hd_error (ahead s) = Some t -> unconst t = false -> lb s = la s.
Proof. unfold lb. destruct (ahead s) as [|t0 l]; [discriminate|]. intros H. injection H as ->. intros ->. reflexivity. Qed.
(** An implication that is kept from the arithmetic procedures. *)
Definition lim (a b : nat) (P : Prop) : Prop := a <= b -> P.
Definition ord (s : pst) : Prop := B0 s <= B1 s /\ B1 s <= R s /\ R s <= length src /\ la s <= 2
  /\ lim (la s) 1 (B1 s = R s) /\ lim (la s) 0 (B0 s = R s) /\ lb s <= la s.
Lemma Inv_ord s : Inv s -> ord s.
Proof.
  intros ((H1 & _) & H2 & H3 & _). assert (Hlb := lb_la s). unfold ord, lim, B0, B1. unfold la in *.
  destruct (ahead s) as [|t1 [|t2 [|t3 l]]]; cbn in *; unfold tokok in *; lia.
Qed.
Definition mono (s s' : pst) : Prop := B0 s <= B0 s' /\ B1 s <= B1 s' /\ R s <= R s' /\ lim (la s) 1 (la s' <= 1).
Definition eats (s s' : pst) : Prop := B1 s <= B0 s' /\ R s <= B1 s' /\ R s <= R s' /\ la s' <= 1.
Lemma lim_use a b P : lim a b P -> a <= b -> P. Proof. intros H. exact H. Qed.
Ltac discharge := repeat match goal with
  | H : lim ?a ?b _ |- _ => apply (lim_use a b) in H; [|lia]
  | H : ?a <= ?b -> _ |- _ => specialize (H ltac:(lia))
  end; repeat match goal with
  | H : _ /\ _ |- _ => destruct H
  | H : XL _ _ _ _ |- _ => destruct H
  end.
Ltac dischargeL := repeat match goal with
  | H : lim ?a ?b _ |- _ => apply (lim_use a b) in H; [|lia]
  | H : _ /\ _ |- _ => destruct H
  end.
Ltac mon := unfold mono, ord; repeat lazymatch goal with |- _ /\ _ => split end;
  try assumption; try lia; (lazymatch goal with |- lim _ _ _ => intro end); first [solve [discharge; lia]|dischargeL; lia].

(** ** Postconditions *)

Definition W {A} (m : P A) (s : pst) (F : A -> pst -> Prop) : Prop :=
  match m s with
  | Ok (a, s') => F a s'
  | Err e => honest V src e
  | Panic k => panic_honest V src k
  | NoFuel => True
  end.
Definition post {A} (m : P A) (Q : pst -> A -> pst -> Prop) : Prop :=
  forall s, Inv s -> W m s (fun a s' => Inv s' /\ mono s s' /\ Q s a s').

Lemma W_bind {A B} (m : P A) (k : A -> P B) s F : W m s (fun a s1 => W (k a) s1 F) -> W (bind m k) s F.
Proof. unfold W, bind. destruct (m s) as [[a s1]|?|?|]; auto. Qed.
Lemma W_ret {A} (a : A) s (F : A -> pst -> Prop) : F a s -> W (ret a) s F.
Proof. intros H. exact H. Qed.
Lemma W_err {A} e s F : honest V src e -> W (@err _ _ A e) s F.
Proof. intros H. exact H. Qed.
Lemma W_panic {A} k s F : k <> P_read_eof -> k <> P_overflow -> W (@panic_at _ _ A k) s F.
Proof. intros H1 H2 [H|H]; contradiction. Qed.
Lemma W_nofuel {A} s F : W (@nofuel _ _ A) s F.
Proof. exact Logic.I. Qed.
Lemma W_mono {A} (m : P A) s (F G : A -> pst -> Prop) : W m s F -> (forall a s', F a s' -> G a s') -> W m s G.
Proof. unfold W. destruct (m s) as [[a s1]|?|?|]; auto. Qed.
Lemma W_use {A} (m : P A) s Q (F : A -> pst -> Prop) : post m Q -> Inv s ->
  (forall a s', Inv s' -> mono s s' -> ord s' -> Q s a s' -> F a s') -> W m s F.
Proof.
  intros H I HF. eapply W_mono; [apply H, I|]. cbv beta. intros a s' (I' & M & q).
  apply HF; auto using Inv_ord.
Qed.
Lemma post_mono {A} (m : P A) (Q Q' : pst -> A -> pst -> Prop) : post m Q ->
  (forall s a s', ord s -> mono s s' -> ord s' -> Q s a s' -> Q' s a s') -> post m Q'.
Proof.
  intros H HQ s I. eapply W_use; [exact H|exact I|]. intros a s' I' M O q.
  split; [exact I'|]. split; [exact M|]. apply HQ; auto using Inv_ord.
Qed.
Lemma W_loop {A B} (J : A -> pst -> Prop) (body : A -> P (A + B)) (F : B -> pst -> Prop) :
  (forall a s, Inv s -> ord s -> J a s ->
     W (body a) s (fun r s' => Inv s' /\ match r with inl a' => J a' s' | inr b => F b s' end)) ->
  forall n a s, Inv s -> J a s -> W (loopM n body a) s F.
Proof.
  intros H n. induction n as [|n IH]; intros a s I HJ; cbn [loopM]; [apply W_nofuel|].
  apply W_bind. eapply W_mono; [apply H; auto using Inv_ord|]. intros [a'|b] s' [I' HJ'].
  - apply IH; assumption.
  - apply W_ret. exact HJ'.
Qed.

(** ** The lexer *)

Lemma mono_refl s : mono s s.
Proof. unfold mono, lim. lia. Qed.
Lemma post_same {A} (m : P A) (Q : A -> Prop) : (forall s, Inv s -> match m s with
    | Ok (a, s') => p_lexer s' = p_lexer s /\ Forall (check_honest V src) (p_deferred s') /\ Q a
    | Err e => honest V src e
    | Panic k => panic_honest V src k
    | NoFuel => True
    end) ->
  post m (fun s a s' => (la s' = la s /\ lb s' = lb s) /\ Q a).
Proof.
  intros H s I. specialize (H s I). unfold W. destruct (m s) as [[a s']|?|?|]; auto.
  destruct H as (e & d & q). unfold lb, Inv, mono, lim, B0, B1, R, la, ahead in *. rewrite e.
  repeat split; try apply I; try exact d; try lia; try reflexivity; exact q.
Qed.
Lemma post_lex_same {A} (m : P A) : (forall s, Inv s -> match m s with
    | Ok (a, s') => p_lexer s' = p_lexer s /\ Forall (check_honest V src) (p_deferred s')
    | Err e => honest V src e
    | Panic k => panic_honest V src k
    | NoFuel => True
    end) ->
  post m (fun s _ s' => (la s' = la s /\ lb s' = lb s)).
Proof.
  intros H. eapply post_mono; [apply (post_same m (fun _ => True))|intros ? ? ? _ _ _ [q _]; exact q].
  intros s I. specialize (H s I). destruct (m s) as [[a s']|?|?|]; tauto.
Qed.

Lemma read_tokens_app ops op : forall x ts x' r, read_tokens V ops x = Ok (ts, x') -> read_token V op x' = r ->
  read_tokens V (ops ++ [op]) x = match r with
                                   | Ok (t, x2) => Ok (ts ++ [t], x2)
                                   | Err e => Err e | Panic k => Panic k | NoFuel => NoFuel end.
Proof.
  induction ops as [|o ops IH]; intros x ts x' r H1 H2; cbn [read_tokens app] in *.
  - injection H1 as <- <-. unfold bind. rewrite H2. destruct r as [[t x2]|?|?|]; reflexivity.
  - unfold bind in *. destruct (read_token V o x) as [[t x1]|?|?|]; try discriminate.
    destruct (read_tokens V ops x1) as [[ts1 x2]|?|?|] eqn:E; try discriminate.
    injection H1 as <- <-. rewrite (IH _ _ _ _ E H2). destruct r as [[t' x3]|?|?|]; reflexivity.
Qed.
(** Reading the next token when none is ahead. *)
Lemma next_hist op x : hist x -> lx_ahead x = [] ->
  match read_next_token V op x with
  | Ok (t, x') => delivers V src t /\ (lx_ahead x' = [] -> hist x')
  | Err e => exists ops, read_tokens V ops (lexer_new src) = Err e
  | Panic k => exists ops, read_tokens V ops (lexer_new src) = Panic k
  | NoFuel => True
  end.
Proof.
  destruct x as [rd l e]. cbn [lx_ahead]. intros (ops & ts & H) ->. cbn [lx_rd lx_empty_line] in H.
  assert (E : read_token V op (Lexer rd [] e) = read_next_token V op (Lexer rd [] e)) by reflexivity.
  assert (K := read_tokens_app ops op _ _ _ _ H E).
  destruct (read_next_token V op (Lexer rd [] e)) as [[t x']|?|?|] eqn:E'; [|eauto|eauto|exact Logic.I].
  split.
  - exists ops, op, ts, (Lexer rd [] e), x'. auto.
  - intros Ha. exists (ops ++ [op]), (ts ++ [t]). rewrite K. destruct x' as [rd' l' e']. cbn in *. subst l'. reflexivity.
Qed.

Lemma next_ok op x : forall k t x', rd_at src k (lx_rd x) ->
  read_next_token V op x = Ok (t, x') ->
  exists k', rd_at src k' (lx_rd x') /\ lx_ahead x' = lx_ahead x
             /\ (pw (sp_start (tk_loc t)) /\ pw (sp_end (tk_loc t)) /\ ti t <= te t)
             /\ k <= ti t /\ te t = k'.
Proof.
  intros k t x' Hk e. assert (H := read_next_token_spec V src op x k (ucd_start_part V HV) Hk).
  unfold wp in H. rewrite e in H. destruct H as (k' & Hn & Hr & Ha & _). exists k'.
  split; [exact Hr|]. split; [exact Ha|]. destruct Hn as (ws & w & l & _ & Hk' & _ & _ & Hl & _).
  unfold ti, te. rewrite Hl. cbn. rewrite !off_at.
  assert (k' <= length src) by apply Hr. repeat split; try apply pw_at; lia.
Qed.

Lemma R_of s k : rd_at src k (lx_rd (p_lexer s)) -> R s = k.
Proof. apply rd_at_off. Qed.

(** The token ends where the lexer stands, if nothing else has been looked at. *)
Definition ready (t : token) (s : pst) : Prop := (la s = 0 -> te t = R s) /\ (1 <= la s -> soft t = true).
(** Only certain tokens are first of two. *)
Definition hard (t : token) (s : pst) : Prop := soft t = true \/ la s <= 1.
Definition rdfacts (s : pst) (t : token) (s' : pst) : Prop :=
  eats s s' /\ tokok t /\ ti t <= te t /\ B0 s <= ti t /\ te t <= B0 s' /\ lim (la s) 1 (la s' = 0 /\ te t = R s' /\ B0 s' = R s')
  /\ ready t s' /\ hard t s /\ (forall t0, hd_error (ahead s) = Some t0 -> t = t0).

Definition pkfacts (s : pst) (t : token) (s' : pst) : Prop :=
  tokok t /\ ti t <= te t /\ B0 s <= ti t /\ ti t = B0 s' /\ te t <= B1 s' /\ lim (la s) 1 (la s' = 1 /\ te t = R s')
  /\ lim (lb s) 1 (lb s' <= 1) /\ hard t s' /\ hd_error (ahead s') = Some t.

Lemma post_lexread op : post (lex (read_token V op)) rdfacts.
Proof.
  intros s I. unfold W, lex, read_token, bind, gets, modify, ret.
  destruct s as [g d [rd l e] c]. cbn [p_lexer lx_ahead]. destruct l as [|t0 l].
  - destruct I as (I1 & I2 & I3 & I4 & I5 & I6).
    assert (N := next_hist op (Lexer rd [] e) I4 eq_refl).
    destruct (read_next_token V op (Lexer rd [] e)) as [[t1 x']|?|?|] eqn:E; [|exact N|intros _; exact N|exact Logic.I].
    destruct (next_ok op _ _ _ _ I1 E) as (k' & Hr & Ha & Ht & H1 & H2).
    set (s := PSt _ _ _ _) in *.
    set (s' := set_lexer x' s).
    assert (HR : R s' = k') by exact (rd_at_off _ _ Hr).
    assert (HA : ahead s' = []) by exact Ha.
    assert (HA0 : ahead s = []) by reflexivity.
    destruct N as [N1 N2]. assert (N3 := N2 Ha).
    unfold Inv, mono, rdfacts, eats, lim, ready, hard, softly, B0, B1, la. rewrite HA, HA0, HR. cbn [length chain hd_error].
    destruct Ht as (? & ? & ?). assert (k' <= length src) by apply Hr. unfold tokok.
    repeat split; auto; try lia; try discriminate; apply Hr.
  - destruct I as (I1 & I2 & I3 & I4 & I5 & I6).
    unfold Inv, mono, rdfacts, eats, lim, ready, hard, softly, B0, B1, la, R, ahead, set_lexer in *. cbn [p_lexer lx_ahead lx_rd length chain hd_error] in *.
    destruct I2 as ((? & ? & ? & ? & ?) & I2 & I2'). assert (D : forall t1, Some t0 = Some t1 -> t0 = t1) by congruence.
    destruct l as [|t1 [|t2 l]]; cbn [length chain] in *; unfold tokok in *; repeat split; try tauto; try lia; try apply I1.
Qed.
Lemma post_lexpeek op : post (lex (peek_token V op)) pkfacts.
Proof.
  intros s I. unfold W, lex, peek_token, bind, gets, modify, ret, pkfacts.
  destruct s as [g d [rd l e] c]. cbn [p_lexer lx_ahead]. destruct l as [|t0 l].
  - destruct I as (I1 & I2 & I3 & I4 & I5 & I6).
    assert (N := next_hist op (Lexer rd [] e) I4 eq_refl).
    destruct (read_next_token V op (Lexer rd [] e)) as [[t1 x']|?|?|] eqn:E; [|exact N|intros _; exact N|exact Logic.I].
    destruct (next_ok op _ _ _ _ I1 E) as (k' & Hr & Ha & Ht & H1 & H2).
    set (s := PSt _ _ _ _) in *. set (s' := set_lexer _ s).
    assert (HR : R s' = k') by exact (rd_at_off _ _ Hr).
    assert (HA : ahead s' = [t1]) by reflexivity.
    assert (HA0 : ahead s = []) by reflexivity.
    assert (Hlb : lb s' <= 1) by (unfold lb, la; rewrite HA; cbn; destruct (unconst t1); lia).
    destruct N as [N1 N2]. assert (N3 := N2 Ha). assert (N4 : hist (p_lexer s')) by exact N3.
    unfold Inv, mono, eats, lim, ready, hard, softly, B0, B1, la. rewrite HA, HA0, HR. cbn [length chain hd_error].
    assert (Ht' := Ht). destruct Ht' as (? & ? & ?). assert (k' <= length src) by apply Hr. unfold tokok.
    repeat split; auto; try lia; try (intros _; exact Hlb); apply Hr.
  - destruct I as (I1 & I2 & I3 & I4 & I5 & I6).
    unfold Inv, mono, eats, lim, ready, hard, softly, B0, B1, la, R, ahead, set_lexer in *. cbn [p_lexer lx_ahead lx_rd length chain hd_error] in *.
    destruct I2 as ((? & ? & ? & ? & ?) & I2 & I2').
    destruct l as [|t1 [|t2 l]]; cbn [length chain] in *; unfold tokok in *; repeat split; try tauto; try lia; try apply I1; intros K; exact K.
Qed.
Lemma post_lexreread : post (lex reread_token) rdfacts.
Proof.
  intros s I. unfold W, lex, reread_token, bind, gets, modify, ret.
  destruct s as [g d [rd l e] c]. cbn [p_lexer lx_ahead]. destruct l as [|t0 l]; [intros [H|H]; discriminate|].
  destruct I as (I1 & I2 & I3 & I4 & I5 & I6).
  unfold Inv, mono, rdfacts, eats, lim, ready, hard, softly, B0, B1, la, R, ahead, set_lexer in *. cbn [p_lexer lx_ahead lx_rd length chain hd_error] in *.
  destruct I2 as ((? & ? & ? & ? & ?) & I2 & I2'). assert (D : forall t1, Some t0 = Some t1 -> t0 = t1) by congruence.
  destruct l as [|t1 [|t2 l]]; cbn [length chain] in *; unfold tokok in *; repeat split; try tauto; try lia; try apply I1.
Qed.
(** Looking at the token already seen. *)
Lemma W_repeek s (F : token -> pst -> Prop) : (forall t, hd_error (ahead s) = Some t -> F t s) -> W (lex repeek_token) s F.
Proof.
  intros H. unfold W, lex, repeek_token, bind, gets, ret. unfold ahead in H.
  destruct (lx_ahead (p_lexer s)) as [|t l] ; [intros [K|K]; discriminate|].
  specialize (H t eq_refl). destruct s. exact H.
Qed.
Lemma W_unread t s (F : unit -> pst -> Prop) : Inv s -> tokok t -> te t <= B0 s -> la s <= 1 -> ready t s ->
  (forall s', Inv s' -> ord s' -> B0 s' = ti t -> B1 s' = B0 s -> R s' = R s -> B1 s <= R s' ->
     la s' = S (la s) -> lb s' = (if unconst t then 1 else la s') -> F tt s') -> W (p_unread t) s F.
Proof.
  intros I Ht Hte Hla Hte0 HF. unfold ready, W, p_unread, lex, unread_token, bind, gets, modify.
  destruct s as [g d [rd l e] c]. cbn [p_lexer lx_ahead].
  destruct (Nat.ltb (length l) lookahead_capacity); [|intros [H|H]; discriminate].
  assert (O := Inv_ord _ I). destruct I as (I1 & I2 & I3 & I4 & I5 & I6).
  unfold ord, Inv, mono, rdfacts, eats, lim, ready, hard, softly, B0, B1, la, R, ahead, set_lexer in *.
  cbn [p_lexer lx_ahead lx_rd length chain] in *.
  assert (Ht' := Ht). destruct Ht' as (? & ? & ? & ? & ?).
  apply HF; unfold ord, lim, ready in *; cbn [p_lexer lx_ahead lx_rd length chain] in *;
  destruct l as [|t1 [|t2 l]]; cbn [length chain] in *; unfold tokok in *; repeat split; try tauto; try lia; try apply I1; try reflexivity;
  apply lb_la.
Qed.

Lemma post_posn : post p_posn (fun s p s' => pw p /\ off p = R s /\ (la s' = la s /\ lb s' = lb s)).
Proof.
  intros s I. split; [exact I|]. split; [apply mono_refl|].
  destruct I as ((H0 & _ & H) & _). unfold lexer_posn. split; [|repeat split; reflexivity].
  rewrite H. apply pw_at. exact H0.
Qed.

Arguments span_of : simpl never.
Arguments gl : simpl never.
Arguments st : simpl never.
Arguments en : simpl never.
Arguments of_list : simpl never.
Arguments of_holes : simpl never.
Lemma of_list_nil {A} (f : A -> node) : of_list f [] = []. Proof. reflexivity. Qed.
Lemma of_list_cons {A} (f : A -> node) a l : of_list f (a :: l) = f a :: of_list f l. Proof. reflexivity. Qed.
Lemma of_holes_nil {A} (f : A -> node) : of_holes f [] = []. Proof. reflexivity. Qed.
Lemma of_holes_cons {A} (f : A -> node) a l : of_holes f (a :: l) = of_opt f a ++ of_holes f l.
Proof. reflexivity. Qed.
Ltac norm := cbn; repeat rewrite ?of_list_app, ?of_holes_app, ?of_list_cons, ?of_list_nil, ?of_holes_cons, ?of_holes_nil;
  cbn.

(** ** Honest errors *)

Lemma tok_del t : tokok t -> delivers V src t.
Proof. intros H. apply H. Qed.
Lemma is_t_plain t d : match d with TReserved _ => True | TPunc _ => True | _ => False end ->
  is_t t d = true -> tk_value t = d.
Proof.
  intros H. unfold is_t, td_eqb. destruct d as [r|p|?|?|?|?]; try contradiction; destruct (tk_value t); try discriminate;
    intros E; f_equal; [destruct r0, r|destruct p0, p]; try reflexivity; discriminate E.
Qed.
Lemma hard_is t d s : hard t s -> is_t t d = true ->
  match d with TReserved R_Const => False | TReserved _ => True | TPunc _ => True | _ => False end -> la s <= 1.
Proof.
  intros [H|H] E Hd; [|exact H]. exfalso. unfold soft in H. rewrite (is_t_plain t d ltac:(destruct d; tauto) E) in H.
  destruct d as [r|p|?|?|?|?]; try contradiction; try discriminate; destruct r; contradiction || discriminate.
Qed.
Lemma soft_ident t n : as_ident t = Some n -> soft t = true.
Proof. unfold as_ident, soft. destruct (tk_value t); try discriminate. reflexivity. Qed.
Lemma soft_const t : is_t t (TReserved R_Const) = true -> soft t = true.
Proof. intros E. unfold soft. rewrite (is_t_plain t (TReserved R_Const) Logic.I E). reflexivity. Qed.
Lemma soft_name t n : is_t t (TIdent n) = true -> soft t = true.
Proof. unfold is_t, soft. destruct (tk_value t); try discriminate. reflexivity. Qed.
Ltac softs := first [eapply soft_ident; eassumption|apply soft_const; assumption|eapply soft_name; eassumption
  |unfold soft; match goal with E : tk_value ?t = _ |- _ => rewrite E; reflexivity end].
Ltac few := lazymatch goal with
  | |- la ?s <= _ => match goal with
    | H : la s <= 1 |- _ => exact H
    | H : la s <= 0 |- _ => apply (Nat.le_trans _ _ _ H); lia
    | H : la s = 0 |- _ => rewrite H; repeat constructor
    | H : la s = 1 |- _ => rewrite H; constructor
    | H : la s = la ?s0 |- _ => rewrite H; few
    | H : la s = S (la ?s0), H0 : la ?s0 = 0 |- _ => rewrite H, H0; constructor
    end
  | |- lb ?s <= _ => match goal with
    | H : lb s <= 1 |- _ => exact H
    | H : lb s = lb ?s0 |- _ => rewrite H; few
    | H : lb s <= la s |- _ => apply (Nat.le_trans _ _ _ H); few
    end
  | |- _ => lia
  end.
Ltac discharge ::= repeat match goal with
  | H : lim ?a ?b _ |- _ => apply (lim_use a b) in H; [|few]
  | H : ?a <= ?b -> _ |- _ => specialize (H ltac:(lia))
  | H : hard ?t ?s, E : is_t ?t ?d = true |- _ => apply (hard_is t d s) in H; [|exact E|exact Logic.I]
  | H : _ /\ _ |- _ => destruct H
  | H : XL _ _ _ _ |- _ => destruct H
  end.
Lemma is_t_not t d : is_t t d = false -> match d with TReserved _ => True | TPunc _ => True | _ => False end ->
  tk_value t <> d.
Proof. intros E H F. unfold is_t in E. rewrite F in E. destruct d; try contradiction; destruct r || destruct p; discriminate E. Qed.
Lemma hon_there t d : match d with TReserved _ => True | TPunc _ => True | _ => False end ->
  tokok t -> is_t t d = true -> token_there V src t d.
Proof. intros H T E. split; [apply tok_del, T|apply is_t_plain; assumption]. Qed.
Lemma gl_place l i j : gl l i j -> i <= j -> place_there src l.
Proof.
  unfold gl. destruct l as [[a b]|]; [|contradiction]. intros (Ha & Hb & E1 & E2) ?. exists i, j.
  apply pw_off in Ha as [Ha _]. apply pw_off in Hb as [Hb ?].
  split; [|lia]. rewrite Ha, Hb, E1, E2. reflexivity.
Qed.
Lemma Lc_place lo hi n : Lc lo hi n -> place_there src (node_loc n).
Proof. intros H. destruct (Lc_gl _ _ _ H) as (G & ? & ? & ?). apply (gl_place _ _ _ G); lia. Qed.
Ltac hon := match goal with
  | T : tokok ?t |- honest _ _ (UnexpectedToken ?t) => exact (tok_del _ T)
  | T : tokok ?t, E : is_t ?t ?d = true |- honest _ _ (_ ?t) => exact (hon_there t d Logic.I T E)
  | H : name_there _ _ (id_loc ?i) (id_name ?i) |- honest _ _ (_ ?i) => exact H
  end.

(** ** Automation *)

Ltac splits := repeat match goal with
  | H : _ /\ _ |- _ => destruct H
  | H : XL _ _ _ _ |- _ => destruct H
  end.
Ltac prep := unfold rdfacts in *; unfold mono, eats, ord in *; cbv beta in *; splits; discharge.
Ltac use := eapply W_use; [solve [eauto with loc]|assumption|
  let a := fresh "a" in let s := fresh "s" in let I := fresh "I" in let M := fresh "M" in
  let O := fresh "O" in let q := fresh "q" in intros a s I M O q; prep].
Ltac step1 :=
  cbv beta zeta;
  lazymatch goal with
  | |- W (bind _ _) _ _ => apply W_bind
  | |- W (ret _) _ _ => apply W_ret
  | |- W (err _) _ _ => apply W_err; try hon
  | |- W (panic_at _) _ _ => apply W_panic; discriminate
  | |- W (let '(_, _) := ?x in _) _ _ => destruct x
  | |- W (if ?b then _ else _) _ _ => destruct b eqn:?
  | |- W (match ?b with _ => _ end) _ _ => destruct b eqn:?
  | |- W (p_allow_in _ _) _ _ => unfold p_allow_in
  | |- W (p_span _ _) _ _ => unfold p_span
  | |- W (p_unread _) _ _ => apply W_unread; [assumption|assumption|lia|lia|first [assumption|split; intro; [discharge; lia|first [lia|softs]]]|
      let s := fresh "s" in let I := fresh "I" in let O := fresh "O" in
      intros s I O ? ? ? ? ? ?; prep]
  | |- W _ _ _ => use
  end.
Ltac go := repeat step1.
Ltac expose := repeat match goal with
  | H : Lc _ _ ?n |- _ =>
      lazymatch goal with
      | _ : gl _ (st n) (en n) |- _ => fail
      | _ => let G := fresh "G" in destruct (Lc_gl _ _ _ H) as (G & ? & ? & ?);
          let l := eval cbn in (node_loc n) in change (gl l (st n) (en n)) in G
      end
  end.
Ltac gls := first [ eassumption | apply gl_tok; assumption | eapply gl_span; [gls|gls] | apply gl_mk; assumption ].
Ltac bnd := split; intros; first [discriminate|lia
  |lazymatch goal with |- _ <= st ?n => (erewrite (st_gl n); [|cbn; gls]); lia | |- en ?n <= _ => (erewrite (en_gl n); [|cbn; gls]); lia end].
Ltac ft := split; [let E := fresh in intros E; try discriminate E; clear E|let E := fresh in intros E; try discriminate E; clear E];
  norm; cbn [rev app]; first [exact Logic.I|reflexivity|lia
  |lazymatch goal with |- _ = st ?n => (erewrite (st_gl n); [|cbn; gls]); lia | |- _ = en ?n => (erewrite (en_gl n); [|cbn; gls]); lia end].
Lemma is_t_name t d : match d with TReserved _ => True | TPunc _ => True | TIdent (NAtom _) => True | _ => False end ->
  is_t t d = true -> tk_value t = d.
Proof.
  intros H E. destruct d as [r|p|?|?|?|n]; try contradiction; try (apply is_t_plain; [exact Logic.I|exact E]).
  destruct n as [a|]; [|contradiction]. unfold is_t, td_eqb in E. destruct (tk_value t) as [?|?|?|?|?|[b|]]; try discriminate E.
  cbn in E. destruct b, a; try reflexivity; discriminate E.
Qed.
Lemma begins_span t d l i j : match d with TReserved _ => True | TPunc _ => True | TIdent (NAtom _) => True | _ => False end ->
  tokok t -> is_t t d = true -> gl l i j -> begins_at V src d (span_of (Some (tk_loc t)) l).
Proof.
  intros Hd T E G. destruct l as [[a b]|]; [|contradiction]. destruct (tk_loc t) as [c e] eqn:El. exists t. eexists.
  split; [apply tok_del, T|]. split; [apply is_t_name; assumption|]. split; [reflexivity|]. rewrite El. reflexivity.
Qed.
Lemma ends_span t d l i j : match d with TReserved _ => True | TPunc _ => True | TIdent (NAtom _) => True | _ => False end ->
  tokok t -> is_t t d = true -> gl l i j -> ends_at V src d (span_of l (Some (tk_loc t))).
Proof.
  intros Hd T E G. destruct l as [[a b]|]; [|contradiction]. destruct (tk_loc t) as [c e] eqn:El. exists t. eexists.
  split; [apply tok_del, T|]. split; [apply is_t_name; assumption|]. split; [reflexivity|]. rewrite El. reflexivity.
Qed.
Ltac dl := split; (let d := fresh "d" in let E := fresh "E" in intros d E; first [discriminate E
  |injection E as <-; first [eapply begins_span|eapply ends_span]; [exact Logic.I|eassumption|eassumption|cbn; gls]]).
Ltac lcs :=
  lazymatch goal with
  | |- Bd _ _ _ _ [] => apply Bd_nil
  | |- Bd _ _ _ _ (_ :: _) => apply Bd_cons; [bnd|lcs]
  | |- Bd _ _ _ _ (_ ++ _) => apply Bd_app; [lcs|lcs]
  | H : LcA ?a ?b ?l |- Bd _ _ _ _ ?l => apply (Bd_LcA a b _ _ _ _ l H); bnd
  | |- Bd _ _ _ _ _ => progress (norm); lcs
  | H : LcA ?a ?b ?l |- LcA ?c ?d ?l => apply (LcA_mono a b l H); lia
  | H : Lc ?a ?b ?n |- Lc ?c ?d ?n => apply (Lc_mono a b n H); lia
  | H : Lc ?a ?b ?n |- XL ?c ?m ?d ?n => split; [apply (Lc_mono a b n H); lia|lia]
  | |- LcA _ _ [] => apply LcA_nil
  | |- LcA _ _ (_ :: _) => apply LcA_cons; [lcs|lcs]
  | |- LcA _ _ (_ ++ _) => apply LcA_app; [lcs|lcs]
  | |- LcA _ _ _ => progress (norm); lcs
  | |- Lc _ _ _ => eapply Lc_intro; [cbn; gls|lia|lia|lia|
      lazymatch goal with |- forall c, In c ?l -> Lc ?a ?b c => change (LcA a b l) end;
      norm; lcs|norm; lcs|ft|dl]
  | |- XL _ _ _ _ => eapply XL_intro; [cbn; gls|lia|lia|lia|lia|
      norm; lcs|norm; lcs|ft|dl]
  end.
Ltac leaves := lazymatch goal with |- _ /\ _ => split; leaves | |- _ <= _ -> _ => intros; discharge; expose; leaves
  | |- lim _ _ _ => intro; discharge; leaves
  | |- _ => first [assumption|lia|exact Logic.I|lcs] end.
Ltac fin := split; [assumption|split; [mon|cbv beta; unfold rdfacts, eats; expose; leaves]].
Ltac pst f := intros; intros s I; assert (O := Inv_ord _ I); prep; unfold f; go.

(** ** The token utilities *)

Definition any : pst -> unit -> pst -> Prop := fun _ _ _ => True.
Create HintDb loc.
Hint Resolve post_lexread post_lexpeek post_lexreread post_posn : loc.
Lemma post_read : post (p_read V) rdfacts. Proof. apply post_lexread. Qed.
Lemma post_read_op : post (p_read_op V) rdfacts. Proof. apply post_lexread. Qed.
Lemma post_peek : post (p_peek V) pkfacts. Proof. apply post_lexpeek. Qed.
Lemma post_peek_op : post (p_peek_op V) pkfacts. Proof. apply post_lexpeek. Qed.
Lemma post_reread_token : post p_reread_token rdfacts. Proof. apply post_lexreread. Qed.
Lemma post_gets {A} (f : pst -> A) : post (gets f) (fun s _ s' => (la s' = la s /\ lb s' = lb s)).
Proof. apply post_lex_same. intros s I. split; [reflexivity|apply I]. Qed.
Lemma post_get_context : post get_context (fun s _ s' => (la s' = la s /\ lb s' = lb s) /\ (forall t, ready t s -> ready t s')).
Proof. intros s I. split; [exact I|]. split; [|auto]. assert (O := Inv_ord _ I). unfold ord, mono in *. splits. leaves. Qed.
Lemma post_modify f : (forall s, p_lexer (f s) = p_lexer s) -> (forall s, p_deferred (f s) = p_deferred s) ->
  post (modify f) (fun s _ s' => (la s' = la s /\ lb s' = lb s)).
Proof. intros H1 H2. apply post_lex_same. intros s I. split; [apply H1|]. rewrite H2. apply I. Qed.
Lemma post_modify_context f : post (modify_context f) (fun s _ s' => (la s' = la s /\ lb s' = lb s)).
Proof. apply post_modify; reflexivity. Qed.
Hint Resolve post_read post_read_op post_peek post_peek_op post_reread_token post_get_context
  post_modify_context : loc.
Hint Extern 1 (post (gets _) _) => apply post_gets : loc.
Hint Extern 1 (post (modify _) _) => apply post_modify; reflexivity : loc.
Ltac prep ::= unfold rdfacts, pkfacts in *; unfold mono, eats, ord in *; cbv beta in *; splits; discharge.

Lemma post_skip : post (p_skip V) (fun s _ s' => eats s s').
Proof.
  intros s I. assert (H := post_lexread false s I). unfold W, p_skip, lex, skip_token, bind, ret in *.
  destruct (read_token V false (p_lexer s)) as [[t x]|?|?|]; try exact H.
  destruct H as (I' & M & (Ht & _)). auto.
Qed.
Lemma post_expect d : post (p_expect V d) (fun s t s' => rdfacts s t s' /\ is_t t d = true).
Proof. pst @p_expect. fin. Qed.
Lemma post_reread d : post (p_reread d) (fun s t s' => rdfacts s t s' /\ is_t t d = true).
Proof.
  intros s I. unfold p_reread. apply W_bind, W_repeek. intros t Ht. destruct (is_t t d) eqn:E; [|apply W_panic; discriminate].
  use. match goal with H : forall t0, _ -> _ = t0 |- _ => pose proof (H t Ht); subst a end. fin.
Qed.
Definition matched (s s' : pst) : Prop := lim (la s) 1 (la s' = 1).
Lemma post_matches_token d : post (p_matches_token V d) (fun s o s' =>
  match o with Some t => rdfacts s t s' /\ is_t t d = true | None => matched s s' end).
Proof. pst @p_matches_token; unfold matched; fin. Qed.
Lemma post_matches d : post (p_matches V d) (fun s b s' => if b then eats s s' else matched s s').
Proof. pst @p_matches; unfold matched; fin. Qed.
Lemma post_matches_op d : post (p_matches_op V d) (fun s b s' => if b then eats s s' else matched s s').
Proof. pst @p_matches_op; unfold matched; fin. Qed.
Ltac prep ::= unfold rdfacts, pkfacts, matched in *; unfold mono, eats, ord in *; cbv beta in *; splits; discharge.
Hint Resolve post_skip post_expect post_reread post_matches_token post_matches post_matches_op : loc.
Lemma post_arg : post (p_has_arg_same_line V) (fun _ _ _ => True).
Proof. pst @p_has_arg_same_line. fin. Qed.
Lemma W_unexpected {A} s (F : A -> pst -> Prop) : Inv s -> W unexpected s F.
Proof. intros I. unfold unexpected. go. Qed.
(** What a check may find. *)
Definition checks_honest (f : P (option check)) : Prop := forall s, match f s with
  | Ok (k, s') => s' = s /\ (forall c, k = Some c -> check_honest V src c)
  | Err e => honest V src e
  | Panic k => panic_honest V src k
  | NoFuel => True
  end.
Lemma post_strict_check f : checks_honest f -> post (strict_check f) (fun s _ s' => (la s' = la s /\ lb s' = lb s)).
Proof.
  intros Hf. apply post_lex_same. intros s I. unfold strict_check, bind, get_context, gets, modify, ret, err.
  assert (D : forall c, check_honest V src c -> Forall (check_honest V src) (p_deferred s ++ [c])).
  { intros c Hc. apply Forall_app. split; [apply I|auto]. }
  assert (D0 : Forall (check_honest V src) (p_deferred s)) by apply I.
  destruct (tri_eqb _ No); [split; [reflexivity|exact D0]|].
  specialize (Hf s). destruct (f s) as [[k s']|?|?|]; try exact Hf. destruct Hf as [-> Hk].
  destruct k as [[x|x]|]; [specialize (Hk _ eq_refl)|specialize (Hk _ eq_refl)|].
  - destruct (tri_eqb _ Yes); [exact Hk|]. split; [reflexivity|apply D, Hk].
  - destruct (goal_eqb _ G_Module); [exact Hk|].
    destruct (negb _); (split; [reflexivity|]); [apply D, Hk|exact D0].
  - split; [reflexivity|exact D0].
Qed.
(** The names that no check is made for. *)
Definition dull (n : name) : Prop := name_strict_reserved n = No /\ name_illegal_strict_binding n = false.
Definition idok (l : span) (n : name) : Prop := word_there V src (Some l) n \/ dull n.
Lemma id_check_honest b n l : idok l n -> checks_honest (id_check b n l).
Proof.
  intros H s. unfold id_check. destruct n as [a|x].
  - destruct H as [H|[H1 H2]].
    + destruct a; cbn; destruct b; cbn; (split; [reflexivity|]); intros c Hc; try discriminate Hc; injection Hc as <-;
        (split; [exact H|cbn; tauto]).
    + rewrite H2, andb_false_r, H1. cbn. split; [reflexivity|discriminate].
  - cbn. rewrite andb_false_r. cbn. split; [reflexivity|discriminate].
Qed.
Lemma post_id_check b n l : idok l n -> post (strict_check (id_check b n l)) (fun s _ s' => (la s' = la s /\ lb s' = lb s)).
Proof. intros H. apply post_strict_check, id_check_honest, H. Qed.
Lemma post_body_check b ps : first_compound ps = None ->
  post (strict_check (body_check b ps)) (fun s _ s' => (la s' = la s /\ lb s' = lb s)).
Proof.
  intros H. apply post_strict_check. intros s. unfold body_check, ret. rewrite H.
  split; [reflexivity|]. destruct (existsb _ _); discriminate.
Qed.
Lemma post_const_check t : tokok t -> is_t t (TReserved R_With) = true ->
  post (strict_check (ret (Some (Ck_Strict (StrictWith t))))) (fun s _ s' => (la s' = la s /\ lb s' = lb s)).
Proof.
  intros H E. apply post_strict_check. intros s. split; [reflexivity|]. intros c Hc. injection Hc as <-.
  apply (hon_there t (TReserved R_With) Logic.I H E).
Qed.
Hint Resolve post_arg post_id_check post_body_check post_const_check : loc.

(** A statement's end: [start] lies at index [i], no later than the current position. *)
Lemma W_semi {A} set start nl (f : semi -> A) s (F : A -> pst -> Prop) : Inv s ->
  (forall semi s' e, Inv s' -> mono s s' -> ord s' -> pw e -> R s <= off e <= R s' ->
     F (set (f semi) (Some (Span start e))) s') ->
  W (end_with_auto_semi V set start nl f) s F.
Proof.
  intros I HF. assert (O := Inv_ord _ I). prep. unfold end_with_auto_semi. go;
    try (apply HF; [assumption|mon|mon|assumption|lia]).
  match goal with H : forall t0, _ -> _ = t0, E : hd_error _ = Some _ |- _ => pose proof (H _ E); subst end.
  repeat match goal with H : _ || _ = false |- _ => apply orb_false_iff in H as [? ?] end.
  destruct nl; [|discriminate].
  match goal with T : tokok ?t |- honest _ _ (FailedASI ?t) => split; [exact (tok_del t T)|] end.
  split; [now apply negb_true_iff|]. repeat split; (apply is_t_not; [assumption|exact Logic.I]).
Qed.

Ltac step1 ::=
  cbv beta zeta;
  lazymatch goal with
  | |- W (bind _ _) _ _ => apply W_bind
  | |- W (ret _) _ _ => apply W_ret
  | |- W (err _) _ _ => apply W_err; try hon
  | |- W unexpected _ _ => apply W_unexpected; assumption
  | |- W (panic_at _) _ _ => apply W_panic; discriminate
  | |- W (let '(_, _) := ?x in _) _ _ => destruct x
  | |- W (if ?b then _ else _) _ _ => destruct b eqn:?
  | |- W (match ?b with _ => _ end) _ _ => destruct b eqn:?
  | |- W (p_allow_in _ _) _ _ => unfold p_allow_in
  | |- W (p_span _ _) _ _ => unfold p_span
  | |- W (end_with_auto_semi _ _ _ _ _) _ _ => apply W_semi; [assumption|
      let x := fresh "semi" in let s := fresh "s" in let e := fresh "e" in let I := fresh "I" in
      let M := fresh "M" in let O := fresh "O" in intros x s e I M O ? ?; prep]
  | |- W (p_unread _) _ _ => apply W_unread; [assumption|assumption|lia|lia|first [assumption|split; intro; [discharge; lia|first [lia|softs]]]|
      let s := fresh "s" in let I := fresh "I" in let O := fresh "O" in
      intros s I O ? ? ? ? ? ?; prep]
  | |- W (loopM _ _ _) _ _ => idtac
  | |- W _ _ _ => use
  end.
Ltac step1' := lazymatch goal with |- W (loopM _ _ _) _ _ => fail | |- _ => step1 end.
Ltac go ::= repeat step1'.

(** ** Identifiers *)

(** An identifier made of a token. *)
Definition isname (i : id) : Prop := name_there V src (id_loc i) (id_name i).

Definition XQ {A} (f : A -> node) (s : pst) (a : A) (s' : pst) : Prop := XL (B0 s) (B0 s') (R s') (f a) /\ la s' <= 1.
Definition LQ {A} (f : A -> node) (s : pst) (a : A) (s' : pst) : Prop := lim (la s) 1 (Lc (B0 s) (R s') (f a)).
Definition IQ {A} (f : A -> node) (s : pst) (a : A) (s' : pst) : Prop := lim (lb s) 1 (Lc (B0 s) (R s') (f a) /\ la s' <= 1).
Definition LB {A} (f : A -> list node) (s : pst) (a : A) (s' : pst) : Prop := lim (lb s) 1 (LcA (B0 s) (R s') (f a) /\ la s' <= 1).
Definition LA {A} (f : A -> list node) (s : pst) (a : A) (s' : pst) : Prop := lim (la s) 1 (LcA (B0 s) (R s') (f a)).
Ltac prep ::= unfold isname, rdfacts, pkfacts, matched, XQ, LQ, IQ, LB, LA in *; unfold mono, eats, ord in *; cbv beta in *; splits; discharge.
Ltac fin ::= split; [assumption|split; [mon|cbv beta; unfold isname, XQ, LQ, IQ, LB, LA, rdfacts, eats; expose;
  leaves]].

Lemma ident_value t n : as_ident t = Some n -> tk_value t = TIdent n.
Proof. unfold as_ident. destruct (tk_value t); congruence. Qed.
Lemma idok_tok t n : tokok t -> as_ident t = Some n -> idok (tk_loc t) n.
Proof.
  intros T E. left. exists t, n. split; [apply tok_del, T|]. split; [reflexivity|].
  split; [apply ident_value, E|reflexivity].
Qed.
Hint Resolve idok_tok : loc.
Lemma post_new_id b n l : idok l n -> post (new_id b n l) (fun s i s' => i = Id (Some l) n /\ (la s' = la s /\ lb s' = lb s)).
Proof. pst new_id. split; [assumption|]. split; [mon|]. split; [reflexivity|lia]. Qed.
Hint Resolve post_new_id : loc.
Lemma post_new_id_from_token b t : tokok t ->
  post (new_id_from_token b t) (fun s i s' => id_loc i = Some (tk_loc t) /\ (la s' = la s /\ lb s' = lb s)).
Proof.
  pst new_id_from_token. subst. split; [assumption|]. split; [mon|]. split; [reflexivity|lia].
Qed.
Hint Resolve post_new_id_from_token : loc.
Lemma isname_tok t n : tokok t -> as_ident t = Some n -> isname (Id (Some (tk_loc t)) n).
Proof. intros T E. exists t. split; [apply tok_del, T|]. split; [reflexivity|apply ident_value, E]. Qed.
Lemma post_id b : post (p_id V b) (fun s i s' => XQ N_id s i s' /\ eats s s' /\ isname i).
Proof.
  pst p_id. subst. match goal with T : tokok ?t, E : as_ident ?t = Some ?n |- _ => pose proof (isname_tok t n T E) end. fin.
Qed.
Hint Resolve post_id : loc.
Lemma post_id_opt b : post (p_id_opt V b) (LA (of_opt N_id)).
Proof. pst p_id_opt; subst; fin. Qed.
Lemma W_binding s F : Inv s -> W (binding_pattern V) s F.
Proof. intros I. assert (O := Inv_ord _ I). prep. unfold binding_pattern. go. reflexivity. Qed.
Lemma post_binding Q : post (binding_pattern V) Q.
Proof. intros s I. apply W_binding, I. Qed.
Definition simple (p : patt id) : Prop := match p with Simple _ => True | Compound _ => False end.
Lemma post_pattern : post (pattern_ V) (fun s p s' => XQ N_ipatt s p s' /\ eats s s' /\ simple p).
Proof.
  pst pattern_; [cbn [simple]; fin|]. apply W_binding. assumption.
Qed.
Hint Resolve post_id_opt post_pattern : loc.

(** ** Methods *)

Ltac prep ::= unfold isname, rdfacts, pkfacts, matched, XQ, LQ, IQ, LB, LA in *; unfold mono, eats, ord in *; cbv beta in *; splits;
  discharge.

Section Methods.
Context (Rc : recs).
Context (HA : post (r_assign Rc) (XQ N_expr)) (HI : forall d, post (r_item Rc d) (IQ N_item)).
Hint Resolve HA HI : loc.

Lemma post_more_comma {A} (g : A -> node) (x : A) f : post f (LQ g) ->
  post (more_comma V Rc x f) (fun s l s' => exists rest, l = x :: rest /\ LcA (B0 s) (R s') (of_list g rest)).
Proof.
  intros Hf. pst @more_comma.
  apply (W_loop (fun l s1 => mono s s1 /\ exists rest, l = x :: rest /\ LcA (B0 s) (R s1) (of_list g rest))).
  - intros l s1 I1 O1 [M (rest & -> & Hr)]. prep. go.
    + split; [assumption|]. split; [mon|]. exists (rest ++ [a0]). split; [reflexivity|]. lcs.
    + split; [assumption|]. split; [assumption|]. split; [mon|]. exists rest. split; [reflexivity|]. lcs.
  - assumption.
  - split; [mon|]. exists []. split; [reflexivity|]. lcs.
Qed.
(** Nodes that lie one after another, up to the place where the next one would start. *)
Definition row {A} (g : A -> node) (lo m : nat) (l : list A) : Prop :=
  l = [] \/ exists r z, l = r ++ [z] /\ (forall c, In c r -> en (g c) <= st (g z)) /\ lo <= st (g z) /\ en (g z) <= m.
Lemma row_snoc {A} (g : A -> node) lo m l z m' : row g lo m l -> m <= st (g z) -> lo <= st (g z) -> en (g z) <= m' ->
  (forall c, In c l -> st (g c) <= en (g c)) -> row g lo m' (l ++ [z]).
Proof.
  intros [->|(r & y & -> & H1 & H2 & H3)] Hm Hl Hz Hs; right; [exists [], z|exists (r ++ [y]), z]; (split; [reflexivity|]).
  - repeat split; auto. intros c [].
  - repeat split; auto. intros c Hc. assert (S1 := Hs y ltac:(apply in_or_app; right; left; reflexivity)).
    apply in_app_or in Hc as [Hc|[<-|[]]]; [specialize (H1 _ Hc)|]; lia.
Qed.
Lemma row_Bd {A} (g : A -> node) lo hi r z i j bl br : LcA lo hi (of_list g (r ++ [z])) -> i <= lo -> en (g z) <= j ->
  (forall c, In c r -> en (g c) <= st (g z)) -> Bd bl br i j (of_list g (r ++ [z])).
Proof.
  intros H Hi Hj Hr c Hc. assert (K := fun c Hc => Lc_gl _ _ _ (H c Hc)). assert (Kc := K _ Hc).
  assert (Kz := K (g z) ltac:(apply in_map, in_or_app; right; left; reflexivity)).
  apply in_map_iff in Hc as (c0 & <- & Hc). split; intros _; [lia|].
  apply in_app_or in Hc as [Hc|[->|[]]]; [specialize (Hr _ Hc)|]; lia.
Qed.
Lemma post_more_commaX {A} (g : A -> node) (x : A) f : post f (XQ g) ->
  post (more_comma V Rc x f) (fun s l s' => exists rest, l = x :: rest /\ LcA (B0 s) (R s') (of_list g rest)
    /\ row g (B0 s) (B0 s') rest /\ (la s <= 1 \/ rest <> [] -> la s' <= 1)).
Proof.
  intros Hf. pst @more_comma.
  apply (W_loop (fun l s1 => mono s s1 /\ exists rest, l = x :: rest /\ LcA (B0 s) (R s1) (of_list g rest)
    /\ row g (B0 s) (B0 s1) rest /\ (la s <= 1 \/ rest <> [] -> la s1 <= 1))).
  - intros l s1 I1 O1 [M (rest & -> & Hr & Hw & Hn)]. prep. go.
    + split; [assumption|]. split; [mon|]. exists (rest ++ [a0]). split; [reflexivity|]. split; [lcs|]. expose.
      split; [|intros _; lia]. eapply row_snoc; [exact Hw|lia|lia|lia|]. intros c Hc. eapply (proj1 (proj2 (proj2 (Lc_gl _ _ _ (Hr _ (in_map _ _ _ Hc)))))).
    + split; [assumption|]. split; [assumption|]. split; [mon|]. exists rest. split; [reflexivity|]. split; [lcs|].
      split; [|intros Hx; specialize (Hn Hx); discharge; lia]. destruct Hw as [->|(r & z & -> & ? & ? & ?)]; [left; reflexivity|right; exists r, z]. repeat split; auto; lia.
  - assumption.
  - split; [mon|]. exists []. split; [reflexivity|]. split; [lcs|]. split; [left; reflexivity|]. intros [?|[]]; auto.
Qed.
Lemma post_comma_separated {A} (g : A -> node) f : post f (LQ g) ->
  post (comma_separated V Rc f) (LA (of_list g)).
Proof.
  intros Hf. pst @comma_separated. eapply W_use; [apply post_more_comma, Hf|assumption|].
  intros l s2 I2 M O2 (rest & -> & Hr). prep. fin.
Qed.
Lemma last_cons {A} (x : A) l d : last (x :: l) d = match l with [] => x | _ => last l d end.
Proof. destruct l; reflexivity. Qed.
Lemma last_in {A} (l : list A) d : l <> [] -> In (last l d) l.
Proof.
  induction l as [|x l IH]; [congruence|]. intros _. rewrite last_cons. destruct l as [|y l]; [left; reflexivity|].
  right. apply IH. discriminate.
Qed.
Lemma last_map {A B} (f : A -> B) l d : last (map f l) (f d) = f (last l d).
Proof. induction l as [|x l IH]; [reflexivity|]. cbn [map]. rewrite !last_cons. destruct l; [reflexivity|apply IH]. Qed.

Lemma XQ_LQ {A} (f : A -> node) m : post m (XQ f) -> post m (LQ f).
Proof. intros H. apply (post_mono _ _ _ H). intros s a s' _ _ _ [[q _] _] _. exact q. Qed.

Lemma post_more_expressions e lo hi : Lc lo hi (N_expr e) ->
  post (more_expressions V Rc e) (fun s r s' => lo <= B0 s -> en (N_expr e) <= B0 s -> hi <= R s -> la s <= 1 ->
    XL lo (B0 s') (R s') (N_expr r) /\ la s' <= 1).
Proof.
  intros He. pst more_expressions.
  - split; [assumption|]. split; [mon|]. intros. discharge. split; [expose; lcs|lia].
  - eapply W_use; [apply (post_more_commaX N_expr), HA|assumption|].
    intros l s2 I2 M O2 (rest & -> & Hr & Hw & Hn). prep. unfold p_vec_span. cbn [map].
    apply W_bind, W_ret, W_ret. split; [assumption|]. split; [mon|]. intros.
    discharge. split; [|apply Hn; left; lia].
    expose. rewrite <- map_cons, last_map. destruct Hw as [->|(r & z & -> & H1' & H2' & H3')].
    + cbn [last]. lcs.
    + rewrite app_comm_cons, last_last. assert (Hz : Lc (B0 s0) (R s2) (N_expr z)).
      { apply Hr, in_map, in_or_app. right. left. reflexivity. }
      expose.
      eapply XL_intro; [cbn; gls|lia|lia|lia|lia| | | |dl]; try
        change (children _) with (of_list N_expr (e :: r ++ [z])).
      * rewrite of_list_cons. lcs.
      * rewrite of_list_cons. apply Bd_cons; [bnd|]. eapply row_Bd; [exact Hr|lia|lia|assumption].
      * split; intros _; cbn [children expr_children]; unfold of_list;
          [reflexivity|rewrite ?app_comm_cons, map_app, rev_app_distr; reflexivity].
Qed.
Hint Resolve post_more_expressions : loc.
Lemma post_expression : post (expression V Rc) (XQ N_expr).
Proof. pst expression. fin. Qed.
Hint Resolve post_expression : loc.
Lemma post_paren : post (paren_expression V Rc) (XQ N_expr).
Proof. pst paren_expression. fin. Qed.
Hint Resolve post_paren : loc.

Lemma simples_app l p : first_compound l = None -> simple p -> first_compound (l ++ [p]) = None.
Proof. induction l as [|[i|c] l IH]; cbn [first_compound app]; [destruct p; [reflexivity|contradiction]|exact IH|discriminate]. Qed.
Lemma simples_one p : simple p -> first_compound [p] = None.
Proof. apply (simples_app [] p). reflexivity. Qed.
Lemma simples_nil : first_compound [] = None.
Proof. reflexivity. Qed.
Hint Resolve simples_one simples_nil : loc.
Lemma post_formals : post (formal_parameters V Rc) (fun s p s' => LQ N_params s p s' /\ eats s s' /\ lim (la s) 1 (la s' = 0)
  /\ first_compound (pa_list p) = None).
Proof.
  pst formal_parameters.
  apply (W_loop (fun l s2 => mono s1 s2 /\ LcA (B0 s1) (R s2) (of_list N_ipatt l) /\ first_compound l = None)).
  - intros l s2 I2 O2 (M & Hl & Hc). prep. go;
    (split; [assumption|]).
    + go. fin.
    + go. fin.
    + split; [mon|]. split; [lcs|apply simples_app; assumption].
    + match goal with |- context [l ++ [?p]] => assert (first_compound (l ++ [p]) = None) by (apply simples_app; assumption) end.
      go. fin.
  - assumption.
  - split; [mon|]. split; [lcs|reflexivity].
Qed.
Hint Resolve post_formals : loc.

Definition dirmono (s s' : pst) : Prop := B0 s <= B0 s' /\ B1 s <= B1 s' /\ R s <= R s' /\ lim (la s) 1 (lb s' <= 1).
Lemma W_directive s (F : option dir -> pst -> Prop) : Inv s ->
  (forall o s', Inv s' -> dirmono s s' -> ord s' ->
     match o with Some _ => lim (la s) 1 (la s' <= 1) | None => True end ->
     LcA (B0 s) (R s') (of_opt N_dir o) -> F o s') ->
  W (match_directive_opt V) s F.
Proof.
  intros I HF. assert (O := Inv_ord _ I). prep. unfold match_directive_opt. go;
    (apply HF; [assumption| |mon|first [exact Logic.I|intro; discharge; lia]|expose; lcs]);
    unfold dirmono; (repeat (split; [lia|])); intro; discharge;
    unfold unconst in *; repeat match goal with H : tk_value _ = _ |- _ => rewrite H in * end; lia.
Qed.
Lemma post_apply_pragma d : post (apply_pragma d) (fun s _ s' => (la s' = la s /\ lb s' = lb s)).
Proof. pst apply_pragma; unfold set_module; go; fin. Qed.
Hint Resolve post_apply_pragma : loc.
Lemma W_body_directives s (F : list dir -> pst -> Prop) : Inv s ->
  (forall l s', Inv s' -> dirmono s s' -> ord s' -> LcA (B0 s) (R s') (of_list N_dir l) -> F l s') ->
  W (body_directives V Rc) s F.
Proof.
  intros I HF. assert (O := Inv_ord _ I). prep. unfold body_directives.
  apply (W_loop (fun l s2 => mono s s2 /\ LcA (B0 s) (R s2) (of_list N_dir l))).
  - intros l s2 I2 O2 [M Hl]. prep. go. apply W_directive; [assumption|].
    intros o s3 I3 M3 O3 Ho Hd. unfold dirmono in *. prep. destruct o as [d|]; prep; go; (split; [assumption|]).
    + split; [mon|]. cbn in *. lcs.
    + apply HF; [assumption|mon|mon|lcs].
  - assumption.
  - split; [mon|]. lcs.
Qed.
Lemma post_statement_list : post (statement_list V Rc) (LB (of_list N_item)).
Proof.
  pst statement_list. apply (W_loop (fun l s2 => mono s s2 /\ lim (lb s) 1 (lb s2 <= 1 /\ LcA (B0 s) (R s2) (of_list N_item l)))).
  - intros l s2 I2 O2 [M Hl]. prep. go; (split; [assumption|]).
    + split; [assumption|]. split; [mon|]. intro. discharge. split; [lcs|].
      match goal with H : hard ?t ?x |- _ => destruct H as [H|H]; [exfalso|exact H]; unfold follow_statement_list, soft in *;
        destruct (tk_value t) as [[]| | | | |]; discriminate end.
    + split; [mon|]. intro. discharge. split; [lia|lcs].
  - assumption.
  - split; [mon|]. intro. split; [lia|lcs].
Qed.
Hint Resolve post_statement_list : loc.
Lemma post_script_body : post (script_body V Rc) (fun s b s' => lim (la s) 0 ((Lc (B0 s) (R s') (N_body b)))).
Proof.
  pst script_body. apply W_body_directives; [assumption|]. intros l s2 I2 M2 O2 Hl. unfold dirmono in *. prep. go. fin.
Qed.
Hint Resolve post_script_body : loc.
Lemma post_function_body ps : first_compound ps = None -> post (function_body V Rc ps) (fun s b s' => LQ N_body s b s' /\ eats s s' /\ lim (la s) 1 (la s' = 0)).
Proof. pst function_body. fin. Qed.
Hint Resolve post_function_body : loc.
Lemma post_function {Ty} (idn : Ty -> list node) (fnode : func Ty (body item) -> node) g :
  (forall f, node_loc (fnode f) = fn_loc f) -> (forall f, children (fnode f) = func_children idn f) ->
  (forall f i j, Fit (fnode f) i j /\ delimited V src (fnode f)) -> post g (LA idn) -> post (function_ V Rc g) (fun s f s' => XQ fnode s f s' /\ R s <= st (fnode f)).
Proof.
  intros Hn Hc Hf Hg. pst @function_;
    (split; [assumption|split; [mon|]]; unfold XQ; expose; (split; [split; [|lia]|(erewrite st_gl; [|rewrite Hn; cbn; gls]); lia]);
     eapply XL_intro; [rewrite Hn; cbn; gls|lia|lia|lia|lia|rewrite Hc; unfold func_children; cbn; lcs
       |rewrite Hc; unfold func_children; cbn; lcs|apply Hf|apply (Hf _ 0 0)]).
Qed.
Lemma post_fexpr : post (function_ V Rc (p_id_opt V true)) (fun s f s' => XQ N_fexpr s f s' /\ R s <= st (N_fexpr f)).
Proof. apply (post_function (of_opt N_id)); try reflexivity; [repeat split; discriminate|]. eauto with loc. Qed.
Lemma post_fdecl : post (function_ V Rc (p_id V true)) (fun s f s' => XQ N_fdecl s f s' /\ R s <= st (N_fdecl f)).
Proof.
  apply (post_function (fun i => [N_id i])); try reflexivity; [repeat split; discriminate|].
  apply (post_mono _ _ _ (post_id true)). intros s a s' _ _ _ [[[H _] _] _] _. lcs.
Qed.
Hint Resolve post_fexpr post_fdecl : loc.
Lemma post_function_declaration : post (function_declaration V Rc) (LQ N_decl).
Proof.
  pst function_declaration. split; [assumption|]. split; [mon|]. intros _. expose.
  match goal with H : Lc _ _ (N_fdecl _) |- _ => assert (Hc := Lc_children _ _ _ H); assert (Hb := Lc_Bd _ _ _ H) end.
  change (Lc (B0 s) (R s2) (N_decl (D_Fun (func_set_loc a0 (Some (Span a a1)))))).
  assert (K : Lc (B0 s) (R s2) (N_fdecl (func_set_loc a0 (Some (Span a a1))))); [|expose; lcs].
  eapply Lc_intro; [cbn; gls|lia|lia|lia| | |split; discriminate|split; discriminate].
  - intros c Hi. eapply Lc_mono; [apply Hc; destruct a0; exact Hi|lia|lia].
  - intros c Hi. destruct (Hb c) as [Hb1 Hb2]; [destruct a0; exact Hi|]. specialize (Hb1 eq_refl). specialize (Hb2 eq_refl). lia.
Qed.
Hint Resolve post_function_declaration : loc.
Lemma post_list_item : post (expr_list_item V Rc) (LQ N_eli).
Proof. pst expr_list_item; fin. Qed.
Hint Resolve post_list_item : loc.
Lemma post_element : post (array_element V Rc) (LA (of_opt N_eli)).
Proof. pst array_element; fin. Qed.
Hint Resolve post_element : loc.
(** Methods given the token that was read before them. *)
Definition after (t : token) (s s' : pst) (n : node) : Prop :=
  te t <= B0 s -> la s <= 1 -> XL (ti t) (B0 s') (R s') n /\ la s' <= 1.
Ltac fin ::= prep; split; [assumption|split; [mon|cbv beta; unfold after, XQ, LQ, IQ, LB, LA, rdfacts, eats; intros; discharge; expose;
  leaves]].
Ltac prep ::= unfold isname, after, rdfacts, pkfacts, matched, XQ, LQ, IQ, LB, LA in *; unfold mono, eats, ord in *; cbv beta in *; splits;
  discharge.
Lemma post_array t : tokok t -> is_t t (TPunc T_LBrack) = true -> post (array_literal V Rc t) (fun s e s' => after t s s' (N_expr e)).
Proof.
  intros Ht Hi. assert (ti t <= te t) by apply Ht. pst array_literal.
  apply (W_loop (fun l s2 => mono s s2 /\ lim (la s) 1 (LcA (B0 s) (R s2) (of_holes N_eli l)))).
  - intros l s2 I2 O2 [M Hl]. prep. go; (split; [assumption|]).
    + go. fin.
    + split; [mon|]. intro. discharge. expose. lcs.
    + go. fin.
  - assumption.
  - split; [mon|]. intro. discharge. expose. lcs.
Qed.
Hint Resolve post_array : loc.

Definition keyok (k : prop_key) : Prop :=
  match k with PK_Id (Some l) n => idok l (name_from n) | _ => True end.
Lemma keyok_use l n : keyok (PK_Id (Some l) n) -> idok l (name_from n).
Proof. intros H. exact H. Qed.
Hint Resolve keyok_use : loc.
Lemma keyok_tok t k : tokok t -> token_prop_key t = Some k -> keyok k.
Proof.
  intros T. unfold token_prop_key. destruct (tk_value t) as [r|p|n|x|x|x] eqn:E; intros H; try discriminate H;
    injection H as <-; try exact Logic.I.
  - right. destruct r; split; reflexivity.
  - left. exists t. eexists. split; [apply tok_del, T|]. split; [reflexivity|]. split; [exact E|].
    symmetry. apply name_from_string.
Qed.
Lemma post_more_prop_init k lo hi : keyok k -> Lc lo hi (N_pk k) ->
  post (more_prop_init V Rc k) (fun s p s' => lo <= B0 s -> en (N_pk k) <= B0 s -> hi <= R s -> la s <= 1 ->
    Lc lo (R s') (N_prop p)).
Proof.
  intros Hkk Hk. pst more_prop_init; subst.
  - fin.
  - fin.
  - fin.
Qed.
Hint Resolve post_more_prop_init : loc.
Lemma post_key_opt : post (property_key_opt V) (fun s o s' =>
  match o with Some k => XQ N_pk s k s' /\ eats s s' /\ keyok k | None => matched s s' end).
Proof.
  pst property_key_opt; [|fin].
  match goal with T : tokok ?t, E : token_prop_key ?t = Some ?k |- _ => pose proof (keyok_tok t k T E) end.
  unfold token_prop_key in *.
  destruct (tk_value a) eqn:Ev; try discriminate;
    match goal with H : Some _ = Some _ |- _ => injection H as <- end; fin.
Qed.
Hint Resolve post_key_opt : loc.
Lemma post_key : post (property_key V) (fun s k s' => XQ N_pk s k s' /\ keyok k).
Proof. pst property_key; fin. Qed.
Hint Resolve post_key : loc.
Lemma Lc_tok_key t lo hi : tokok t -> lo <= ti t -> te t <= hi -> forall n,
  XL lo (te t) hi (N_pk (PK_Id (Some (tk_loc t)) n)).
Proof. intros Ht H1 H2 n. assert (ti t <= te t) by apply Ht. lcs. Qed.
(** Putting back a reserved word and reading it as a key. *)
Lemma W_unread_key {A} t w s (k : prop_key -> P A) F : tk_value t = TReserved w -> la s <= 1 ->
  W (k (PK_Id (Some (tk_loc t)) (reserved_name w))) s F ->
  W (p_unread t) s (fun _ s2 => W (bind (property_key V) k) s2 F).
Proof.
  intros Et Hla H. destruct s as [g d [rd l e] c]. unfold la, ahead in Hla. cbn [p_lexer lx_ahead] in Hla.
  unfold W at 1. unfold p_unread, lex, unread_token, bind, gets, modify. cbn [p_lexer lx_ahead].
  destruct (Nat.ltb_spec (length l) lookahead_capacity) as [_|K]; [|unfold lookahead_capacity in K; lia].
  unfold W, property_key, property_key_opt, p_read, lex, read_token, token_prop_key, bind, gets, modify, ret.
  cbn. rewrite Et. cbn. exact H.
Qed.
Lemma post_property : post (object_property V Rc) (LQ N_prop).
Proof.
  assert (Hkey : forall t n, tokok t -> (n = lit "get" \/ n = lit "set") -> post (more_prop_init V Rc (PK_Id (Some (tk_loc t)) n))
    (fun s p s' => te t <= B0 s -> la s <= 1 -> Lc (ti t) (R s') (N_prop p))).
  { intros t n Ht Hn. assert (ti t <= te t) by apply Ht.
    destruct (Lc_tok_key t (ti t) (te t) Ht (le_n _) (le_n _) n) as [Hl Hs].
    assert (Hk : keyok (PK_Id (Some (tk_loc t)) n)) by (right; destruct Hn; subst n; split; reflexivity).
    apply (post_mono _ _ _ (post_more_prop_init _ _ _ Hk Hl)). intros s a s' O M O' q. intros. prep. lcs. }
  pst object_property; try fin.
  match goal with E : is_reserved ?t = true |- _ => unfold is_reserved in E; destruct (tk_value t) as [w| | | | |] eqn:Et; try discriminate E;
    eapply (W_unread_key t w); [exact Et|lia|];
    assert (Hk : keyok (PK_Id (Some (tk_loc t)) (reserved_name w)))
      by (apply (keyok_tok t); [assumption|unfold token_prop_key; rewrite Et; reflexivity]);
    destruct (Lc_tok_key t (ti t) (te t) ltac:(assumption) (le_n _) (le_n _) (reserved_name w)) as [Hl Hs] end.
  eapply W_use; [apply (post_more_prop_init _ _ _ Hk Hl)|assumption|]. intros p2 s2 I2 M2 O2 q. prep. fin.
Qed.
Hint Resolve post_property : loc.
Lemma post_object t : tokok t -> is_t t (TPunc T_LBrace) = true -> post (object_literal V Rc t) (fun s e s' => after t s s' (N_expr e)).
Proof.
  intros Ht Hi. assert (ti t <= te t) by apply Ht. pst object_literal.
  apply (W_loop (fun l s2 => mono s s2 /\ lim (la s) 1 (LcA (B0 s) (R s2) (of_list N_prop l)))).
  - intros l s2 I2 O2 [M Hl]. prep. go; (split; [assumption|]).
    + go. fin.
    + split; [mon|]. intro. discharge. expose. lcs.
    + go. fin.
  - assumption.
  - split; [mon|]. intro. discharge. expose. lcs.
Qed.
Hint Resolve post_object : loc.
Lemma post_primary : post (primary_expression V Rc) (XQ N_expr).
Proof.
  pst primary_expression; subst; try fin.
  unfold token_literal in *.
  destruct (tk_value a) as [r|p|n|x|x|x] eqn:Ev; try discriminate; try destruct r; try discriminate;
    match goal with H : Some _ = Some _ |- _ => injection H as <- end; fin.
Qed.
Hint Resolve post_primary : loc.
Lemma post_member_base : post (member_base_expression V Rc) (XQ N_expr).
Proof. pst member_base_expression; fin. Qed.
Hint Resolve post_member_base : loc.
Definition argq (s : pst) (a : arguments) (s' : pst) : Prop := LcA (B0 s) (te (args_end a)) (of_list N_eli (args_list a)) /\ la s' <= 1
  /\ tokok (args_end a) /\ B0 s <= ti (args_end a) /\ ti (args_end a) <= te (args_end a) /\ te (args_end a) <= B0 s'
  /\ is_t (args_end a) (TPunc T_RParen) = true.
Ltac prep ::= unfold isname, after, argq, rdfacts, pkfacts, matched, XQ, LQ, IQ, LB, LA in *; unfold mono, eats, ord in *; cbv beta in *; splits;
  discharge.
Lemma post_arguments : post (arguments_ V Rc) (fun s a s' => argq s a s').
Proof.
  pst arguments_; [|unfold argq; cbn [args_list args_end]; fin].
  apply (W_loop (fun l s2 => mono s s2 /\ la s2 <= 1 /\ LcA (B0 s) (R s2) (of_list N_eli l))).
  - intros l s4 I4 O4 (M & Hla & Hl). prep. go; (split; [assumption|]).
    + split; [mon|]. split; [lia|]. lcs.
    + go. unfold argq. cbn [args_list args_end]. fin.
  - assumption.
  - split; [mon|]. split; [lia|]. lcs.
Qed.
Hint Resolve post_arguments : loc.

Definition dq (s : pst) (d : deref) (s' : pst) : Prop :=
  match d with
  | De_Brack e t => Lc (B0 s) (R s') (N_expr e) /\ en (N_expr e) <= ti t /\ la s' <= 1 /\ tokok t /\ B0 s <= ti t /\ ti t <= te t /\ te t <= B0 s'
      /\ is_t t (TPunc T_RBrack) = true
  | De_Dot k => XQ N_dk s k s'
  end.
Lemma post_deref_brack : post (deref_brack V Rc) dq.
Proof. pst deref_brack. unfold dq. fin. Qed.
Lemma post_id_name : post (id_name_ V) (XQ N_dk).
Proof. pst id_name_; fin. Qed.
Hint Resolve post_id_name post_deref_brack : loc.
Lemma post_deref_dot : post (deref_dot V) dq.
Proof. pst deref_dot. unfold dq. fin. Qed.
Hint Resolve post_deref_dot : loc.
Lemma post_deref_opt : post (deref_opt V Rc) (fun s o s' => match o with Some d => dq s d s' | None => True end).
Proof.
  pst deref_opt; [destruct a0|destruct a0|]; unfold dq in *; fin.
Qed.
Definition sq (s : pst) (x : suffix) (s' : pst) : Prop :=
  match x with
  | Su_Deref d => dq s d s'
  | Su_Arguments a => argq s a s'
  end.
Lemma post_suffix_opt : post (suffix_opt V Rc) (fun s o s' => match o with Some d => sq s d s' | None => True end).
Proof.
  pst suffix_opt; unfold sq, argq in *; [destruct a0|destruct a0| |]; unfold dq in *; fin.
Qed.
Hint Resolve post_deref_opt post_suffix_opt : loc.
Lemma deref_loc s d s' e lo hi : ord s' -> dq s d s' -> Lc lo hi (N_expr e) -> en (N_expr e) <= B0 s ->
  lo <= B0 s -> hi <= R s' -> XL lo (B0 s') (R s') (N_expr (deref_append_to d e)).
Proof. intros O Hd He H1 H2 H3. prep. destruct d; cbn [dq deref_append_to] in *; prep; expose; lcs. Qed.
Lemma suffix_loc s d s' e lo hi : ord s' -> sq s d s' -> Lc lo hi (N_expr e) -> en (N_expr e) <= B0 s ->
  lo <= B0 s -> hi <= R s' -> XL lo (B0 s') (R s') (N_expr (suffix_append_to d e)).
Proof.
  intros O Hd He H1 H2 H3. destruct d as [d|[args t]]; cbn [sq suffix_append_to] in *.
  - eapply deref_loc; eauto.
  - unfold argq in *. cbn [args_list args_end] in *. unfold arguments_append_to. cbn [args_list args_end]. prep. expose. lcs.
Qed.
Lemma post_more_suffixes e lo hi : Lc lo hi (N_expr e) ->
  post (more_suffixes V Rc e) (fun s r s' => lo <= B0 s -> en (N_expr e) <= B0 s -> hi <= R s -> la s <= 1 ->
    XL lo (B0 s') (R s') (N_expr r) /\ la s' <= 1).
Proof.
  intros He. pst more_suffixes.
  apply (W_loop (fun r s1 => mono s s1 /\ (lo <= B0 s -> en (N_expr e) <= B0 s -> hi <= R s -> la s <= 1 ->
    XL lo (B0 s1) (R s1) (N_expr r)))).
  - intros r s1 I1 O1 [M Hr]. prep. go; (split; [assumption|]).
    + split; [mon|]. intros. specialize (Hr ltac:(assumption) ltac:(assumption) ltac:(assumption) ltac:(assumption)).
      destruct Hr as [Hr ?]. eapply suffix_loc; [mon|eassumption|exact Hr| | |]; lia.
    + split; [assumption|]. split; [mon|]. intros. discharge. split; [lcs|lia].
  - assumption.
  - split; [mon|]. intros. lcs.
Qed.
Hint Resolve post_more_suffixes : loc.

(** Locations in reverse order of their starts, none overlapping, the first ending no later than [m]. *)
Fixpoint down (lo m hi : nat) (l : list loc) : Prop :=
  match l with
  | [] => True
  | x :: l' => exists i j, gl x i j /\ lo <= i /\ i <= j /\ j <= hi /\ j <= m /\ down lo i hi l'
  end.
Lemma down_mono l : forall lo m hi lo' m' hi', down lo m hi l -> lo' <= lo -> hi <= hi' -> m <= m' ->
  down lo' m' hi' l.
Proof.
  induction l as [|x l IH]; intros lo m hi lo' m' hi' H H1 H2 H3; [exact Logic.I|].
  destruct H as (i & j & Hg & ? & ? & ? & ? & Hd). exists i, j. repeat split; try lia; [exact Hg|].
  eapply IH; [exact Hd|lia|lia|lia].
Qed.
Definition tloc (t : token) : loc := Some (tk_loc t).
Definition newt (t : token) : Prop := tokok t /\ is_t t (TReserved R_New) = true.
Lemma W_apply_news news : Forall newt news -> forall b base s lo (F : expr -> pst -> Prop), Inv s ->
  Lc lo (R s) (N_expr base) -> en (N_expr base) <= B0 s ->
  down lo (st (N_expr base)) (R s) (map tloc news) ->
  (forall e s', Inv s' -> mono s s' -> ord s' -> XL lo (B0 s') (R s') (N_expr e) -> F e s') ->
  W (apply_news V Rc b news base) s F.
Proof.
  induction news as [|new news IH]; intros Hnews b base s lo F I Hb Hs Hd HF; cbn [apply_news map].
  - apply W_ret. apply HF; auto using Inv_ord, mono_refl. split; assumption.
  - cbn [map down] in Hd. destruct Hd as (i & j & Hg & ? & ? & ? & ? & Hd). unfold tloc in Hg.
    assert (Hnew := Forall_inv Hnews). unfold newt in Hnew. apply Forall_inv_tail in Hnews. specialize (IH Hnews).
    assert (O := Inv_ord _ I). prep. expose.
    apply W_bind. apply (W_mono _ _ (fun _ s' => Inv s' /\ mono s s')).
    { destruct b; go; split; auto; mon. }
    intros b' s1 [I1 M1]. assert (O1 := Inv_ord _ I1). prep. go.
    + eapply IH; [assumption| | | |].
      * instantiate (1 := lo). unfold arguments_append_to_new. lcs.
      * erewrite en_gl; [|cbn; gls]. lia.
      * erewrite st_gl; [|cbn; gls]. eapply down_mono; [exact Hd|lia|lia|lia].
      * intros e s' I' M' O' X. apply HF; auto. prep. mon.
    + eapply IH; [assumption| | | |].
      * instantiate (1 := lo). lcs.
      * erewrite en_gl; [|cbn; gls]. lia.
      * erewrite st_gl; [|cbn; gls]. eapply down_mono; [exact Hd|lia|lia|lia].
      * intros e s' I' M' O' X. apply HF; auto. prep. mon.
Qed.
Lemma deref_st s d s' e lo hi : dq s d s' -> Lc lo hi (N_expr e) ->
  st (N_expr (deref_append_to d e)) = st (N_expr e).
Proof.
  intros Hd He. destruct d; cbn [dq deref_append_to] in *; prep; expose;
    (erewrite st_gl; [|cbn; gls]; reflexivity).
Qed.
Lemma W_more_new news e s lo (F : expr -> pst -> Prop) : Forall newt (rev news) -> Inv s -> la s <= 1 ->
  Lc lo (R s) (N_expr e) -> en (N_expr e) <= B0 s ->
  down lo (st (N_expr e)) (R s) (map tloc (rev news)) ->
  (forall e s', Inv s' -> mono s s' -> ord s' -> XL lo (B0 s') (R s') (N_expr e) -> F e s') ->
  W (more_new_expression V Rc news e) s F.
Proof.
  intros Hnews I Hla He Hs Hd HF. assert (O := Inv_ord _ I). unfold more_new_expression. apply W_bind.
  apply (W_loop (fun r s1 => mono s s1 /\ Lc lo (R s1) (N_expr r) /\ st (N_expr r) = st (N_expr e) /\ en (N_expr r) <= B0 s1)).
  - intros r s1 I1 O1 (M & Hr & Hst & Hen). expose. prep. go.
    + split; [assumption|]. split; [mon|].
      assert (X : XL lo (B0 s0) (R s0) (N_expr (deref_append_to d r))).
      { eapply deref_loc; [mon|eassumption|exact Hr|lia|lia|lia]. }
      split; [apply X|]. split; [|apply X]. rewrite <- Hst. eapply deref_st; eassumption.
    + split; [assumption|]. apply W_bind. apply (W_apply_news _ Hnews _ _ _ lo); [assumption| | | |].
      * apply (Lc_mono _ _ _ Hr); lia.
      * lia.
      * eapply down_mono; [exact Hd|lia|lia|lia].
      * intros e' s' I' M' O' X. prep. eapply W_use; [eauto with loc|assumption|].
        intros e2 s3 I3 M3 O3 qq. prep. apply HF; [assumption|mon|mon|lcs].
  - assumption.
  - split; [apply mono_refl|]. auto.
Qed.
Lemma W_new_expression news s lo (F : expr -> pst -> Prop) : Forall newt (rev news) -> Inv s -> lo <= B0 s ->
  down lo (B0 s) (R s) (map tloc (rev news)) ->
  (forall e s', Inv s' -> mono s s' -> ord s' -> XL lo (B0 s') (R s') (N_expr e) -> la s' <= 1 -> F e s') ->
  W (new_expression V Rc news) s F.
Proof.
  intros Hnews I Hlo Hd HF. assert (O := Inv_ord _ I). prep. unfold new_expression. go. expose.
  eapply W_more_new; [exact Hnews|assumption|lia| | | |].
  - instantiate (1 := lo). lcs.
  - lia.
  - eapply down_mono; [exact Hd|lia|lia|lia].
  - intros e s' I' M' O' X. apply HF; auto; prep; [mon|lia].
Qed.
Lemma post_call_expression : post (call_expression V Rc) (XQ N_expr).
Proof. pst call_expression. fin. Qed.
Hint Resolve post_call_expression : loc.
Lemma post_read_news : post (read_news V Rc) (fun s news s' => Forall newt (rev news) /\ down (B0 s) (B0 s') (R s') (map tloc (rev news))).
Proof.
  pst read_news.
  apply (W_loop (fun l s2 => mono s s2 /\ Forall newt (rev l) /\ down (B0 s) (B0 s2) (R s2) (map tloc (rev l)))).
  - intros l s2 I2 O2 (M & Hf & Hl). prep. go; (split; [assumption|]).
    + split; [mon|]. rewrite rev_app_distr. cbn [rev app map down]. split; [constructor; [split; assumption|exact Hf]|].
      exists (ti a0), (te a0). repeat split; try lia; [unfold tloc; gls|].
      eapply down_mono; [exact Hl|lia|lia|lia].
    + split; [assumption|]. split; [mon|]. split; [exact Hf|]. eapply down_mono; [exact Hl|lia|lia|lia].
  - assumption.
  - split; [mon|]. split; [constructor|exact Logic.I].
Qed.
Hint Resolve post_read_news : loc.
Lemma post_lhs : post (lhs_expression V Rc) (XQ N_expr).
Proof.
  pst lhs_expression.
  - fin.
  - match goal with D : down _ _ _ _ |- _ => cbn [map down] in D;
      destruct D as (i & j & Hg & ? & ? & ? & ? & Hd) end. unfold tloc in Hg.
    match goal with N : Forall newt (_ :: _) |- _ => destruct (Forall_inv N) as [? ?]; apply Forall_inv_tail in N end.
    assert (X : XL (B0 s) (te a1) (R s2) (N_expr (E_NewTarget (span_of (Some (tk_loc t)) (Some (tk_loc a1)))))) by lcs.
    destruct X as [X Xs].
    eapply W_use; [eauto with loc|assumption|]. intros e s3 I3 M3 O3 q. prep. fin.
  - match goal with D : down _ _ _ _ |- _ => cbn [map down] in D;
      destruct D as (i & j & Hg & ? & ? & ? & ? & Hd) end. unfold tloc in Hg.
    match goal with N : Forall newt (_ :: _) |- _ => destruct (Forall_inv N) as [? ?]; apply Forall_inv_tail in N end.
    assert (X : XL (B0 s) (te a1) (R s2) (N_expr (E_NewTarget (span_of (Some (tk_loc t)) (Some (tk_loc a1)))))) by lcs.
    assert (Xe : st (N_expr (E_NewTarget (span_of (Some (tk_loc t)) (Some (tk_loc a1))))) = i)
      by (erewrite st_gl; [|cbn; gls]; reflexivity).
    eapply W_more_new; [rewrite rev_involutive; assumption|assumption|lia|apply X|destruct X; lia| |].
    + rewrite Xe, rev_involutive. eapply down_mono; [exact Hd|lia|lia|lia].
    + intros e s' I' M' O' Y. prep. fin.
  - eapply W_new_expression; [match goal with H : rev a = _ |- _ => rewrite H; assumption end|assumption| | |].
    + instantiate (1 := B0 s). lia.
    + match goal with H : rev a = _ |- _ => rewrite H end. eapply down_mono; [eassumption|lia|lia|lia].
    + intros e s' I' M' O' Y Hla. prep. fin.
Qed.
Hint Resolve post_lhs : loc.

Definition prefix_loc (p : PState.prefix) : loc :=
  match p with Pre_Unop o => op_loc o | Pre_Inc l => Some l | Pre_Dec l => Some l end.
Definition postfix_loc (p : PState.postfix) : loc :=
  match p with Post_Inc l => Some l | Post_Dec l => Some l end.
(** The location of a token just read. *)
Definition tq (s : pst) (l : loc) (s' : pst) : Prop :=
  exists t, l = Some (tk_loc t) /\ tokok t /\ B0 s <= ti t /\ ti t <= te t /\ te t <= B0 s'.
Ltac tqs t := exists t; (repeat lazymatch goal with |- _ /\ _ => split end); first [assumption|reflexivity|lia].
Lemma post_unop : post (match_unop V) (fun s o s' => match o with Some o => tq s (op_loc o) s' | None => True end).
Proof.
  pst match_unop; (split; [assumption|split; [mon|]]); [|exact Logic.I]. tqs a.
Qed.
Hint Resolve post_unop : loc.
Lemma post_prefix : post (match_prefix V) (fun s o s' => match o with Some p => tq s (prefix_loc p) s' | None => True end).
Proof.
  pst match_prefix; (split; [assumption|split; [mon|]]); [tqs a|tqs a|].
  destruct a0 as [o|]; cbn [option_map prefix_loc]; [|exact Logic.I].
  match goal with q : tq _ _ _ |- _ => destruct q as (t & -> & ? & ? & ? & ?) end. tqs t.
Qed.
Lemma post_postfix : post (match_postfix_operator_opt V) (fun s o s' =>
  match o with Some p => tq s (postfix_loc p) s' | None => True end).
Proof.
  pst match_postfix_operator_opt; (split; [assumption|split; [mon|]]); [tqs a|tqs a|exact Logic.I].
Qed.
Hint Resolve post_prefix post_postfix : loc.

(** ** Reinterpretation *)

Lemma target_loc_ok e t lo hi : into_assign_target e = inr t -> Lc lo hi (N_expr e) ->
  Lc lo hi (N_target t) /\ st (N_target t) = st (N_expr e) /\ en (N_target t) = en (N_expr e).
Proof.
  intros E H. apply target_iff in E. subst e.
  assert (El : node_loc (N_expr (target_expr t)) = node_loc (N_target t)) by (destruct t; reflexivity).
  split; [|unfold st, en; rewrite El; auto].
  inversion H as [n i j Hg H1 H2 H3 Hc Hb Hf Hd]; subst. rewrite El in Hg. econstructor; [exact Hg|lia|lia|lia| | | |].
  - destruct t; exact Hc.
  - destruct t; exact Hb.
  - destruct t; exact Hf.
  - destruct t; exact Hd.
Qed.
Lemma in_holes {A} (f : A -> node) a l : In (Some a) l -> In (f a) (of_holes f l).
Proof. intros H. apply in_flat_map. exists (Some a). split; [exact H|left; reflexivity]. Qed.
Lemma in_holes_inv {A} (f : A -> node) n l : In n (of_holes f l) -> exists a, In (Some a) l /\ n = f a.
Proof.
  intros H. apply in_flat_map in H as ([a|] & Ha & Hn); [|contradiction].
  destruct Hn as [<-|[]]. eauto.
Qed.
Lemma patt_expr_node p : node_loc (N_expr (patt_expr p)) = node_loc (N_tpatt p).
Proof. destruct p as [[i|l e k|l e k]|[l es r|l ps]]; reflexivity. Qed.
Lemma loc_bounds a b : node_loc a = node_loc b -> st a = st b /\ en a = en b.
Proof. unfold st, en. intros ->. auto. Qed.
Lemma patt_loc_ok p lo hi : rests_unlocated p -> Lc lo hi (N_expr (patt_expr p)) -> Lc lo hi (N_tpatt p).
Proof.
  intros Hr. induction Hr as [t|l es r H1 IH1 H2|l ps H1 IH1]; intros H.
  - assert (Ht : Lc lo hi (N_target t)) by (eapply target_loc_ok; [|exact H]; apply target_iff; reflexivity).
    inversion Ht as [n i j Hg ? ? ? Hc Hb Hf _]; subst. econstructor; [exact Hg|lia|lia|lia| | | |split; discriminate].
    + cbn. intros c [<-|[]]. exact Ht.
    + cbn. intros c [<-|[]]. rewrite (st_gl _ _ _ Hg), (en_gl _ _ _ Hg). auto.
    + split; intros _; symmetry; [exact (st_gl _ _ _ Hg)|exact (en_gl _ _ _ Hg)].
  - inversion H as [n i j Hg ? ? ? Hc Hb _ Hd]; subst. econstructor; [exact Hg|lia|lia|lia| | |split; discriminate|exact Hd];
    cbn [children patt_children]; cbn in Hc, Hb; [change (LcA lo hi (of_holes N_tpatt es ++ of_opt N_trest r)); apply LcA_app|apply Bd_app].
    + intros c Hin. apply in_holes_inv in Hin as (p & Hp & ->). apply IH1; [exact Hp|].
      assert (He : Lc lo hi (N_eli (L_Expr (patt_expr p)))).
      { apply Hc, in_holes, in_or_app. left.
        apply (in_map (option_map (fun p => L_Expr (patt_expr_of cpatt_expr p)))) in Hp. exact Hp. }
      apply Lc_children in He. apply He. left. reflexivity.
    + destruct r as [r|]; [|apply LcA_nil]. exfalso. destruct (H2 r eq_refl) as [Hl _].
      assert (He : Lc lo hi (N_eli (L_Spread (rp_loc r) (patt_expr (rp_patt r))))).
      { apply Hc, in_holes, in_or_app. right. left. reflexivity. }
      rewrite Hl in He. apply Lc_gl in He as [He _]. exact He.
    + intros c Hin. apply in_holes_inv in Hin as (p & Hp & ->).
      destruct (loc_bounds (N_tpatt p) (N_eli (L_Expr (patt_expr p)))) as [E1 E2]; [symmetry; apply patt_expr_node|].
      rewrite E1, E2. apply (Hb (N_eli (L_Expr (patt_expr p)))). apply in_holes, in_or_app. left.
      apply (in_map (option_map (fun p => L_Expr (patt_expr_of cpatt_expr p)))) in Hp. exact Hp.
    + destruct r as [r|]; [|apply Bd_nil]. exfalso. destruct (H2 r eq_refl) as [Hl _].
      assert (He : Lc lo hi (N_eli (L_Spread (rp_loc r) (patt_expr (rp_patt r))))).
      { apply Hc, in_holes, in_or_app. right. left. reflexivity. }
      rewrite Hl in He. apply Lc_gl in He as [He _]. exact He.
  - inversion H as [n i j Hg ? ? ? Hc Hb _ Hd]; subst. econstructor; [exact Hg|lia|lia|lia| | |split; discriminate|exact Hd];
    cbn [children patt_children]; cbn in Hc, Hb; intros c Hin; apply in_map_iff in Hin as (q & <- & Hq);
    [|destruct (loc_bounds (N_tpp q) (N_prop (as_prop q))) as [E1 E2]; [destruct q; reflexivity|]; rewrite E1, E2;
      apply (Hb (N_prop (as_prop q))); apply (in_map (fun x => N_prop (as_prop x))) in Hq; unfold of_list; rewrite map_map; exact Hq].
    assert (He : Lc lo hi (N_prop (as_prop q))).
    { apply Hc. apply (in_map (fun x => N_prop (as_prop x))) in Hq. unfold of_list. rewrite map_map. exact Hq. }
    destruct q as [l' k q|i']; cbn [as_prop] in He.
    + inversion He as [n i1 j1 Hg1 ? ? ? Hc1 Hb1 Hf1 _]; subst.
      assert (Hf2 : Fit (N_tpp (PP_Regular l' k q)) i1 j1).
      { destruct Hf1 as [F1 F2]. specialize (F1 eq_refl). specialize (F2 eq_refl). split; intros _; [exact F1|].
        cbn in F2 |- *. rewrite F2. exact (proj2 (loc_bounds (N_expr (patt_expr q)) (N_tpatt q) (patt_expr_node q))). }
      econstructor; [exact Hg1|lia|lia|lia| | |exact Hf2|split; discriminate];
      cbn in Hc1, Hb1 |- *;
      [|intros c [<-|[<-|[]]]; [apply Hb1; left; reflexivity|];
        destruct (loc_bounds (N_tpatt q) (N_pval (PV_Init (patt_expr q)))) as [E1 E2]; [symmetry; apply patt_expr_node|];
        rewrite E1, E2; apply Hb1; right; left; reflexivity].
      intros c [<-|[<-|[]]]; [apply Hc1; auto|].
      apply (IH1 l' k q Hq). assert (Hv := Hc1 _ (or_intror (or_introl eq_refl))).
      apply Lc_children in Hv. apply Hv. left. reflexivity.
    + inversion He as [n i1 j1 Hg1 ? ? ? Hc1 Hb1 Hf1 _]; subst. econstructor; [exact Hg1|lia|lia|lia|exact Hc1|exact Hb1|exact Hf1|split; discriminate].
Qed.
(** What a failed reinterpretation blames is a place of the text. *)
Lemma cover_elts_blames es x : cover_elts es = inl x ->
  (exists l r, In (CSpread l r) es /\ x = InvalidAssignTarget l) \/ In (CElt (inl x)) es.
Proof.
  induction es as [|c es IH]; [discriminate|]. destruct c as [|[y|p]|l r]; cbn [cover_elts].
  - destruct (cover_elts es); [|discriminate]. intros E. injection E as ->.
    destruct (IH eq_refl) as [(l & r & H & ->)|H].
    + left. exists l, r. split; [right; exact H|reflexivity].
    + right. right. exact H.
  - intros E. injection E as ->. right. left. reflexivity.
  - destruct (cover_elts es); [|discriminate]. intros E. injection E as ->.
    destruct (IH eq_refl) as [(l & r & H & ->)|H].
    + left. exists l, r. split; [right; exact H|reflexivity].
    + right. right. exact H.
  - intros E. injection E as <-. left. exists l, r. split; [left; reflexivity|reflexivity].
Qed.
Lemma cover_arr_blames l es x : cover_arr l es = inl x ->
  (exists l r, In (CSpread l r) es /\ x = InvalidAssignTarget l) \/ In (CElt (inl x)) es
  \/ exists l, In (CSpread l (inl x)) es.
Proof.
  unfold cover_arr. intros H.
  assert (G : cover_elts es = inl x \/ (exists l, In (CSpread l (inl x)) es) \/ exists r es', rev es = CSpread None r :: es' /\ cover_elts (rev es') = inl x).
  { destruct (rev es) as [|[|r|[l'|] r] es'] eqn:E;
      try (left; destruct (cover_elts es); [injection H as ->; reflexivity|discriminate H]).
    right. destruct r as [y|p].
    - injection H as ->. left. exists None. apply in_rev. rewrite E. left. reflexivity.
    - right. exists (inr p), es'. split; [reflexivity|]. destruct (cover_elts (rev es')); [injection H as ->; reflexivity|discriminate H]. }
  destruct G as [G|[G|(r & es' & E & G)]].
  - apply cover_elts_blames in G. tauto.
  - tauto.
  - assert (K : forall c, In c (rev es') -> In c es).
    { intros c Hc. apply in_rev in Hc. apply in_rev. rewrite E. right. exact Hc. }
    apply cover_elts_blames in G as [(l' & r' & H1 & H2)|G]; [left; exists l', r'; auto|right; left; auto].
Qed.
Lemma cover_props_blames ps x : cover_props ps = inl x -> In (inl x) ps.
Proof.
  induction ps as [|[y|p] ps IH]; cbn [cover_props]; try discriminate.
  - intros E. injection E as ->. left. reflexivity.
  - destruct (cover_props ps); [|discriminate]. intros E. injection E as ->. right. auto.
Qed.
Lemma cover_blames_node lo hi n : Lc lo hi n ->
  match n with
  | N_expr e => forall x, into_assign_patt e = inl x -> cover_honest src x
  | N_eli i => forall x, (into_celt i = CElt (inl x) \/ exists l, into_celt i = CSpread l (inl x)) -> cover_honest src x
  | N_prop p => forall x, into_assign_prop p = inl x -> cover_honest src x
  | N_pval v => forall x, into_prop_val v = Some (inl x) -> cover_honest src x
  | _ => True
  end.
Proof.
  intros H. induction H as [n i j Hg H1 H2 H3 Hc IH _].
  assert (P : place_there src (node_loc n)) by (apply (gl_place _ _ _ Hg); lia).
  destruct n; try exact Logic.I.
  - destruct e; intros x E; cbn [into_assign_patt into_assign_target] in E;
      try discriminate E; try (injection E as <-; exact P).
    + apply cover_arr_blames in E as [(l' & r & Hin & ->)|[Hin|(l' & Hin)]].
      * apply in_map_iff in Hin as ([i0|] & E & Hin); [|discriminate E].
        assert (Hl : Lc lo hi (N_eli i0)) by (apply Hc; cbn; apply in_holes; exact Hin).
        destruct i0; [discriminate E|]. injection E as -> _. exact (Lc_place _ _ _ Hl).
      * apply in_map_iff in Hin as ([i0|] & E & Hin); [|discriminate E].
        apply (IH (N_eli i0)); [cbn; apply in_holes; exact Hin|]. left. exact E.
      * apply in_map_iff in Hin as ([i0|] & E & Hin); [|discriminate E].
        apply (IH (N_eli i0)); [cbn; apply in_holes; exact Hin|]. right. exists l'. exact E.
    + destruct (cover_props _) eqn:E'; [|discriminate E]. injection E as ->.
      apply cover_props_blames, in_map_iff in E' as (p & E & Hin).
      apply (IH (N_prop p)); [cbn; apply in_map; exact Hin|]. exact E.
  - destruct e as [e|l e]; cbn [into_celt]; intros x [E|(l' & E)]; try discriminate E.
    + injection E as E. apply (IH (N_expr e)); [left; reflexivity|exact E].
    + injection E as _ E. apply (IH (N_expr e)); [left; reflexivity|exact E].
  - destruct p as [l k v|f|i0]; intros x E; cbn [into_assign_prop] in E; [|injection E as E; subst x; exact P|discriminate E].
    destruct (into_prop_val v) as [[y|q]|] eqn:E'; cbn in E; [|discriminate E|injection E as E; subst x; exact P].
    injection E as ->. apply (IH (N_pval v)); [right; left; reflexivity|exact E'].
  - destruct v as [e| |]; intros x E; cbn [into_prop_val] in E; try discriminate E.
    injection E as E. apply (IH (N_expr e)); [left; reflexivity|exact E].
Qed.
Lemma cover_blames lo hi e x : Lc lo hi (N_expr e) -> into_assign_patt e = inl x -> cover_honest src x.
Proof. intros H. exact (cover_blames_node _ _ _ H x). Qed.
Lemma post_to_target e lo hi : Lc lo hi (N_expr e) -> post (to_target e) (fun s t s' => (la s' = la s /\ lb s' = lb s) /\
  Lc lo hi (N_target t) /\ st (N_target t) = st (N_expr e) /\ en (N_target t) = en (N_expr e)).
Proof.
  intros He. pst to_target.
  { split; [exact (Lc_place _ _ _ He)|]. destruct e; try discriminate Heqc; injection Heqc as <-; exact (Lc_place _ _ _ He). }
  destruct (target_loc_ok _ _ _ _ Heqc He) as (? & ? & ?). fin.
Qed.
Lemma post_to_patt e lo hi : Lc lo hi (N_expr e) -> post (to_patt e) (fun s t s' => (la s' = la s /\ lb s' = lb s) /\
  Lc lo hi (N_tpatt t) /\ st (N_tpatt t) = st (N_expr e) /\ en (N_tpatt t) = en (N_expr e)).
Proof.
  intros He. pst to_patt.
  { split; [exact (Lc_place _ _ _ He)|]. exact (cover_blames _ _ _ _ He Heqc). }
  apply patt_iff in Heqc as [-> Hr].
  split; [assumption|]. split; [mon|]. split; [split; reflexivity|].
  split; [apply patt_loc_ok; assumption|]. apply loc_bounds. symmetry. apply patt_expr_node.
Qed.
Hint Resolve post_to_target post_to_patt : loc.
Lemma W_apply_prefixes ps : forall arg s lo (F : expr -> pst -> Prop), Inv s ->
  Lc lo (R s) (N_expr arg) -> en (N_expr arg) <= B0 s ->
  down lo (st (N_expr arg)) (R s) (map prefix_loc ps) ->
  (forall e s', Inv s' -> mono s s' -> ord s' -> XL lo (B0 s') (R s') (N_expr e) -> F e s') ->
  W (apply_prefixes ps arg) s F.
Proof.
  induction ps as [|p ps IH]; intros arg s lo F I Hb Hs Hd HF; cbn [apply_prefixes map].
  - apply W_ret. apply HF; auto using Inv_ord, mono_refl. split; assumption.
  - cbn [map down] in Hd. destruct Hd as (i & j & Hg & ? & ? & ? & ? & Hd).
    assert (O := Inv_ord _ I). prep. expose.
    destruct p as [o|l|l]; cbn [prefix_loc] in Hg.
    + assert (Lc lo (R s) (N_unop o)) by lcs.
      apply (IH _ _ lo); [assumption| | | |exact HF].
      * lcs.
      * erewrite en_gl; [|cbn; gls]. lia.
      * erewrite st_gl; [|cbn; gls]. eapply down_mono; [exact Hd|lia|lia|lia].
    + go. apply (IH _ _ lo); [assumption| | | |].
      * lcs.
      * erewrite en_gl; [|cbn; gls]. lia.
      * erewrite st_gl; [|cbn; gls]. eapply down_mono; [exact Hd|lia|lia|lia].
      * intros e s' I' M' O' X. apply HF; auto. prep. mon.
    + go. apply (IH _ _ lo); [assumption| | | |].
      * lcs.
      * erewrite en_gl; [|cbn; gls]. lia.
      * erewrite st_gl; [|cbn; gls]. eapply down_mono; [exact Hd|lia|lia|lia].
      * intros e s' I' M' O' X. apply HF; auto. prep. mon.
Qed.
Lemma post_read_prefixes : post (read_prefixes V Rc) (fun s ps s' => down (B0 s) (B0 s') (R s') (map prefix_loc (rev ps))).
Proof.
  pst read_prefixes.
  apply (W_loop (fun l s2 => mono s s2 /\ down (B0 s) (B0 s2) (R s2) (map prefix_loc (rev l)))).
  - intros l s2 I2 O2 [M Hl]. prep. go; (split; [assumption|]).
    + split; [mon|]. rewrite rev_app_distr. cbn [rev app map down].
      match goal with q : tq _ _ _ |- _ => destruct q as (t & -> & ? & ? & ? & ?) end.
      exists (ti t), (te t). repeat split; try lia; [gls|].
      eapply down_mono; [exact Hl|lia|lia|lia].
    + split; [assumption|]. split; [mon|]. eapply down_mono; [exact Hl|lia|lia|lia].
  - assumption.
  - split; [mon|]. exact Logic.I.
Qed.
Hint Resolve post_read_prefixes : loc.
Lemma post_unary : post (unary_expression V Rc) (XQ N_expr).
Proof.
  pst unary_expression.
  - unfold apply_postfix. go.
    match goal with q : tq _ _ _ |- _ => destruct q as (t & Et & ? & ? & ? & ?) end.
    match goal with D : down _ _ _ _ |- _ => rename D into Hd end. expose.
    assert (X : forall l, Some l = Some (tk_loc t) -> forall f, (f = E_PostInc \/ f = E_PostDec) ->
       XL (B0 s0) (te t) (R s3) (N_expr (f (Some l) a2)) /\ st (N_expr (f (Some l) a2)) = ti t).
    { intros l El f Hf. rewrite El. destruct Hf; subst f; (split; [lcs|]);
        (erewrite st_gl; [|cbn; gls]; reflexivity). }
    assert (Y : XL (B0 s0) (te t) (R s3) (N_expr match p with Post_Inc l => E_PostInc (Some l) a2
       | Post_Dec l => E_PostDec (Some l) a2 end) /\ st (N_expr match p with Post_Inc l => E_PostInc (Some l) a2
       | Post_Dec l => E_PostDec (Some l) a2 end) = ti t).
    { destruct p as [l|l]; cbn [postfix_loc] in Et; [apply (X l Et E_PostInc)|apply (X l Et E_PostDec)]; auto. }
    destruct Y as [[Y1 Y2] Y3].
    apply (W_apply_prefixes _ _ _ (B0 s)); [assumption|apply (Lc_mono _ _ _ Y1); lia|lia| |].
    + eapply down_mono; [exact Hd|lia|lia|lia].
    + intros e s' I' M' O' Z. prep. fin.
  - expose. apply (W_apply_prefixes _ _ _ (B0 s)); [assumption|lcs|lia| |].
    + eapply down_mono; [eassumption|lia|lia|lia].
    + intros e s' I' M' O' Z. prep. fin.
Qed.
Hint Resolve post_unary : loc.

(** ** Infix operators *)

Definition infix_loc (o : infix) : loc := match o with In_Binop o => op_loc o | In_Logop o => op_loc o end.
Definition inop (lo hi : nat) (o : infix) : Prop :=
  exists i j, gl (infix_loc o) i j /\ lo <= i /\ i <= j /\ j <= hi.
Lemma post_infix : post (match_infix V) (fun s o s' => match o with Some o => inop (B0 s) (B0 s') o | None => True end).
Proof.
  pst match_infix.
  2:{ match goal with q : forall t, ready t _ -> ready t ?s1, r : ready _ _ |- _ => apply q in r end. go.
      split; [assumption|split; [mon|exact Logic.I]]. }
  split; [assumption|split; [mon|]]. exists (ti a), (te a). split; [|lia].
  assert (E : infix_loc i = Some (tk_loc a)).
  { unfold token_infix, to_binop, to_logop, mk_op in *.
    destruct (td_binop _ _); [injection Heqo as <-; reflexivity|].
    destruct (td_logop _); [|discriminate]. injection Heqo as <-. reflexivity. }
  rewrite E. gls.
Qed.
Hint Resolve post_infix : loc.
Fixpoint sd (lo m hi : nat) (l : list frame) : Prop :=
  match l with
  | [] => True
  | f :: l => Lc lo hi (N_expr (fr_left f)) /\ inop (en (N_expr (fr_left f))) m (fr_op f) /\
      sd lo (st (N_expr (fr_left f))) hi l
  end.
Lemma sd_mono l : forall lo m hi m' hi', sd lo m hi l -> m <= m' -> hi <= hi' -> sd lo m' hi' l.
Proof.
  induction l as [|f l IH]; intros lo m hi m' hi' H Hm Hh; [exact Logic.I|].
  destruct H as (H1 & (i & j & Hg & ? & ? & ?) & H4). split; [|split].
  - apply (Lc_mono _ _ _ H1); lia.
  - exists i, j. split; [exact Hg|lia].
  - eapply IH; [exact H4|lia|lia].
Qed.
Lemma fill_loc f r lo hi : Lc lo hi (N_expr (fr_left f)) -> inop (en (N_expr (fr_left f))) (st (N_expr r)) (fr_op f) ->
  Lc lo hi (N_expr r) ->
  Lc lo hi (N_expr (fill f r)) /\ st (N_expr (fill f r)) = st (N_expr (fr_left f)) /\ en (N_expr (fill f r)) = en (N_expr r).
Proof.
  destruct f as [e o]. cbn [fr_left fr_op]. intros H1 (i & j & Hg & ? & ? & ?) H3. expose.
  destruct o as [o|o]; cbn [infix_loc] in Hg; unfold fill; cbn [fr_left fr_op].
  - assert (Lc lo hi (N_binop o)) by lcs. assert (E1 := st_gl (N_binop o) _ _ Hg). assert (E2 := en_gl (N_binop o) _ _ Hg). expose. split; [lcs|]. split; [erewrite st_gl; [|cbn; gls]|erewrite en_gl; [|cbn; gls]]; reflexivity.
  - assert (Lc lo hi (N_logop o)) by lcs. assert (E1 := st_gl (N_logop o) _ _ Hg). assert (E2 := en_gl (N_logop o) _ _ Hg). expose. split; [lcs|]. split; [erewrite st_gl; [|cbn; gls]|erewrite en_gl; [|cbn; gls]]; reflexivity.
Qed.
Lemma extend_loc l : forall e o m lo hi, sd lo (st (N_expr e)) hi l -> Lc lo hi (N_expr e) -> inop (en (N_expr e)) m o ->
  sd lo m hi (stack_extend l e o).
Proof.
  induction l as [|f l IH]; intros e o m lo hi Hd He Ho; cbn [stack_extend].
  - cbn [sd fr_left fr_op]. auto.
  - destruct (groups_left _ _).
    + destruct Hd as (H1 & H2 & H4).
      destruct (fill_loc f e lo hi H1 H2 He) as (F1 & F2 & F3). rewrite <- F2 in H4. rewrite <- F3 in Ho. apply IH; assumption.
    + cbn [sd fr_left fr_op]. repeat split; auto; apply Hd.
Qed.
Lemma finish_loc l : forall e lo hi, sd lo (st (N_expr e)) hi l -> Lc lo hi (N_expr e) ->
  Lc lo hi (N_expr (stack_finish l e)) /\ en (N_expr (stack_finish l e)) = en (N_expr e).
Proof.
  induction l as [|f l IH]; intros e lo hi Hd He; cbn [stack_finish]; [auto|].
  destruct Hd as (H1 & H2 & H4).
  destruct (fill_loc f e lo hi H1 H2 He) as (F1 & F2 & F3). rewrite <- F2 in H4.
  destruct (IH _ _ _ H4 F1). split; [assumption|lia].
Qed.
Lemma inop_mono lo hi o lo' hi' : inop lo hi o -> lo' <= lo -> hi <= hi' -> inop lo' hi' o.
Proof. intros (i & j & Hg & ? & ? & ?) ? ?. exists i, j. split; [exact Hg|lia]. Qed.
Lemma post_infixes e lo hi : Lc lo hi (N_expr e) -> post (more_infix_expressions V Rc e)
  (fun s r s' => lo <= B0 s -> en (N_expr e) <= B0 s -> hi <= R s -> la s <= 1 -> XL lo (B0 s') (R s') (N_expr r) /\ la s' <= 1).
Proof.
  intros He. pst more_infix_expressions.
  apply (W_loop (fun x s2 => mono s s2 /\ (lo <= B0 s -> en (N_expr e) <= B0 s -> hi <= R s -> la s <= 1 ->
    sd lo (st (N_expr (snd x))) (R s2) (fst x) /\ XL lo (B0 s2) (R s2) (N_expr (snd x))))).
  - intros [l x] s2 I2 O2 [M HJ]. cbn [fst snd] in *. prep. go; (split; [assumption|]).
    + split; [mon|]. cbn [fst snd]. intros A1 A2 A3 A4. destruct (HJ A1 A2 A3 A4) as [Hd [X1 X2]].
      match goal with q : inop _ _ _ |- _ => rename q into Ho end.
      split; [|expose; lcs]. expose. apply (extend_loc l x i _ lo (R s1)).
      * eapply sd_mono; [exact Hd|lia|lia].
      * apply (Lc_mono _ _ _ X1); lia.
      * eapply inop_mono; [exact Ho|lia|lia].
    + split; [assumption|]. split; [mon|]. intros A1 A2 A3 A4. destruct (HJ A1 A2 A3 A4) as [Hd [X1 X2]]. discharge.
      destruct (finish_loc l x lo (R s2) Hd X1) as [F1 F2]. split; [split; [apply (Lc_mono _ _ _ F1); lia|lia]|lia].
  - assumption.
  - split; [mon|]. intros A1 A2 A3 A4. cbn [fst snd]. split; [exact Logic.I|].
    split; [apply (Lc_mono _ _ _ He); lia|lia].
Qed.
Hint Resolve post_infixes : loc.
Lemma post_more_conditional e lo hi : Lc lo hi (N_expr e) -> post (more_conditional V Rc e)
  (fun s r s' => lo <= B0 s -> en (N_expr e) <= B0 s -> hi <= R s -> la s <= 1 -> XL lo (B0 s') (R s') (N_expr r) /\ la s' <= 1).
Proof. intros He. pst more_conditional; fin. Qed.
Hint Resolve post_more_conditional : loc.
Lemma post_conditional : post (conditional_expression V Rc) (XQ N_expr).
Proof. pst conditional_expression; fin. Qed.
Hint Resolve post_conditional : loc.
Lemma patt_target_loc_node p : patt_target_loc p = node_loc (N_tpatt p).
Proof. destruct p; reflexivity. Qed.
Lemma target_loc_node p : target_loc p = node_loc (N_target p).
Proof. destruct p; reflexivity. Qed.
Lemma post_more_assignment e lo hi : Lc lo hi (N_expr e) -> post (more_assignment V Rc e)
  (fun s r s' => lo <= B0 s -> en (N_expr e) <= B0 s -> hi <= R s -> la s <= 1 -> XL lo (B0 s') (R s') (N_expr r) /\ la s' <= 1).
Proof.
  intros He. pst more_assignment.
  - rewrite patt_target_loc_node. fin.
  - rewrite target_loc_node. unfold to_assop, mk_op in *. destruct (td_assop _); [|discriminate].
    match goal with E : Some _ = Some _ |- _ => injection E as <- end.
    expose.
    fin.
  - fin.
Qed.
Hint Resolve post_more_assignment : loc.
Lemma post_assignment : post (assignment_expression V Rc) (XQ N_expr).
Proof. pst assignment_expression; fin. Qed.

(** ** Statements *)

Lemma post_statement : post (statement Rc) (IQ N_stmt).
Proof.
  pst statement. split; [assumption|]. split; [mon|]. intro. discharge. split; [|assumption].
  match goal with H : Lc _ _ (N_item (I_Stmt _)) |- _ => apply Lc_children in H; apply H; left; reflexivity end.
Qed.
Hint Resolve post_statement : loc.
Lemma post_expression_statement : post (expression_statement V Rc) (fun s r s' => Lc (B0 s) (R s') (N_stmt r) /\ la s' <= 1).
Proof. pst expression_statement; fin. Qed.
Hint Resolve post_expression_statement : loc.
Lemma post_block : post (block_ V Rc) (LQ N_block).
Proof. pst block_; fin. Qed.
Hint Resolve post_block : loc.
Lemma post_declarator : post (declarator V Rc) (LQ N_dtor).
Proof. pst declarator; try (apply W_binding; assumption); fin. Qed.
Hint Resolve post_declarator : loc.
Lemma post_const_declarator : post (const_declarator V Rc) (LQ N_cdtor).
Proof. pst const_declarator; fin. Qed.
Hint Resolve post_const_declarator : loc.
Definition post_ds := post_comma_separated N_dtor _ post_declarator.
Definition post_cds := post_comma_separated N_cdtor _ post_const_declarator.
Lemma post_more_ds d lo hi : Lc lo hi (N_dtor d) -> post (more_comma V Rc d (declarator V Rc))
  (fun s l s' => lo <= B0 s -> hi <= R s -> LcA lo (R s') (of_list N_dtor l)).
Proof.
  intros Hd. apply (post_mono _ _ _ (post_more_comma N_dtor d _ post_declarator)).
  intros s a s' O M O' (rest & -> & Hr). intros. prep. lcs.
Qed.
Lemma post_more_cds d lo hi : Lc lo hi (N_cdtor d) -> post (more_comma V Rc d (const_declarator V Rc))
  (fun s l s' => lo <= B0 s -> hi <= R s -> LcA lo (R s') (of_list N_cdtor l)).
Proof.
  intros Hd. apply (post_mono _ _ _ (post_more_comma N_cdtor d _ post_const_declarator)).
  intros s a s' O M O' (rest & -> & Hr). intros. prep. lcs.
Qed.
Hint Resolve post_ds post_cds post_more_ds post_more_cds : loc.
Lemma post_var_statement : post (var_statement V Rc) (LQ N_stmt).
Proof. pst var_statement; fin. Qed.
Hint Resolve post_var_statement : loc.
Lemma post_let_declaration p : pw p -> post (let_declaration V Rc p)
  (fun s d s' => off p <= B0 s -> la s <= 1 -> Lc (off p) (R s') (N_decl d)).
Proof. intros Hp. pst let_declaration; fin. Qed.
Hint Resolve post_let_declaration : loc.
Lemma post_const_declaration : post (const_declaration V Rc) (LQ N_decl).
Proof. pst const_declaration; fin. Qed.
Hint Resolve post_const_declaration : loc.
Lemma post_empty : post (empty_statement V) (LQ N_stmt).
Proof. pst empty_statement; fin. Qed.
Hint Resolve post_empty : loc.
Lemma post_if : post (if_statement V Rc) (LQ N_stmt).
Proof. pst if_statement; fin. Qed.
Hint Resolve post_if : loc.
Lemma post_iteration_body : post (iteration_body Rc) (LQ N_stmt).
Proof. pst iteration_body; fin. Qed.
Hint Resolve post_iteration_body : loc.
Lemma post_do : post (do_statement V Rc) (LQ N_stmt).
Proof. pst do_statement; fin. Qed.
Hint Resolve post_do : loc.
Lemma post_while : post (while_statement V Rc) (LQ N_stmt).
Proof. pst while_statement; fin. Qed.
Hint Resolve post_while : loc.
Lemma post_expression_opt_semi : post (expression_opt_semi V Rc) (LA (of_opt N_expr)).
Proof. pst expression_opt_semi; fin. Qed.
Hint Resolve post_expression_opt_semi : loc.

(** A loop statement not yet given its location. *)
Definition forq (lo hi : nat) (r : stmt) : Prop :=
  LcA lo hi (children (N_stmt r)) /\
  match r with S_For _ _ _ _ _ => True | S_ForIn _ _ _ _ => True | S_ForOf _ _ _ _ => True | _ => False end.
Lemma post_more_for h lo hi : LcA lo hi (of_opt N_fh h) -> post (more_for V Rc h)
  (fun s r s' => lo <= B0 s -> hi <= R s -> la s <= 1 -> forq lo (R s') r).
Proof. intros Hh. pst more_for; prep; (split; [assumption|split; [mon|]]); intros; discharge; (split; [lcs|exact Logic.I]). Qed.
Lemma post_more_for_in h lo hi : Lc lo hi (N_fi h) -> post (more_for_in V Rc h)
  (fun s r s' => lo <= B0 s -> hi <= R s -> la s <= 1 -> forq lo (R s') r).
Proof. intros Hh. pst more_for_in; prep; (split; [assumption|split; [mon|]]); intros; discharge; (split; [lcs|exact Logic.I]). Qed.
Lemma post_more_for_of h lo hi : Lc lo hi (N_fo h) -> post (more_for_of V Rc h)
  (fun s r s' => lo <= B0 s -> hi <= R s -> la s <= 1 -> forq lo (R s') r).
Proof. intros Hh. pst more_for_of; prep; (split; [assumption|split; [mon|]]); intros; discharge; (split; [lcs|exact Logic.I]). Qed.

Hint Resolve post_more_for post_more_for_in post_more_for_of : loc.
Lemma patt_id_loc_node p : patt_id_loc p = node_loc (N_ipatt p).
Proof. destruct p; reflexivity. Qed.
Lemma W_more_for h s lo (F : stmt -> pst -> Prop) : Inv s -> LcA lo (R s) (of_opt N_fh h) -> lo <= B0 s -> la s <= 1 ->
  (forall r s', Inv s' -> mono s s' -> ord s' -> forq lo (R s') r -> F r s') -> W (more_for V Rc h) s F.
Proof.
  intros I Hh Hl Hla HF. eapply W_use; [apply (post_more_for h lo (R s) Hh)|exact I|].
  intros r s' I' M' O' Q. apply HF; auto.
Qed.
Lemma W_more_for_in h s lo (F : stmt -> pst -> Prop) : Inv s -> Lc lo (R s) (N_fi h) -> lo <= B0 s -> la s <= 1 ->
  (forall r s', Inv s' -> mono s s' -> ord s' -> forq lo (R s') r -> F r s') -> W (more_for_in V Rc h) s F.
Proof.
  intros I Hh Hl Hla HF. eapply W_use; [apply (post_more_for_in h lo (R s) Hh)|exact I|].
  intros r s' I' M' O' Q. apply HF; auto.
Qed.
Lemma W_more_for_of h s lo (F : stmt -> pst -> Prop) : Inv s -> Lc lo (R s) (N_fo h) -> lo <= B0 s -> la s <= 1 ->
  (forall r s', Inv s' -> mono s s' -> ord s' -> forq lo (R s') r -> F r s') -> W (more_for_of V Rc h) s F.
Proof.
  intros I Hh Hl Hla HF. eapply W_use; [apply (post_more_for_of h lo (R s) Hh)|exact I|].
  intros r s' I' M' O' Q. apply HF; auto.
Qed.
Lemma W_more_for_head t d op s lo i j (F : stmt -> pst -> Prop) : Inv s -> tokok t -> gl (Some (tk_loc t)) i j -> Lc i (R s) (N_dtor d) ->
  lo <= i -> i <= B0 s -> la s <= 1 -> (op = FH_Var /\ is_t t (TReserved R_Var) = true \/ op = FH_Let /\ is_t t (TIdent (NAtom A_Let)) = true) ->
  (forall r s', Inv s' -> mono s s' -> ord s' -> forq lo (R s') r -> F r s') -> W (more_for_head V Rc (Some (tk_loc t)) d op) s F.
Proof.
  intros I Ht Hl Hd ? ? ? Hop HF. assert (O := Inv_ord _ I). prep. unfold more_for_head. go. discharge.
  match goal with |- W (more_for _ _ ?h) ?s9 _ => apply (W_more_for h s9 lo) end; [assumption| |lia|lia|].
  - destruct Hop as [[? ?]|[? ?]]; subst op; expose; cbn [of_opt]; lcs.
  - intros r s' I' M' O' Q. prep. apply HF; auto; mon.
Qed.
(** Run up to the rest of the loop, whose head starts no earlier than [lo]. *)
Ltac fors lo :=
  lazymatch goal with
  | |- W (more_for _ _ _) _ _ => apply (W_more_for _ _ lo); [assumption|expose; cbn [of_opt]; lcs|lia|lia|]
  | |- W (more_for_in _ _ _) _ _ => apply (W_more_for_in _ _ lo); [assumption|expose; lcs|lia|lia|]
  | |- W (more_for_of _ _ _) _ _ => apply (W_more_for_of _ _ lo); [assumption|expose; lcs|lia|lia|]
  | |- W (more_for_head _ _ _ _ _) _ _ => eapply (W_more_for_head _ _ _ _ lo); [assumption|eassumption|gls|expose; lcs|lia|lia|lia|auto|]
  end;
  let r := fresh "r" in let s := fresh "s" in let I := fresh "I" in let M := fresh "M" in
  let O := fresh "O" in let Q := fresh "Q" in intros r s I M O Q; prep;
  split; [assumption|split; [mon|split; [exact Q|discharge; lia]]].
Definition FQ (s : pst) (r : stmt) (s' : pst) : Prop := forq (B0 s) (R s') r /\ la s' <= 1.
Lemma forq_mono lo hi lo' hi' r : forq lo hi r -> lo' <= lo -> hi <= hi' -> forq lo' hi' r.
Proof. intros [H1 H2] ? ?. split; [apply (LcA_mono _ _ _ H1); lia|exact H2]. Qed.
Ltac fq := match goal with Q : FQ ?s ?r ?s' |- _ => destruct Q as [Q ?]; split; [assumption|split; [mon|]];
  split; [apply (forq_mono _ _ _ _ _ Q); lia|assumption] end.
Lemma post_for_expr : post (for_expr V Rc) FQ.
Proof. pst for_expr; rewrite ?patt_target_loc_node; fors (B0 s). Qed.
Hint Resolve post_for_expr : loc.
Lemma Lc_simple_init lo hi i e : Lc lo hi (N_ipatt (Simple i)) -> Lc lo hi (N_expr e) ->
  en (N_ipatt (Simple i)) <= st (N_expr e) -> Lc lo hi (N_dtor (dtor_from_simple_init i e)).
Proof. intros. expose. lcs. Qed.
Lemma Lc_compound_init lo hi p e : Lc lo hi (N_ipatt (Compound p)) -> Lc lo hi (N_expr e) ->
  en (N_ipatt (Compound p)) <= st (N_expr e) -> Lc lo hi (N_dtor (dtor_from_compound_init p e)).
Proof. intros. expose. lcs. Qed.
Ltac dtors := repeat match goal with
  | E : dtor_from_init_opt ?p None = inl _ |- _ => destruct p; [|discriminate E]; injection E as <-
  | |- context [dtor_from_init ?p _] => destruct p; cbn [dtor_from_init]
  end.
Lemma post_for_var : post (for_var V Rc) FQ.
Proof. pst for_var; dtors; rewrite ?patt_id_loc_node; fors (B0 s). Qed.
Hint Resolve post_for_var : loc.
Lemma post_for_let : post (for_let V Rc) FQ.
Proof. pst for_let; dtors; rewrite ?patt_id_loc_node; first [fq|fors (B0 s)]. Qed.
Hint Resolve post_for_let : loc.
Lemma post_for_const : post (for_const V Rc) FQ.
Proof.
  pst for_const; try (match goal with E : is_t ?c (TReserved R_Const) = true |- W (more_comma _ _ ?d _) ?s9 _ =>
    assert (Lc (ti c) (R s9) (N_cdtor d)) by
      (unfold const_dtor_from_init; rewrite patt_id_loc_node; expose; lcs) end; go);
    discharge; rewrite ?patt_id_loc_node; first [fq|fors (B0 s)].
Qed.
Hint Resolve post_for_const : loc.

Lemma forq_set lo hi lo' hi' r i j l : forq lo hi r -> gl l i j -> lo' <= i -> i <= lo -> lo <= hi -> hi <= j -> j <= hi' ->
  Lc lo' hi' (N_stmt (stmt_set_loc r l)).
Proof.
  intros [H1 H2] Hg ? ? ? ? ?. apply Lc_intro with i j; [|lia|lia|lia| | |destruct r; try contradiction; split; discriminate|destruct r; try contradiction; split; discriminate].
  - destruct r; try contradiction; exact Hg.
  - intros c Hc. apply (Lc_mono lo hi); [|lia|lia]. apply H1. destruct r; try contradiction; exact Hc.
  - apply (Bd_LcA lo hi); [|lia]. intros c Hc. apply H1. destruct r; try contradiction; exact Hc.
Qed.
Lemma post_for : post (for_statement V Rc) (LQ N_stmt).
Proof.
  pst for_statement; try (match goal with |- W (more_for _ _ _) ?s9 _ => apply (W_more_for _ _ (B0 s9)) end; [assumption|lcs|lia|lia|];
    let r := fresh "r" in let s := fresh "s" in let I := fresh "I" in let M := fresh "M" in
    let O := fresh "O" in let Q := fresh "Q" in intros r s I M O Q; prep; go);
  unfold FQ in *; discharge; (split; [assumption|]); (split; [mon|]); intro; discharge;
  match goal with Q : forq _ _ ?r |- _ => eapply (forq_set _ _ _ _ _ _ _ _ Q); [gls|lia|lia|lia|lia|lia] end.
Qed.
Hint Resolve post_for : loc.
Lemma post_case : post (case_ V Rc) (LQ N_case).
Proof. pst case_; fin. Qed.
Lemma post_default : post (default_ V Rc) (LQ N_case).
Proof. pst default_; fin. Qed.
Hint Resolve post_case post_default : loc.
Lemma post_switch_cases : post (switch_cases V Rc) (LA (of_list N_case)).
Proof.
  pst switch_cases.
  apply (W_loop (fun x s2 => mono s s2 /\ LcA (B0 s) (R s2) (of_list N_case (fst x)))).
  - intros [l b] s2 I2 O2 [M Hl]. cbn [fst] in *. prep. go; (split; [assumption|]).
    + split; [mon|]. cbn [fst]. lcs.
    + split; [mon|]. cbn [fst]. lcs.
    + go. fin.
  - assumption.
  - split; [mon|]. lcs.
Qed.
Hint Resolve post_switch_cases : loc.
Lemma post_switch : post (switch_statement V Rc) (LQ N_stmt).
Proof. pst switch_statement; fin. Qed.
Lemma post_break : post (break_statement V) (LQ N_stmt).
Proof. pst break_statement; fin. Qed.
Lemma post_continue : post (continue_statement V) (LQ N_stmt).
Proof. pst continue_statement; fin. Qed.
Lemma post_return : post (return_statement V Rc) (LQ N_stmt).
Proof.
  pst return_statement; try fin;
    (match goal with H : stmt_loc _ = Some _ |- _ => cbn in H; injection H as <- end;
     eapply gl_place; [apply gl_mk; assumption|lia]).
Qed.
Lemma post_with : post (with_statement V Rc) (LQ N_stmt).
Proof. pst with_statement; fin. Qed.
Lemma post_throw : post (throw_statement V Rc) (LQ N_stmt).
Proof. pst throw_statement; fin. Qed.
Lemma post_catch : post (catch_opt V Rc) (LA (of_opt N_catch)).
Proof. pst catch_opt; fin. Qed.
Lemma post_finally : post (finally_opt V Rc) (LA (of_opt N_block)).
Proof. pst finally_opt; fin. Qed.
Hint Resolve post_catch post_finally post_switch post_break post_continue post_return post_with post_throw : loc.
Lemma post_try : post (try_statement V Rc) (LQ N_stmt).
Proof.
  pst try_statement; try fin.
  match goal with H : forall t0, _ -> _ = t0, E : hd_error _ = Some _ |- _ => pose proof (H _ E); subst end.
  repeat match goal with H : _ || _ = false |- _ => apply orb_false_iff in H as [? ?] end.
  match goal with T : tokok ?t |- honest _ _ (OrphanTry ?t) => split; [exact (tok_del t T)|] end.
  split; (apply is_t_not; [assumption|exact Logic.I]).
Qed.
Lemma post_debugger : post (debugger_statement V) (LQ N_stmt).
Proof. pst debugger_statement; fin. Qed.
Hint Resolve post_try post_debugger : loc.

Lemma wrap_loc l : forall b lo hi, Lc lo hi (N_stmt b) -> down lo (st (N_stmt b)) hi (map id_loc l) ->
  Lc lo hi (N_stmt (fold_left (fun b i => S_Label (span_of (id_loc i) (stmt_loc b)) i b) l b)).
Proof.
  induction l as [|i l IH]; intros b lo hi Hb Hd; cbn [fold_left]; [exact Hb|].
  cbn [map down] in Hd. destruct Hd as (x & y & Hg & ? & ? & ? & ? & Hd).
  assert (Lc lo hi (N_id i)) by lcs. assert (E1 := st_gl (N_id i) _ _ Hg). assert (E2 := en_gl (N_id i) _ _ Hg).
  expose. apply IH; [lcs|].
  erewrite st_gl; [|cbn; gls]. rewrite ?E1. exact Hd.
Qed.
Lemma W_more_labels i s lo (F : list id -> pst -> Prop) : Inv s -> down lo (B0 s) (R s) [id_loc i] -> la s <= 1 ->
  (forall l s', Inv s' -> dirmono s s' -> ord s' -> down lo (B0 s') (R s') (map id_loc (rev l)) -> F l s') ->
  W (more_labels V Rc i) s F.
Proof.
  intros I Hd Hla HF. assert (O := Inv_ord _ I). prep. unfold more_labels.
  assert (lo <= B0 s) by (destruct Hd as (? & ? & ? & ? & ? & ? & ? & _); lia).
  apply (W_loop (fun l s2 => mono s s2 /\ down lo (B0 s2) (R s2) (map id_loc (rev l)))).
  - intros l s2 I2 O2 [M Hl]. prep. go.
    + split; [assumption|]. split; [mon|]. rewrite rev_app_distr. cbn [rev app map down]. expose.
      match goal with E : id_loc ?a = Some (tk_loc ?t) |- _ =>
        rewrite E; exists (ti t), (te t); split; [gls|] end.
      repeat (split; [lia|]). eapply down_mono; [exact Hl|lia|lia|lia].
    + match goal with H : forall t0, hd_error _ = Some t0 -> ?a = t0, E : hd_error _ = Some ?b |- _ => pose proof (H _ E); subst end.
      go. split; [assumption|]. apply HF; [assumption| |mon|].
      * unfold dirmono. repeat (split; [lia|]). intro.
        match goal with E : as_ident ?a = Some _, H : lb _ = (if unconst ?a then _ else _) |- _ =>
          unfold as_ident, unconst in *; destruct (tk_value a); try discriminate E end. lia.
      * eapply down_mono; [exact Hl|lia|lia|lia].
    + split; [assumption|]. apply HF; [assumption| |mon|].
      * unfold dirmono. repeat (split; [lia|]). intro. lia.
      * eapply down_mono; [exact Hl|lia|lia|lia].
  - assumption.
  - split; [mon|]. exact Hd.
Qed.

Lemma W_labelled i s lo (F : stmt -> pst -> Prop) : Inv s -> down lo (B0 s) (R s) [id_loc i] -> lo <= B0 s -> la s <= 1 ->
  (forall r s', Inv s' -> mono s s' -> ord s' -> Lc lo (R s') (N_stmt r) -> F r s') ->
  W (labelled_statement V Rc i) s F.
Proof.
  intros I Hd Hlo Hla HF. assert (O := Inv_ord _ I). prep. unfold labelled_statement. go.
  apply (W_more_labels i s0 lo); [assumption|eapply down_mono; [exact Hd|lia|lia|lia]|lia|].
  intros l s1 I1 M1 O1 D1. unfold dirmono in *. prep. unfold with_labels. go. prep.
  apply HF; [assumption|mon|mon|]. expose.
  apply wrap_loc; [lcs|]. eapply down_mono; [exact D1|lia|lia|lia].
Qed.
Lemma W_ident_item d s t0 n (F : item -> pst -> Prop) : Inv s -> hd_error (ahead s) = Some t0 -> as_ident t0 = Some n ->
  (forall r s', Inv s' -> mono s s' -> ord s' -> Lc (B0 s) (R s') (N_item r) -> la s' <= 1 -> F r s') ->
  W (ident_item V Rc d) s F.
Proof.
  intros I Ht0 Hn HF. assert (O := Inv_ord _ I). prep. unfold ident_item. go.
  - match goal with E : id_loc ?i = Some (tk_loc ?t) |- W _ ?s1 _ =>
      apply (W_labelled i s1 (B0 s)); [assumption| |lia|lia|] ;
      [cbn [down]; exists (ti t), (te t); rewrite E; split; [gls|repeat (split; [lia|]); exact Logic.I]|] end.
    intros r s3 I3 M3 O3 Q. prep. go. apply HF; [assumption|mon|mon|expose; lcs|lia].
  - match goal with |- W (let_declaration _ _ (sp_start (tk_loc ?t))) ?s1 _ =>
      assert (Hp : pw (sp_start (tk_loc t)) /\ off (sp_start (tk_loc t)) = ti t) end.
    { split; [|reflexivity]. match goal with T : tokok ?t |- pw (sp_start (tk_loc ?t)) => apply T end. }
    prep. go. discharge. apply HF; [assumption|mon|mon|expose; lcs|lia].
  - match goal with H : forall t0, hd_error _ = Some t0 -> ?a = t0 |- _ => pose proof (H _ Ht0); subst end.
    go. apply HF; [assumption|mon|mon|expose; lcs|lia].
Qed.
Lemma post_stmt_list_item d : post (stmt_list_item V Rc d) (IQ N_item).
Proof.
  pst stmt_list_item; try (eapply W_ident_item; [assumption|eassumption|eassumption|];
    intros r s2 I2 M2 O2 Q2 L2; prep; split; [assumption|split; [mon|intro; split; [lcs|assumption]]]);
  try (split; [assumption|split; [mon|]]; intro; discharge;
    try match goal with E : is_t ?t (TReserved R_Const) = true, H : hd_error (ahead ?x) = Some ?t |- _ =>
      pose proof (lb_not x t H ltac:(unfold unconst; rewrite (is_t_plain t (TReserved R_Const) Logic.I E); reflexivity));
      assert (la x <= 1) by lia; discharge end;
    split; [expose; lcs|lia]).
Qed.

(** ** Programs *)

Lemma post_take : post take_deferred (fun s d s' => (la s' = la s /\ lb s' = lb s) /\ Forall (check_honest V src) d).
Proof. apply post_same. intros s I. split; [reflexivity|]. split; [constructor|apply I]. Qed.
Lemma post_set_module : post set_module (fun s _ s' => (la s' = la s /\ lb s' = lb s)).
Proof. apply post_lex_same. intros s I. split; [reflexivity|apply I]. Qed.
Lemma perform_honest b d e : Forall (check_honest V src) d -> perform_all b d = Some e -> honest V src e.
Proof.
  intros H. induction H as [|[x|x] d Hc H IH]; cbn [perform_all check_perform]; [discriminate| |].
  - intros E. injection E as <-. exact Hc.
  - destruct b; [|exact IH]. intros E. injection E as <-. exact Hc.
Qed.
Lemma post_assert_goal : post assert_goal_unknown (fun s _ s' => (la s' = la s /\ lb s' = lb s)).
Proof. pst assert_goal_unknown; fin. Qed.
Hint Resolve post_take post_set_module post_assert_goal : loc.
Lemma post_more_module_items l : post (more_module_items V Rc l) (fun s l' s' => forall lo, LcA lo (R s) (of_list N_mitem l) ->
  lo <= B0 s -> lb s <= 1 -> LcA lo (R s') (of_list N_mitem l') /\ la s' <= 1).
Proof.
  pst more_module_items.
  apply (W_loop (fun l' s2 => mono s s2 /\ (forall lo, LcA lo (R s) (of_list N_mitem l) ->
    lo <= B0 s -> lb s <= 1 -> LcA lo (R s2) (of_list N_mitem l') /\ lb s2 <= 1))).
  - intros l2 s2 I2 O2 [M Hl2]. prep. go; (split; [assumption|]).
    + split; [assumption|]. split; [mon|]. intros lo A1 A2 A3. destruct (Hl2 lo A1 A2 A3). split; [lcs|discharge; lia].
    + split; [mon|]. intros lo A1 A2 A3. destruct (Hl2 lo A1 A2 A3). discharge. expose. split; [lcs|lia].
  - assumption.
  - split; [mon|]. intros. split; [lcs|assumption].
Qed.
Lemma post_module_items : post (module_items V Rc) (LB (of_list N_mitem)).
Proof.
  intros s I. assert (Hn : LcA (B0 s) (R s) (of_list N_mitem [])) by lcs.
  assert (O := Inv_ord _ I).
  eapply W_use; [exact (post_more_module_items [])|exact I|]. intros a s' I' M O' H. prep.
  split; [exact I'|]. split; [mon|]. intro. apply H; [assumption|lia|lia].
Qed.
Hint Resolve post_module_items : loc.
Lemma post_module : post (module_ V Rc) (fun s m s' => lim (la s) 0 ((Lc (B0 s) (R s') (N_mod m)))).
Proof.
  pst module_. apply W_body_directives; [assumption|]. intros l s9 I9 M9 O9 Hl. unfold dirmono in *. prep. go. fin.
Qed.
Definition program_node (p : program) : node :=
  match p with Pg_Ambiguous _ b => N_body b | Pg_Module m => N_mod m end.
Lemma mod_items_loc lo hi l : LcA lo hi (of_list N_item l) -> LcA lo hi (of_list N_mitem (map item_into_mod_item l)).
Proof.
  intros H c Hc. unfold of_list in Hc. rewrite map_map in Hc. apply in_map_iff in Hc as (i & <- & Hi).
  assert (Lc lo hi (N_item i)) by (apply H, in_map, Hi). expose. unfold item_into_mod_item. lcs.
Qed.
Definition program_items_ok (lo hi : nat) (p : program_items) : Prop :=
  match p with PI_Script l => LcA lo hi (of_list N_item l) | PI_Module l => LcA lo hi (of_list N_mitem l) end.
Lemma post_program_items : post (program_items_ V Rc) (fun s p s' =>
  lim (lb s) 1 (program_items_ok (B0 s) (R s') p /\ la s' <= 1)).
Proof.
  pst program_items_.
  apply (W_loop (fun l s2 => mono s s2 /\ lim (lb s) 1 (LcA (B0 s) (R s2) (of_list N_item l) /\ lb s2 <= 1))).
  - intros l s2 I2 O2 [M Hl]. prep. go.
    + split; [assumption|]. split; [assumption|]. split; [mon|]. intro. discharge. split; [cbn; lcs|lia].
    + unfold force_deferred_module_validation. go.
      { eapply perform_honest; eassumption. }
      match goal with E : _ || _ = true |- _ => apply orb_true_iff in E as [E|E] end; discharge;
      (eapply W_use; [apply (post_more_module_items (map item_into_mod_item l))|assumption|]);
      intros l' s4 I4 M4 O4 Q4; prep; go; (split; [assumption|split; [assumption|split; [mon|]]]);
      intro; discharge; cbn [program_items_ok];
      (apply Q4; [apply mod_items_loc; lcs|lia|lia]).
    + split; [assumption|]. split; [mon|]. intro. discharge. split; [lcs|lia].
  - assumption.
  - split; [mon|]. intro. split; [lcs|assumption].
Qed.
Hint Resolve post_program_items : loc.
Lemma post_program : post (program_ V Rc) (fun s p s' => lim (la s) 0 ((Lc (B0 s) (R s') (program_node p))) /\
  match p with Pg_Ambiguous cs _ => Forall (check_honest V src) cs | Pg_Module _ => True end).
Proof.
  pst program_. apply W_body_directives; [assumption|]. intros l s9 I9 M9 O9 Hl. unfold dirmono in *. prep. go;
  cbn [program_set_loc program_node program_items_ok] in *; fin.
Qed.
Lemma post_script b : post (script_ V Rc b) (fun s m s' => lim (la s) 0 ((Lc (B0 s) (R s') (N_body m)))).
Proof. pst script_; fin. Qed.
End Methods.

Lemma post_nofuel {A} Q : post (@nofuel pst perror A) Q.
Proof. intros s I. exact Logic.I. Qed.
Lemma parse_rec_loc n : post (r_assign (parse_rec V n)) (XQ N_expr) /\
  forall d, post (r_item (parse_rec V n) d) (IQ N_item).
Proof.
  induction n as [|n [IH1 IH2]]; [split; [|intros d]; apply post_nofuel|]. split; [|intros d].
  - apply post_assignment; assumption.
  - apply post_stmt_list_item; assumption.
Qed.
Lemma Inv_new : Inv (parser_new src).
Proof.
  assert (H := rd_at_new src). split; [|split; [exact Logic.I|split; [cbn; lia|split; [exists [], []; reflexivity|split; [constructor|exact Logic.I]]]]].
  unfold R. change (p_lexer (parser_new src)) with (lexer_new src). rewrite (rd_at_off _ _ H). exact H.
Qed.
Lemma Lc_all lo hi n : hi <= length src -> Lc lo hi n -> all_located src n.
Proof.
  intros Hh H m Hm. assert (Hl : Lc lo hi m).
  { induction Hm as [|m c Hm IH Hc]; [exact H|]. apply Lc_children in IH. apply IH, Hc. }
  exact (Lc_place _ _ _ Hl).
Qed.
Lemma Lc_nested lo hi n : Lc lo hi n -> nested n.
Proof.
  intros H m c l k Hm Hc El Ek. assert (Hl : Lc lo hi m).
  { clear c l k Hc El Ek. induction Hm as [|m c Hm IH Hc]; [exact H|]. apply Lc_children in IH. apply IH, Hc. }
  inversion Hl as [m' i j Hg _ _ _ _ Hb _ _]. subst m'. destruct (Hb c Hc) as [B1 B2]. unfold st, en in B1, B2. rewrite Ek in B1, B2.
  rewrite El in Hg. destruct l as [a b]. destruct Hg as (_ & _ & E1 & E2). unfold starts_by, ends_by, off in *. cbn.
  split; intros E; [specialize (B1 E)|specialize (B2 E)]; lia.
Qed.
Lemma gl_posn l i j : gl (Some l) i j -> sp_start l = posn_at src i /\ sp_end l = posn_at src j.
Proof.
  destruct l as [a b]. cbn. intros (Ha & Hb & <- & <-). split; [apply (pw_off _ Ha)|apply (pw_off _ Hb)].
Qed.
Lemma Lc_tight lo hi n : Lc lo hi n -> tight n.
Proof.
  intros H m l Hm El. assert (Hl : Lc lo hi m).
  { clear l El. induction Hm as [|m c Hm IH Hc]; [exact H|]. apply Lc_children in IH. apply IH, Hc. }
  inversion Hl as [m' i j Hg _ _ _ Hc _ [F1 F2] _]. subst m'. rewrite El in Hg. destruct (gl_posn _ _ _ Hg) as [-> ->]. split.
  - intros E c r k Ec Ek. specialize (F1 E). rewrite Ec in F1, Hc. destruct (Lc_gl _ _ _ (Hc c (or_introl eq_refl))) as (G & _).
    rewrite Ek in G. destruct (gl_posn _ _ _ G) as [-> _]. congruence.
  - intros E r c k Ec Ek. specialize (F2 E). rewrite Ec, rev_app_distr in F2. cbn in F2.
    assert (Hi : In c (children m)) by (rewrite Ec; apply in_or_app; right; left; reflexivity).
    destruct (Lc_gl _ _ _ (Hc c Hi)) as (G & _). rewrite Ek in G. destruct (gl_posn _ _ _ G) as [_ ->]. congruence.
Qed.
Lemma Lc_delimited lo hi n : Lc lo hi n -> forall m, within n m -> delimited V src m.
Proof.
  intros H m Hm. assert (Hl : Lc lo hi m).
  { induction Hm as [|m c Hm IH Hc]; [exact H|]. apply Lc_children in IH. apply IH, Hc. }
  inversion Hl as [m' i j _ _ _ _ _ _ _ D]. exact D.
Qed.
Lemma run_post {A} (m : P A) Q a : post m Q -> run m (parser_new src) = Ok a ->
  exists s', R s' <= length src /\ Q (parser_new src) a s'.
Proof.
  intros H E. unfold run in E. destruct (m (parser_new src)) as [[x s']| | |] eqn:Em; try discriminate.
  injection E as ->. assert (K := H _ Inv_new). unfold W in K. rewrite Em in K. destruct K as (I' & _ & HQ). exists s'. split; [|exact HQ].
  assert (O := Inv_ord _ I'). apply O.
Qed.
Theorem script_located b : script_of V src = Ok b -> all_located src (N_body b).
Proof.
  destruct (parse_rec_loc (fuel_for src)) as [H1 H2]. intros E.
  destruct (run_post _ _ _ (post_script _ H2 false) E) as (s' & Hs & H). exact (Lc_all _ _ _ Hs (H ltac:(cbn; lia))).
Qed.
Theorem strict_located b : strict_of V src = Ok b -> all_located src (N_body b).
Proof.
  destruct (parse_rec_loc (fuel_for src)) as [H1 H2]. intros E.
  destruct (run_post _ _ _ (post_script _ H2 true) E) as (s' & Hs & H). exact (Lc_all _ _ _ Hs (H ltac:(cbn; lia))).
Qed.
Theorem module_located b : module_of V src = Ok b -> all_located src (N_mod b).
Proof.
  destruct (parse_rec_loc (fuel_for src)) as [H1 H2]. intros E.
  destruct (run_post _ _ _ (post_module _ H2) E) as (s' & Hs & H). exact (Lc_all _ _ _ Hs (H ltac:(cbn; lia))).
Qed.
Theorem program_located b : program_of V src = Ok b -> all_located src (program_node b).
Proof.
  destruct (parse_rec_loc (fuel_for src)) as [H1 H2]. intros E.
  destruct (run_post _ _ _ (post_program _ H2) E) as (s' & Hs & H & _). exact (Lc_all _ _ _ Hs (H ltac:(cbn; lia))).
Qed.
Theorem script_nested b : script_of V src = Ok b -> nested (N_body b).
Proof.
  destruct (parse_rec_loc (fuel_for src)) as [H1 H2]. intros E.
  destruct (run_post _ _ _ (post_script _ H2 false) E) as (s' & Hs & H). exact (Lc_nested _ _ _ (H ltac:(cbn; lia))).
Qed.
Theorem strict_nested b : strict_of V src = Ok b -> nested (N_body b).
Proof.
  destruct (parse_rec_loc (fuel_for src)) as [H1 H2]. intros E.
  destruct (run_post _ _ _ (post_script _ H2 true) E) as (s' & Hs & H). exact (Lc_nested _ _ _ (H ltac:(cbn; lia))).
Qed.
Theorem module_nested b : module_of V src = Ok b -> nested (N_mod b).
Proof.
  destruct (parse_rec_loc (fuel_for src)) as [H1 H2]. intros E.
  destruct (run_post _ _ _ (post_module _ H2) E) as (s' & Hs & H). exact (Lc_nested _ _ _ (H ltac:(cbn; lia))).
Qed.
Theorem program_nested b : program_of V src = Ok b -> nested (program_node b).
Proof.
  destruct (parse_rec_loc (fuel_for src)) as [H1 H2]. intros E.
  destruct (run_post _ _ _ (post_program _ H2) E) as (s' & Hs & H & _). exact (Lc_nested _ _ _ (H ltac:(cbn; lia))).
Qed.
Theorem script_tight b : script_of V src = Ok b -> tight (N_body b).
Proof.
  destruct (parse_rec_loc (fuel_for src)) as [H1 H2]. intros E.
  destruct (run_post _ _ _ (post_script _ H2 false) E) as (s' & Hs & H). exact (Lc_tight _ _ _ (H ltac:(cbn; lia))).
Qed.
Theorem strict_tight b : strict_of V src = Ok b -> tight (N_body b).
Proof.
  destruct (parse_rec_loc (fuel_for src)) as [H1 H2]. intros E.
  destruct (run_post _ _ _ (post_script _ H2 true) E) as (s' & Hs & H). exact (Lc_tight _ _ _ (H ltac:(cbn; lia))).
Qed.
Theorem module_tight b : module_of V src = Ok b -> tight (N_mod b).
Proof.
  destruct (parse_rec_loc (fuel_for src)) as [H1 H2]. intros E.
  destruct (run_post _ _ _ (post_module _ H2) E) as (s' & Hs & H). exact (Lc_tight _ _ _ (H ltac:(cbn; lia))).
Qed.
Theorem program_tight b : program_of V src = Ok b -> tight (program_node b).
Proof.
  destruct (parse_rec_loc (fuel_for src)) as [H1 H2]. intros E.
  destruct (run_post _ _ _ (post_program _ H2) E) as (s' & Hs & H & _). exact (Lc_tight _ _ _ (H ltac:(cbn; lia))).
Qed.
Theorem script_delimited b : script_of V src = Ok b -> forall m, within (N_body b) m -> delimited V src m.
Proof.
  destruct (parse_rec_loc (fuel_for src)) as [H1 H2]. intros E.
  destruct (run_post _ _ _ (post_script _ H2 false) E) as (s' & Hs & H). exact (Lc_delimited _ _ _ (H ltac:(cbn; lia))).
Qed.
Theorem strict_delimited b : strict_of V src = Ok b -> forall m, within (N_body b) m -> delimited V src m.
Proof.
  destruct (parse_rec_loc (fuel_for src)) as [H1 H2]. intros E.
  destruct (run_post _ _ _ (post_script _ H2 true) E) as (s' & Hs & H). exact (Lc_delimited _ _ _ (H ltac:(cbn; lia))).
Qed.
Theorem module_delimited b : module_of V src = Ok b -> forall m, within (N_mod b) m -> delimited V src m.
Proof.
  destruct (parse_rec_loc (fuel_for src)) as [H1 H2]. intros E.
  destruct (run_post _ _ _ (post_module _ H2) E) as (s' & Hs & H). exact (Lc_delimited _ _ _ (H ltac:(cbn; lia))).
Qed.
Theorem program_delimited b : program_of V src = Ok b -> forall m, within (program_node b) m -> delimited V src m.
Proof.
  destruct (parse_rec_loc (fuel_for src)) as [H1 H2]. intros E.
  destruct (run_post _ _ _ (post_program _ H2) E) as (s' & Hs & H & _). exact (Lc_delimited _ _ _ (H ltac:(cbn; lia))).
Qed.
(** ** Errors and panics *)

Definition outcome_honest {A} (r : res perror A) : Prop :=
  match r with Ok _ => True | Err e => honest V src e | Panic k => panic_honest V src k | NoFuel => True end.
Lemma run_honest {A} (m : P A) Q : post m Q -> outcome_honest (run m (parser_new src)).
Proof.
  intros H. assert (K := H _ Inv_new). unfold W in K. unfold run.
  destruct (m (parser_new src)) as [[x s']| | |]; try exact K; exact Logic.I.
Qed.
Theorem script_honest : outcome_honest (script_of V src).
Proof. destruct (parse_rec_loc (fuel_for src)) as [H1 H2]. exact (run_honest _ _ (post_script _ H2 false)). Qed.
Theorem strict_honest : outcome_honest (strict_of V src).
Proof. destruct (parse_rec_loc (fuel_for src)) as [H1 H2]. exact (run_honest _ _ (post_script _ H2 true)). Qed.
Theorem module_honest : outcome_honest (module_of V src).
Proof. destruct (parse_rec_loc (fuel_for src)) as [H1 H2]. exact (run_honest _ _ (post_module _ H2)). Qed.
Theorem program_honest : outcome_honest (program_of V src).
Proof. destruct (parse_rec_loc (fuel_for src)) as [H1 H2]. exact (run_honest _ _ (post_program _ H2)). Qed.
Theorem deferred_honest cs b : program_of V src = Ok (Pg_Ambiguous cs b) -> Forall (check_honest V src) cs.
Proof.
  destruct (parse_rec_loc (fuel_for src)) as [H1 H2]. intros E.
  destruct (run_post _ _ _ (post_program _ H2) E) as (s' & Hs & _ & H). exact H.
Qed.
End Loc.
