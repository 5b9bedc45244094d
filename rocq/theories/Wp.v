(** Proof infrastructure: total-correctness triples for the state-and-outcome
    monad of Base.v.  [wp m s Q X K] says that running [m] in [s] ends with a value
    and state in [Q], or with an error in [X], or with a panic in [K], and never
    runs out of fuel. *)
From Coq Require Import List NArith Bool Lia.
From Verif Require Import Base.
Local Open Scope nat_scope.
Import ListNotations.

Section Wp.
Context {S E : Type}.

Definition wp {A} (m : M S E A) (s : S) (Q : A -> S -> Prop) (X : E -> Prop) (K : panic -> Prop)
  : Prop :=
  match m s with
  | Ok (a, s') => Q a s'
  | Err e => X e
  | Panic k => K k
  | NoFuel => False
  end.

Context (X : E -> Prop) (K : panic -> Prop).

Lemma wp_ret {A} (a : A) s (Q : A -> S -> Prop) : Q a s -> wp (ret a) s Q X K.
Proof. intros H; exact H. Qed.

Lemma wp_bind {A B} (m : M S E A) (f : A -> M S E B) s (Q : B -> S -> Prop) :
  wp m s (fun a s' => wp (f a) s' Q X K) X K -> wp (bind m f) s Q X K.
Proof.
  unfold wp, bind. destruct (m s) as [[a s']|e|k|]; intros H; exact H.
Qed.

Lemma wp_mono {A} (m : M S E A) s (Q Q' : A -> S -> Prop) (X' : E -> Prop) (K' : panic -> Prop) :
  wp m s Q' X' K' ->
  (forall a s', Q' a s' -> Q a s') -> (forall e, X' e -> X e) -> (forall k, K' k -> K k) ->
  wp m s Q X K.
Proof.
  unfold wp. destruct (m s) as [[a s']|e|k|]; auto.
Qed.

Lemma wp_conseq {A} (m : M S E A) s (Q Q' : A -> S -> Prop) :
  wp m s Q' X K -> (forall a s', Q' a s' -> Q a s') -> wp m s Q X K.
Proof. intros H HQ. eapply wp_mono; eauto. Qed.

Lemma wp_err {A} e s (Q : A -> S -> Prop) : X e -> wp (err e) s Q X K.
Proof. intros H; exact H. Qed.

Lemma wp_panic {A} k s (Q : A -> S -> Prop) : K k -> wp (panic_at k) s Q X K.
Proof. intros H; exact H. Qed.

Lemma wp_gets {A} (f : S -> A) s (Q : A -> S -> Prop) : Q (f s) s -> wp (gets f) s Q X K.
Proof. intros H; exact H. Qed.

Lemma wp_modify (f : S -> S) s (Q : unit -> S -> Prop) : Q tt (f s) -> wp (modify f) s Q X K.
Proof. intros H; exact H. Qed.

(** A computation that inspects its state first. *)
Lemma wp_self {A} (m : S -> M S E A) s (Q : A -> S -> Prop) :
  wp (m s) s Q X K -> wp (fun s => m s s) s Q X K.
Proof. intros H; exact H. Qed.

Lemma wp_loop {A B} (body : A -> M S E (A + B)) (I : A -> S -> Prop) (mu : A -> S -> nat)
      (Q : B -> S -> Prop) :
  (forall a s, I a s ->
     wp (body a) s (fun x s' => match x with
                                | inl a' => I a' s' /\ mu a' s' < mu a s
                                | inr b => Q b s'
                                end) X K) ->
  forall fuel a s, I a s -> mu a s < fuel -> wp (loopM fuel body a) s Q X K.
Proof.
  intros Hb. induction fuel as [|fuel IH]; intros a s HI Hmu; [lia|].
  cbn [loopM]. apply wp_bind. eapply wp_conseq; [apply Hb, HI|].
  intros [a'|b] s'; cbn beta iota.
  - intros [HI' Hlt]. apply IH; [exact HI'|lia].
  - intros HQ. apply wp_ret, HQ.
Qed.
End Wp.

Lemma bind_ok {S E A B} (m : M S E A) (f : A -> M S E B) s b s'' :
  bind m f s = Ok (b, s'') -> exists a s', m s = Ok (a, s') /\ f a s' = Ok (b, s'').
Proof.
  unfold bind. destruct (m s) as [[a s']|e|k|] eqn:Hm; try discriminate.
  intros H. exists a, s'. auto.
Qed.

Lemma wp_ok {S E A} (m : M S E A) s Q X K a s' :
  wp m s Q X K -> m s = Ok (a, s') -> Q a s'.
Proof. unfold wp. intros H Hm. rewrite Hm in H. exact H. Qed.

(** Association of [bind], pointwise. *)
Lemma bind_bind {S E A B C} (m : M S E A) (f : A -> M S E B) (g : B -> M S E C) s :
  bind (bind m f) g s = bind m (fun a => bind (f a) g) s.
Proof. unfold bind. destruct (m s) as [[a s']|e|k|]; reflexivity. Qed.
