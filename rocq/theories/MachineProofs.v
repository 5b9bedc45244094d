(** The reader with positions of machine words: proofs. *)
From Coq Require Import String Ascii List NArith Bool Lia.
From Verif Require Import Base Chars Reader SpecReader ReaderProofs Machine.
Import ListNotations.
Local Open Scope N_scope.

Definition place (p : posn) (r : reader) : reader := Reader (chars r) (ahead r) p.
Lemma fill_place n : forall p r, fill n (place p r) = (fst (fill n r), place p (snd (fill n r))).
Proof.
  induction n as [|n IH]; intros p r; [reflexivity|]. cbn [fill]. destruct r as [[|c l] a q]; [reflexivity|].
  cbn [place chars ahead curr_posn]. exact (IH p (Reader l (a ++ [c]) q)).
Qed.
Definition placed {A} (f : posn -> posn) (o : res unit (A * reader)) : res unit (A * reader) :=
  match o with
  | Ok (a, r) => Ok (a, place (f (curr_posn r)) r)
  | Err e => Err e | Panic k => Panic k | NoFuel => NoFuel
  end.
Lemma fill_posn n : forall r, curr_posn (snd (fill n r)) = curr_posn r.
Proof.
  induction n as [|n IH]; intros r; [reflexivity|]. cbn [fill]. destruct r as [[|c l] a q]; [reflexivity|].
  cbn [chars ahead curr_posn]. exact (IH (Reader l (a ++ [c]) q)).
Qed.
Lemma peek_place n f r : reader_peek n (place (f (curr_posn r)) r) = placed f (reader_peek n r).
Proof.
  unfold reader_peek. destruct (Nat.ltb n ahead_capacity); [|reflexivity].
  change (ahead (place (f (curr_posn r)) r)) with (ahead r). rewrite fill_place.
  pose proof (fill_posn (S n - length (ahead r)) r) as P.
  destruct (fill (S n - length (ahead r)) r) as [[|] r']; cbn [fst snd placed] in *; now rewrite <- P.
Qed.
Lemma peek_posn n r o r' : reader_peek n r = Ok (o, r') -> curr_posn r' = curr_posn r.
Proof.
  unfold reader_peek. destruct (Nat.ltb n ahead_capacity); [|discriminate].
  pose proof (fill_posn (S n - length (ahead r)) r) as P.
  destruct (fill (S n - length (ahead r)) r) as [[|] r2]; cbn [snd] in P; intros H; injection H as _ <-; exact P.
Qed.

(** [next] without the addition: the character, whether a line ends, what is left. *)
Definition cut (r : reader) : res unit ((option N * bool) * reader) :=
  let '(c, r1) :=
    match ahead r with
    | c :: a => (Some c, Reader (chars r) a (curr_posn r))
    | [] => match chars r with
            | c :: l => (Some c, Reader l [] (curr_posn r))
            | [] => (None, r)
            end
    end in
  if is_c c 13 then
    match reader_peek 0 r1 with
    | Ok (nxt, r2) => Ok (c, negb (is_c nxt 10), r2)
    | Err e => Err e
    | Panic k => Panic k
    | NoFuel => NoFuel
    end
  else Ok (c, is_c c 10 || is_c c 8232 || is_c c 8233, r1).
Definition step (newline : bool) (p : posn) : posn :=
  if newline then Posn (offset p + 1) (line p + 1) 0 else Posn (offset p + 1) (line p) (column p + 1).
Lemma next_cut r : reader_next r = match cut r with
  | Ok (c, nl, r1) => Ok (c, place (step nl (curr_posn r1)) r1)
  | Err e => Err e | Panic k => Panic k | NoFuel => NoFuel end.
Proof.
  unfold reader_next, cut. destruct (ahead r) as [|c a]; [destruct (chars r) as [|c l]|];
    try (destruct (is_c _ 13); [destruct (reader_peek 0 _) as [[nx r2]|?|?|]|]; reflexivity).
Qed.
Lemma machine_cut k r : machine_next k r = match cut r with
  | Ok (c, nl, r1) => match bump k nl (curr_posn r1) with Some p => Ok (c, place p r1) | None => Panic P_overflow end
  | Err e => Err e | Panic k => Panic k | NoFuel => NoFuel end.
Proof.
  unfold machine_next, cut. destruct (ahead r) as [|c a]; [destruct (chars r) as [|c l]|];
    try (destruct (is_c _ 13); [destruct (reader_peek 0 _) as [[nx r2]|?|?|]|]; reflexivity).
Qed.
Lemma cut_place f r : cut (place (f (curr_posn r)) r) = placed f (cut r).
Proof.
  unfold cut. cbn [place ahead chars curr_posn].
  destruct (ahead r) as [|c a] eqn:EA; [destruct (chars r) as [|c l] eqn:EC|].
  - cbn [is_c]. unfold placed. destruct r; cbn in *; now subst.
  - destruct (is_c (Some c) 13); [|reflexivity].
    pose proof (peek_place 0 f (Reader l [] (curr_posn r))) as Q. unfold place in Q; cbn [chars ahead curr_posn] in Q. rewrite Q.
    destruct (reader_peek 0 (Reader l [] (curr_posn r))) as [[nx r2]|?|?|]; reflexivity.
  - destruct (is_c (Some c) 13); [|reflexivity].
    pose proof (peek_place 0 f (Reader (chars r) a (curr_posn r))) as Q. unfold place in Q; cbn [chars ahead curr_posn] in Q. rewrite Q.
    destruct (reader_peek 0 (Reader (chars r) a (curr_posn r))) as [[nx r2]|?|?|]; reflexivity.
Qed.

Lemma cut_posn r c nl r1 : cut r = Ok (c, nl, r1) -> curr_posn r1 = curr_posn r.
Proof.
  unfold cut. destruct (ahead r) as [|x a]; [destruct (chars r) as [|x l]|].
  - cbn [is_c]. intros H. injection H as _ _ <-. reflexivity.
  - destruct (is_c (Some x) 13).
    + destruct (reader_peek 0 _) as [[nx r2]|?|?|] eqn:E; try discriminate. intros H. injection H as _ _ <-. exact (peek_posn _ _ _ _ E).
    + intros H. injection H as _ _ <-. reflexivity.
  - destruct (is_c (Some x) 13).
    + destruct (reader_peek 0 _) as [[nx r2]|?|?|] eqn:E; try discriminate. intros H. injection H as _ _ <-. exact (peek_posn _ _ _ _ E).
    + intros H. injection H as _ _ <-. reflexivity.
Qed.
Lemma cut_ok r : exists c nl r1, cut r = Ok (c, nl, r1).
Proof.
  assert (K : forall r, exists o r', reader_peek 0 r = Ok (o, r')).
  { intros r0. destruct (reader_peek_spec r0 0) as (r' & E & _); [unfold ahead_capacity; lia|]. eauto. }
  unfold cut. destruct (ahead r) as [|x a]; [destruct (chars r) as [|x l]|].
  - eexists _, _, _. reflexivity.
  - destruct (is_c (Some x) 13); [|eexists _, _, _; reflexivity]. destruct (K (Reader l [] (curr_posn r))) as (o & r' & E). rewrite E. eauto.
  - destruct (is_c (Some x) 13); [|eexists _, _, _; reflexivity]. destruct (K (Reader (chars r) a (curr_posn r))) as (o & r' & E). rewrite E. eauto.
Qed.

(** ** Below the limit *)
Definition bounded (p : posn) : Prop := line p <= offset p /\ column p <= offset p.
Lemma step_bounded nl p : bounded p -> bounded (step nl p) /\ offset (step nl p) = offset p + 1.
Proof. intros (A & B). destruct nl; split; try reflexivity; split; cbn; lia. Qed.
Lemma incr_below k a : a + 1 < words -> incr k a = Some (a + 1).
Proof. intros H. unfold incr. now rewrite (proj2 (N.ltb_lt _ _) H). Qed.
Lemma bump_below k nl p : bounded p -> offset p + 1 < words -> bump k nl p = Some (step nl p).
Proof.
  intros (A & B) H. unfold bump, step. destruct nl; rewrite !incr_below by lia; reflexivity.
Qed.
Lemma run_below k : forall ops r, bounded (curr_posn r) -> offset (curr_posn r) + N.of_nat (count_next ops) < words ->
  machine_run k ops r = reader_run ops r.
Proof.
  induction ops as [|[n|] ops IH]; intros r Hb H; cbn [machine_run reader_run count_next] in *; [reflexivity| |].
  - destruct (reader_peek n r) as [[o r']|?|?|] eqn:E; try reflexivity. rewrite (IH r'); [reflexivity|..]; now rewrite (peek_posn _ _ _ _ E).
  - rewrite machine_cut, next_cut. destruct (cut r) as [[[c nl] r1]|?|?|] eqn:E; try reflexivity.
    pose proof (cut_posn _ _ _ _ E) as P. rewrite P. destruct (step_bounded nl _ Hb) as (B1 & B2).
    rewrite bump_below by (auto; lia). rewrite IH; [reflexivity|exact B1|]. cbn [place curr_posn]. rewrite B2. lia.
Qed.

(** ** Without checks *)
Definition wrap (p : posn) : posn := Posn (offset p mod words) (line p mod words) (column p mod words).
Lemma incr_wraps a : incr false (a mod words) = Some ((a + 1) mod words).
Proof.
  unfold incr. assert (W : words <> 0) by discriminate. pose proof (N.mod_lt a words W).
  rewrite <- (N.add_mod_idemp_l a 1 words W). destruct (N.ltb_spec (a mod words + 1) words).
  - f_equal. symmetry. now apply N.mod_small.
  - f_equal. assert (E : a mod words + 1 = words) by lia. rewrite E. symmetry. now apply N.mod_same.
Qed.
Lemma bump_wraps nl p : bump false nl (wrap p) = Some (wrap (step nl p)).
Proof. unfold bump, wrap, step. cbn [offset line column]. destruct nl; now rewrite !incr_wraps. Qed.
Lemma run_wraps : forall ops r, machine_run false ops (place (wrap (curr_posn r)) r) = placed wrap (reader_run ops r).
Proof.
  induction ops as [|[n|] ops IH]; intros r; cbn [machine_run reader_run]; [reflexivity| |].
  - rewrite peek_place. destruct (reader_peek n r) as [[o r']|?|?|]; try reflexivity. cbn [placed]. rewrite IH.
    destruct (reader_run ops r') as [[os r2]|?|?|]; reflexivity.
  - rewrite machine_cut, cut_place, next_cut. destruct (cut r) as [[[c nl] r1]|?|?|] eqn:E; try reflexivity. cbn [placed].
    change (curr_posn (place (wrap (curr_posn r1)) r1)) with (wrap (curr_posn r1)). rewrite bump_wraps.
    change (place (wrap (step nl (curr_posn r1))) (place (wrap (curr_posn r1)) r1))
      with (place (wrap (curr_posn (place (step nl (curr_posn r1)) r1))) (place (step nl (curr_posn r1)) r1)).
    rewrite IH. destruct (reader_run ops (place (step nl (curr_posn r1)) r1)) as [[os r2]|?|?|]; reflexivity.
Qed.

(** ** With checks *)
Lemma bump_at nl p : words <= offset p + 1 -> bump true nl p = None.
Proof.
  intros H. assert (I : incr true (offset p) = None) by (unfold incr; now rewrite (proj2 (N.ltb_ge _ _) H)).
  unfold bump. rewrite I. destruct nl; [destruct (incr true (line p))|destruct (incr true (column p))]; reflexivity.
Qed.
Lemma run_at : forall ops r, (forall n, In (RPeek n) ops -> (n < ahead_capacity)%nat) -> bounded (curr_posn r) ->
  offset (curr_posn r) < words -> words <= offset (curr_posn r) + N.of_nat (count_next ops) ->
  machine_run true ops r = Panic P_overflow.
Proof.
  induction ops as [|[n|] ops IH]; intros r Hp Hb Hl Hg; cbn [machine_run count_next] in *; [lia| |].
  - destruct (reader_peek_spec r n) as (r' & E & _ & P); [apply Hp; now left|]. rewrite E.
    rewrite IH; [reflexivity|intros; apply Hp; now right|rewrite P; auto..].
  - rewrite machine_cut. destruct (cut_ok r) as (c & nl & r1 & E). rewrite E.
    pose proof (cut_posn _ _ _ _ E) as P. rewrite P. destruct (N.lt_ge_cases (offset (curr_posn r) + 1) words) as [H|H].
    + destruct (step_bounded nl _ Hb) as (B1 & B2). rewrite bump_below by auto.
      rewrite IH; [reflexivity|intros; apply Hp; now right|exact B1|..]; cbn [place curr_posn]; rewrite B2; lia.
    + now rewrite bump_at.
Qed.
