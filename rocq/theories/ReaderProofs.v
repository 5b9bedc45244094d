(** Proofs about the reader. *)
From Coq Require Import Arith List NArith Bool Lia.
From Verif Require Import Base Chars Reader SpecReader.
Import ListNotations.
Local Open Scope N_scope.

(** ** Positions *)

Lemma line_ends_S src k :
  line_ends src (S k) = line_ends src k ++ (if ends_line src k then [k] else []).
Proof.
  unfold line_ends. rewrite seq_S, filter_app. cbn [Nat.add filter]. reflexivity.
Qed.

Lemma line_ends_lt src k i : In i (line_ends src k) -> (i < k)%nat.
Proof.
  unfold line_ends. intros H. apply filter_In in H. destruct H as [H _].
  apply in_seq in H. lia.
Qed.

Lemma posn_at_S src k c :
  nth_error src k = Some c ->
  posn_at src (S k) = advance (posn_at src k) c (nth_error src (S k)).
Proof.
  intros Hc. unfold posn_at, advance. rewrite line_ends_S.
  assert (Hends : ends_line src k
                  = ((c =? 13) && negb (is_c (nth_error src (S k)) 10)) || (c =? 10) || (c =? 8232) || (c =? 8233)).
  { unfold ends_line, is_c. rewrite Hc.
    destruct (nth_error src (S k)) as [d|]; [destruct (d =? 10)|];
      destruct (c =? 10), (c =? 8232), (c =? 8233), (c =? 13); reflexivity. }
  rewrite <- Hends. destruct (ends_line src k).
  - rewrite rev_app_distr, app_length. cbn [rev app length offset line column].
    f_equal; lia.
  - rewrite app_nil_r. cbn [offset line column]. f_equal; try lia.
    destruct (rev (line_ends src k)) as [|i l] eqn:Hr; [lia|].
    assert (In i (line_ends src k)) by (apply in_rev; rewrite Hr; left; reflexivity).
    apply line_ends_lt in H. lia.
Qed.

Lemma nth_error_app_exact {A} (pre : list A) l i : nth_error (pre ++ l) (length pre + i) = nth_error l i.
Proof.
  rewrite nth_error_app2 by lia. f_equal. lia.
Qed.

Lemma nth_error_app_hd {A} (pre : list A) l : nth_error (pre ++ l) (length pre) = hd_error l.
Proof.
  rewrite <- (Nat.add_0_r (length pre)) at 1. rewrite nth_error_app_exact. destruct l; reflexivity.
Qed.

Lemma advance_all_posn_at pre w tl :
  advance_all (posn_at (pre ++ w ++ tl) (length pre)) w tl
  = posn_at (pre ++ w ++ tl) (length pre + length w).
Proof.
  revert pre. induction w as [|c w IH]; intros pre; cbn [advance_all length].
  - rewrite Nat.add_0_r. reflexivity.
  - cbn [app].
    assert (Hsrc : pre ++ c :: w ++ tl = (pre ++ [c]) ++ w ++ tl) by (rewrite <- app_assoc; reflexivity).
    assert (Hlen : length (pre ++ [c]) = S (length pre)) by (rewrite app_length; cbn [length]; lia).
    assert (Hnx : hd_error (w ++ tl) = nth_error (pre ++ c :: w ++ tl) (S (length pre))).
    { rewrite Hsrc, <- Hlen, nth_error_app_hd. reflexivity. }
    rewrite Hnx, <- posn_at_S by (rewrite nth_error_app_hd; reflexivity).
    rewrite Hsrc, <- Hlen, IH. f_equal. lia.
Qed.

(** ** The data structure refines the plain text *)

(** [r] holds the text [src] from index [k] on. *)
Definition holds (src : str) (k : nat) (r : reader) : Prop :=
  (k <= length src)%nat /\ ahead r ++ chars r = skipn k src.

Lemma fill_spec n r b r' :
  fill n r = (b, r') ->
  ahead r' ++ chars r' = ahead r ++ chars r /\ curr_posn r' = curr_posn r
  /\ (b = true -> length (ahead r') = length (ahead r) + n)%nat
  /\ (b = false -> chars r' = [] /\ length (ahead r') < length (ahead r) + n /\ 0 < n)%nat.
Proof.
  revert r. induction n as [|n IH]; intros r; cbn [fill].
  - intros H; injection H as <- <-. repeat split; try congruence. intros _. lia.
  - destruct (chars r) as [|c l] eqn:Hc.
    + intros H; injection H as <- <-. rewrite Hc. split; [reflexivity|]. split; [reflexivity|].
      split; [discriminate|]. intros _. repeat split; lia.
    + intros H. apply IH in H. cbn [ahead chars curr_posn] in H.
      rewrite app_length in H. cbn [length] in H.
      destruct H as (H1 & H2 & H3 & H4). rewrite <- app_assoc in H1. cbn [app] in H1.
      split; [exact H1|]. split; [exact H2|]. split; intros Hb.
      * specialize (H3 Hb). lia.
      * destruct (H4 Hb) as (H5 & H6 & H7). repeat split; [exact H5|lia|lia].
Qed.

Lemma reader_peek_spec r n :
  (n < ahead_capacity)%nat ->
  exists r', reader_peek n r = Ok (nth_error (ahead r ++ chars r) n, r')
             /\ ahead r' ++ chars r' = ahead r ++ chars r /\ curr_posn r' = curr_posn r.
Proof.
  intros Hn. unfold reader_peek.
  rewrite (proj2 (Nat.ltb_lt n ahead_capacity) Hn).
  destruct (fill (S n - length (ahead r)) r) as [b r'] eqn:Hf.
  apply fill_spec in Hf. destruct Hf as (H1 & H2 & H3 & H4).
  exists r'. split; [|split; assumption]. rewrite <- H1. destruct b.
  - specialize (H3 eq_refl). rewrite nth_error_app1 by lia. reflexivity.
  - destruct (H4 eq_refl) as (Hc & Hl & Hn0). rewrite Hc, app_nil_r.
    rewrite (proj2 (nth_error_None (ahead r') n)) by lia. reflexivity.
Qed.

(** One [next] on a reader whose remaining text is [l]. *)
Lemma reader_next_spec r l :
  ahead r ++ chars r = l ->
  exists r', reader_next r = Ok (hd_error l, r')
             /\ ahead r' ++ chars r' = tl l
             /\ (forall c l', l = c :: l' -> curr_posn r' = advance (curr_posn r) c (hd_error l')).
Proof.
  intros Hl. unfold reader_next.
  set (step := match ahead r with
    | c :: a => (Some c, Reader (chars r) a (curr_posn r))
    | [] => match chars r with
            | c :: l => (Some c, Reader l [] (curr_posn r))
            | [] => (None, r)
            end
    end).
  assert (Hstep : fst step = hd_error l /\ ahead (snd step) ++ chars (snd step) = tl l
                  /\ curr_posn (snd step) = curr_posn r).
  { subst step l. destruct (ahead r) as [|c a] eqn:Ha.
    - destruct (chars r) as [|c ch] eqn:Hc.
      + cbn [fst snd app hd_error tl]. rewrite Ha, Hc. repeat split.
      + repeat split.
    - repeat split. }
  clearbody step. destruct step as [oc r1]. cbn [fst snd] in Hstep.
  destruct Hstep as (-> & Hr1 & Hp).
  destruct l as [|c l'].
  - cbn [hd_error is_c]. eexists; split; [reflexivity|]. cbn [ahead chars tl].
    split; [exact Hr1|]. intros c' l'' Hd; discriminate.
  - cbn [hd_error is_c tl] in *. destruct (c =? 13) eqn:H13.
    + destruct (reader_peek_spec r1 0) as (r2 & Hpk & Ht2 & Hp2); [unfold ahead_capacity; lia|].
      rewrite Hpk. eexists; split; [reflexivity|]. cbn [ahead chars curr_posn].
      split; [congruence|]. intros c0 l0 Heq. injection Heq as <- <-.
      rewrite Hr1, Hp2, Hp. unfold advance. rewrite H13.
      replace (nth_error l' 0) with (hd_error l') by (destruct l'; reflexivity).
      apply N.eqb_eq in H13; subst c.
      change (13 =? 10) with false. change (13 =? 8232) with false. change (13 =? 8233) with false.
      cbn [andb orb]. destruct (is_c (hd_error l') 10); reflexivity.
    + eexists; split; [reflexivity|]. cbn [ahead chars curr_posn].
      split; [exact Hr1|]. intros c0 l0 Heq. injection Heq as <- <-.
      rewrite Hp. unfold advance. rewrite H13. cbn [andb orb].
      destruct ((c =? 10) || (c =? 8232) || (c =? 8233)); reflexivity.
Qed.

Fixpoint reader_run (ops : list rop) (r : reader) : res unit (list (option N) * reader) :=
  match ops with
  | [] => Ok ([], r)
  | op :: ops' =>
      match (match op with RPeek n => reader_peek n r | RNext => reader_next r end) with
      | Ok (o, r') =>
          match reader_run ops' r' with
          | Ok (os, r'') => Ok (o :: os, r'')
          | Err e => Err e | Panic k => Panic k | NoFuel => NoFuel
          end
      | Err e => Err e | Panic k => Panic k | NoFuel => NoFuel
      end
  end.

Lemma nth_error_skipn {A} (l : list A) k n : nth_error (skipn k l) n = nth_error l (k + n).
Proof.
  revert l. induction k as [|k IH]; intros l; [reflexivity|].
  destruct l as [|a l]; cbn [skipn Nat.add]; [destruct n; reflexivity|]. apply IH.
Qed.

Lemma hd_error_skipn {A} (l : list A) k : hd_error (skipn k l) = nth_error l k.
Proof.
  rewrite <- (Nat.add_0_r k) at 2. rewrite <- nth_error_skipn. destruct (skipn k l); reflexivity.
Qed.

Lemma tl_skipn {A} (l : list A) k : tl (skipn k l) = skipn (S k) l.
Proof.
  revert l. induction k as [|k IH]; intros l; destruct l as [|a l]; try reflexivity.
  cbn [skipn]. rewrite IH. reflexivity.
Qed.

Lemma reader_run_spec src ops :
  (forall n, In (RPeek n) ops -> (n < ahead_capacity)%nat) ->
  forall k r, (k <= length src)%nat -> ahead r ++ chars r = skipn k src ->
  exists r', reader_run ops r = Ok (fst (text_run src k ops), r')
             /\ ahead r' ++ chars r' = skipn (snd (text_run src k ops)) src
             /\ (curr_posn r = posn_at src k -> (k + count_next ops <= length src)%nat ->
                 curr_posn r' = posn_at src (snd (text_run src k ops))
                 /\ snd (text_run src k ops) = (k + count_next ops)%nat).
Proof.
  induction ops as [|op ops IH]; intros Hops k r Hk Hr.
  - exists r. cbn [text_run fst snd reader_run count_next]. split; [reflexivity|].
    split; [exact Hr|]. intros Hp _. split; [exact Hp|lia].
  - assert (Hops' : forall n, In (RPeek n) ops -> (n < ahead_capacity)%nat)
      by (intros n Hn; apply Hops; right; exact Hn).
    cbn [reader_run text_run count_next]. destruct op as [n|].
    + destruct (reader_peek_spec r n) as (r1 & Hpk & Ht & Hp); [apply Hops; left; reflexivity|].
      rewrite Hpk. destruct (IH Hops' k r1 Hk) as (r2 & Hrun & Ht2 & Hp2); [congruence|].
      rewrite Hrun. destruct (text_run src k ops) as [out k'] eqn:Hrun'. cbn [fst snd] in *.
      exists r2. split; [rewrite Hr, nth_error_skipn; reflexivity|].
      split; [exact Ht2|]. rewrite Hp in Hp2. exact Hp2.
    + destruct (reader_next_spec r (skipn k src) Hr) as (r1 & Hnx & Ht & Hp).
      rewrite Hnx, hd_error_skipn.
      destruct (Nat.ltb_spec k (length src)) as [Hlt|Hge].
      * destruct (IH Hops' (S k) r1) as (r2 & Hrun & Ht2 & Hp2); [lia| |].
        { rewrite Ht. apply tl_skipn. }
        rewrite Hrun. destruct (text_run src (S k) ops) as [out k'] eqn:Hrun'. cbn [fst snd] in *.
        exists r2. split; [reflexivity|]. split; [exact Ht2|]. intros Hpos Hcount.
        destruct (skipn k src) as [|c l'] eqn:Hsk.
        { assert (length (skipn k src) = 0)%nat by (rewrite Hsk; reflexivity).
          rewrite skipn_length in H. lia. }
        specialize (Hp c l' eq_refl).
        assert (Hnk : nth_error src k = Some c) by (rewrite <- hd_error_skipn, Hsk; reflexivity).
        assert (Hl' : hd_error l' = nth_error src (S k)).
        { rewrite <- hd_error_skipn, <- tl_skipn, Hsk. reflexivity. }
        rewrite Hpos, Hl', <- (posn_at_S src k c Hnk) in Hp.
        destruct (Hp2 Hp) as [? ?]; [lia|]. split; [assumption|lia].
      * destruct (IH Hops' k r1 Hk) as (r2 & Hrun & Ht2 & Hp2).
        { rewrite Ht, tl_skipn. rewrite !skipn_all2 by lia. reflexivity. }
        rewrite Hrun. destruct (text_run src k ops) as [out k'] eqn:Hrun'. cbn [fst snd] in *.
        exists r2. split; [reflexivity|]. split; [exact Ht2|]. intros _ Hcount. lia.
Qed.

Theorem reader_transparent : forall (src : str) (ops : list rop),
  (forall n, In (RPeek n) ops -> (n < ahead_capacity)%nat) ->
  exists r, reader_run ops (reader_new src) = Ok (fst (text_run src 0 ops), r)
            /\ ((count_next ops <= length src)%nat ->
                reader_posn r = posn_at src (count_next ops)).
Proof.
  intros src ops Hops.
  destruct (reader_run_spec src ops Hops 0 (reader_new src)) as (r & Hrun & _ & Hp); [lia|reflexivity|].
  exists r. split; [exact Hrun|]. intros Hc. destruct Hp as [Hp Hk]; [reflexivity|lia|].
  unfold reader_posn. rewrite Hp, Hk. reflexivity.
Qed.

(** ** The abstract reader used by the lexer model *)

(** The abstraction: the text still to be delivered, and the position. *)
Definition abs (r : reader) : rd := Rd (ahead r ++ chars r) (curr_posn r).

Theorem reader_refines_peek : forall r n, (n < ahead_capacity)%nat ->
  exists r', reader_peek n r = Ok (rd_peek n (abs r), r') /\ abs r' = abs r.
Proof.
  intros r n Hn. destruct (reader_peek_spec r n Hn) as (r' & H1 & H2 & H3).
  exists r'. split; [exact H1|]. unfold abs. congruence.
Qed.

Theorem reader_refines_next : forall r c a, rd_next (abs r) = Some (c, a) ->
  exists r', reader_next r = Ok (Some c, r') /\ abs r' = a.
Proof.
  intros r c a. unfold rd_next, abs. cbn [rest pos].
  destruct (ahead r ++ chars r) as [|c0 l] eqn:Hl; [discriminate|].
  intros H; injection H as <- <-.
  destruct (reader_next_spec r (c0 :: l) Hl) as (r' & H1 & H2 & H3).
  exists r'. split; [exact H1|]. cbn [tl] in H2. rewrite H2. f_equal. apply H3. reflexivity.
Qed.
