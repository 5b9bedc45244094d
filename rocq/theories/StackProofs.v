(** Proofs about the operator stack. *)
From Coq Require Import String Ascii List NArith Arith Bool Lia.
From Verif Require Import Base Punc Ast Track Stack SpecStack.
Import ListNotations.
Local Open Scope nat_scope.

Definition rank (o : infix) : nat :=
  match o with
  | In_Logop l => match op_tag l with Lo_Or => 0 | Lo_And => 1 end
  | In_Binop b =>
      match op_tag b with
      | Bi_BitOr => 2 | Bi_BitXor => 3 | Bi_BitAnd => 4
      | Bi_Eq | Bi_NEq | Bi_StrictEq | Bi_StrictNEq => 5
      | Bi_Lt | Bi_Gt | Bi_LEq | Bi_GEq | Bi_Instanceof | Bi_In => 6
      | Bi_LShift | Bi_RShift | Bi_URShift => 7
      | Bi_Plus | Bi_Minus => 8
      | Bi_Times | Bi_Div | Bi_Mod => 9
      end
  end.

Lemma at_level_rank o n : at_level o n <-> n = rank o.
Proof.
  split.
  - intros (ws & w & Hn & Hin & Ht).
    destruct o as [[l t]|[l t]]; destruct t; cbn [infix_text op_tag binop_tag_text logop_tag_text] in Ht;
      cbn [rank op_tag];
      (do 10 (destruct n as [|n];
        [cbn in Hn; injection Hn as <-; cbn [In] in Hin;
         repeat (destruct Hin as [<-|Hin]; [first [reflexivity|vm_compute in Ht; discriminate Ht]|]);
         destruct Hin|]); destruct n; discriminate Hn).
  - intros ->. unfold at_level.
    destruct o as [[l t]|[l t]]; destruct t; cbn [rank op_tag];
      (eexists _, _; split; [reflexivity|split; [|reflexivity]]; cbn; tauto).
Qed.

Lemma rank_precedence a b : groups_left a b = (rank b <=? rank a).
Proof.
  destruct a as [[la ta]|[la ta]], b as [[lb tb]|[lb tb]]; destruct ta, tb; reflexivity.
Qed.

(** [well_grouped] in terms of [rank]. *)
Fixpoint wg (g : grouping) : Prop :=
  match g with
  | Operand _ => True
  | Apply l o r => wg l /\ wg r
      /\ (forall o', applies l o' -> rank o <= rank o')
      /\ (forall o', applies r o' -> rank o < rank o')
  end.
Lemma wg_iff g : wg g <-> well_grouped g.
Proof.
  induction g as [e|l IHl o r IHr]; cbn [wg well_grouped]; [tauto|].
  rewrite IHl, IHr. split; intros (H1 & H2 & H3 & H4); split; auto; split; auto; split.
  - intros o' n n' Ha Hn Hn'. apply at_level_rank in Hn, Hn'. subst. auto.
  - intros o' n n' Ha Hn Hn'. apply at_level_rank in Hn, Hn'. subst. auto.
  - intros o' Ha. apply (H3 o'); auto; apply at_level_rank; reflexivity.
  - intros o' Ha. apply (H4 o'); auto; apply at_level_rank; reflexivity.
Qed.

(** A stack that holds groupings. *)
Record gframe : Type := GFrame { gf_left : grouping; gf_op : infix }.
Definition lower (f : gframe) : frame := Frame (denote (gf_left f)) (gf_op f).

Fixpoint gwritten (s : list gframe) (last : expr * list (infix * expr)) : expr * list (infix * expr) :=
  match s with
  | [] => last
  | f :: s' =>
      gwritten s' (fst (written (gf_left f)),
                   snd (written (gf_left f)) ++ (gf_op f, fst last) :: snd last)
  end.

(** Frames: each left side is well grouped and binds at least as tightly as its
    operator; it binds tighter than the operators below; operators increase. *)
Fixpoint gok (s : list gframe) : Prop :=
  match s with
  | [] => True
  | f :: s' =>
      wg (gf_left f) /\ (forall o', applies (gf_left f) o' -> rank (gf_op f) <= rank o')
      /\ match s' with
         | [] => True
         | f' :: _ => rank (gf_op f') < rank (gf_op f)
                      /\ (forall o', applies (gf_left f) o' -> rank (gf_op f') < rank o')
         end
      /\ gok s'
  end.

Definition above (s : list gframe) (g : grouping) : Prop :=
  match s with
  | [] => True
  | f :: _ => forall o', applies g o' -> rank (gf_op f) < rank o'
  end.

Lemma fill_lower f g : fill (lower f) (denote g) = denote (Apply (gf_left f) (gf_op f) g).
Proof. unfold fill, lower. cbn [fr_left fr_op denote]. destruct (gf_op f); reflexivity. Qed.

Lemma above_apply f s g : gok (f :: s) -> above (f :: s) g -> wg g ->
  wg (Apply (gf_left f) (gf_op f) g) /\ above s (Apply (gf_left f) (gf_op f) g).
Proof.
  cbn [gok above]. intros (H1 & H2 & H3 & H4) Ha Hg. split; [cbn [wg]; auto|].
  destruct s as [|f' s]; [exact I|]. destruct H3 as (H3 & H3').
  cbn [above applies]. intros o' [Ho|[->|Ho]]; auto.
  apply Ha in Ho. lia.
Qed.

Lemma extend_spec o s : forall g, gok s -> wg g -> above s g ->
  (forall o', applies g o' -> rank o <= rank o') ->
  exists s' f t, stack_extend (map lower s) (denote g) o = map lower s'
    /\ gok s' /\ s' = f :: t /\ gf_op f = o
    /\ (forall last, gwritten s' last
          = gwritten s (fst (written g), snd (written g) ++ (o, fst last) :: snd last)).
Proof.
  induction s as [|f s IH]; intros g Hok Hg Ha Hle; cbn [map stack_extend].
  - exists [GFrame g o], (GFrame g o), []. cbn [gok gf_left gf_op]. repeat split; auto.
  - change (fr_op (lower f)) with (gf_op f). rewrite rank_precedence.
    destruct (Nat.leb_spec (rank o) (rank (gf_op f))) as [Hr|Hr].
    + rewrite fill_lower. destruct (above_apply f s g Hok Ha Hg) as (Hg' & Ha').
      destruct (IH (Apply (gf_left f) (gf_op f) g)) as (s' & f' & t & H1 & H2 & H3 & H4 & H5); auto.
      { destruct Hok as (_ & _ & _ & Hok). exact Hok. }
      { intros o' [Ho|[->|Ho]]; auto.
        destruct Hok as (_ & Hok & _). apply Hok in Ho. lia. }
      exists s', f', t. repeat split; auto.
      intros last. rewrite H5. cbn [gwritten written fst snd]. rewrite <- app_assoc. reflexivity.
    + exists (GFrame g o :: f :: s), (GFrame g o), (f :: s). cbn [above] in Ha.
      cbn [gok gf_left gf_op] in *. tauto.
Qed.

Lemma finish_spec s : forall g, gok s -> wg g -> above s g ->
  exists g', stack_finish (map lower s) (denote g) = denote g' /\ wg g'
    /\ written g' = gwritten s (written g).
Proof.
  induction s as [|f s IH]; intros g Hok Hg Ha; cbn [map stack_finish gwritten].
  - exists g. auto.
  - rewrite fill_lower. destruct (above_apply f s g Hok Ha Hg) as (Hg' & Ha').
    destruct (IH (Apply (gf_left f) (gf_op f) g)) as (g' & H1 & H2 & H3); auto.
    { destruct Hok as (_ & _ & _ & Hok). exact Hok. }
    exists g'. auto.
Qed.

Lemma feed_spec more : forall s e, gok s ->
  exists g, feed (map lower s) e more = denote g /\ wg g /\ written g = gwritten s (e, more).
Proof.
  induction more as [|[o e'] more IH]; intros s e Hok; cbn [feed].
  - apply (finish_spec s (Operand e)); auto; [exact I|].
    destruct s; [exact I|]. intros o' [].
  - destruct (extend_spec o s (Operand e)) as (s' & f & t & H1 & H2 & H3 & H4 & H5); auto.
    { exact I. }
    { destruct s; [exact I|]. intros o' []. }
    { intros o' []. }
    cbn [denote] in H1. rewrite H1. destruct (IH s' e' H2) as (g & Hg & Hw & Hr).
    exists g. split; [exact Hg|]. split; [exact Hw|]. rewrite Hr, H5. reflexivity.
Qed.

Theorem feed_grouping e more : exists g,
  feed stack_new e more = denote g /\ well_grouped g /\ written g = (e, more).
Proof.
  destruct (feed_spec more [] e I) as (g & H1 & H2 & H3).
  exists g. split; [exact H1|]. split; [apply wg_iff, H2|exact H3].
Qed.

(** ** Uniqueness *)

Lemma applies_written g o : applies g o <-> In o (map fst (snd (written g))).
Proof.
  induction g as [e|l IHl o' r IHr]; cbn [applies written snd]; [cbn; tauto|].
  rewrite map_app, in_app_iff. cbn [map fst In]. rewrite <- IHl, <- IHr.
  split; [intros [H|[->|H]]|intros [H|[<-|H]]]; auto.
Qed.

Lemma split_unique (a b : list (infix * expr)) : forall a' b' p p',
  a ++ p :: b = a' ++ p' :: b' ->
  (forall q, In q a -> rank (fst p) <= rank (fst q)) -> (forall q, In q b -> rank (fst p) < rank (fst q)) ->
  (forall q, In q a' -> rank (fst p') <= rank (fst q)) -> (forall q, In q b' -> rank (fst p') < rank (fst q)) ->
  a = a' /\ p = p' /\ b = b'.
Proof.
  induction a as [|x a IH]; intros a' b' p p' He Ha Hb Ha' Hb'; destruct a' as [|x' a']; cbn [app] in He.
  - injection He as -> ->. auto.
  - injection He as -> ->. exfalso.
    assert (rank (fst x') < rank (fst p')) by (apply Hb, in_or_app; right; left; reflexivity).
    assert (rank (fst p') <= rank (fst x')) by (apply Ha'; left; reflexivity). lia.
  - injection He as -> <-. exfalso.
    assert (rank (fst p') < rank (fst p)) by (apply Hb', in_or_app; right; left; reflexivity).
    assert (rank (fst p) <= rank (fst p')) by (apply Ha; left; reflexivity). lia.
  - injection He as -> He. destruct (IH a' b' p p' He) as (-> & -> & ->); auto.
    + intros q Hq. apply Ha. right. exact Hq.
    + intros q Hq. apply Ha'. right. exact Hq.
Qed.

Lemma wg_unique g : forall g', wg g -> wg g' -> written g = written g' -> g = g'.
Proof.
  induction g as [e|l IHl o r IHr]; intros [e'|l' o' r'] H H' He; cbn [written] in He.
  - injection He as ->. reflexivity.
  - exfalso. apply (f_equal (fun p => length (snd p))) in He. cbn [snd] in He.
    rewrite app_length in He. cbn in He. lia.
  - exfalso. apply (f_equal (fun p => length (snd p))) in He. cbn [snd] in He.
    rewrite app_length in He. cbn in He. lia.
  - destruct H as (H1 & H2 & H3 & H4), H' as (H1' & H2' & H3' & H4').
    injection He as Hf Hs.
    assert (Hin : forall g (q : infix * expr), In q (snd (written g)) -> applies g (fst q)).
    { intros g q Hq. apply applies_written, in_map, Hq. }
    apply split_unique in Hs.
    + destruct Hs as (Hl & Ho & Hr). injection Ho as -> Hfr.
      rewrite (IHl l'), (IHr r'); auto.
      * destruct (written r), (written r'); cbn in *; congruence.
      * destruct (written l), (written l'); cbn in *; congruence.
    + intros q Hq. apply H3, Hin, Hq.
    + intros q Hq. apply H4, Hin, Hq.
    + intros q Hq. apply H3', Hin, Hq.
    + intros q Hq. apply H4', Hin, Hq.
Qed.

Theorem grouping_unique g g' : well_grouped g -> well_grouped g' -> written g = written g' -> g = g'.
Proof. intros H H'. apply wg_unique; apply wg_iff; assumption. Qed.

(** Every operator has exactly one level. *)
Theorem level_exists o : exists n, at_level o n /\ forall n', at_level o n' -> n' = n.
Proof.
  exists (rank o). split; [apply at_level_rank; reflexivity|]. intros n' H. apply at_level_rank, H.
Qed.

(** [denote] loses nothing but the bracketing of operands: the groupings of equal
    frontier and denotation that are well grouped are the same. *)
Theorem feed_unique e more g :
  well_grouped g -> written g = (e, more) -> feed stack_new e more = denote g.
Proof.
  intros Hg Hw. destruct (feed_grouping e more) as (g' & H1 & H2 & H3).
  rewrite H1. f_equal. apply grouping_unique; auto. congruence.
Qed.
