(** Proofs about the texts of positions and errors. *)
From Coq Require Import String Ascii List NArith PeanoNat Bool Lia.
From Verif Require Import Base Word Token Ast Cover PState Unjson Estree Message SpecReader SpecMessage.
From Verif Require Import SpecEstree SpecBlame EstreeProofs.
Import ListNotations.
Local Open Scope string_scope.
Local Open Scope list_scope.
Local Open Scope N_scope.

(** ** Numerals *)
Lemma digit_symbol base d : base <= 16 -> d < base -> digit base (digit_char d) d.
Proof.
  intros B H. split; [exact H|].
  assert (A : forallb (fun k => match nth_error symbols k with
                                | Some c => N.eqb c (digit_char (N.of_nat k)) | None => false end) (seq 0 16) = true)
    by reflexivity.
  rewrite forallb_forall in A. specialize (A (N.to_nat d)).
  rewrite N2Nat.id in A. destruct (nth_error symbols (N.to_nat d)) as [c|].
  - f_equal. apply N.eqb_eq, A, in_seq. lia.
  - discriminate A. apply in_seq. lia.
Qed.
Lemma digit_fun base c d d' : base <= 16 -> digit base c d -> digit base c d' -> d = d'.
Proof.
  intros B [H E] [H' E'].
  assert (ND : NoDup symbols) by (repeat constructor; cbn; intuition discriminate).
  rewrite NoDup_nth_error in ND. apply N2Nat.inj, ND; [|congruence].
  apply nth_error_Some. congruence.
Qed.
Lemma valued_fun base s n n' : base <= 16 -> valued base s n -> valued base s n' -> n = n'.
Proof.
  intros B H. revert n'. induction H as [c d D|s n c d V IH D]; intros n' V'; inversion V' as [c' d' D' E|s' m c' d' W D' E]; subst.
  - eauto using digit_fun.
  - destruct s' as [|? [|? ?]]; try discriminate. inversion W; subst; now destruct s.
  - destruct s as [|? [|? ?]]; try discriminate. inversion V; subst; now destruct s.
  - apply app_inj_tail in E as [<- <-]. rewrite (IH _ W). f_equal. eauto using digit_fun.
Qed.
Lemma valued_digits base s n : valued base s n -> Forall (fun c => exists d, digit base c d) s.
Proof.
  induction 1 as [c d D|s n c d V IH D].
  - repeat constructor. eauto.
  - apply Forall_app. split; [exact IH|]. repeat constructor. eauto.
Qed.

Lemma put_digits_spec base : 2 <= base -> base <= 16 -> forall fuel n acc, n < 2 ^ N.of_nat (S fuel) ->
  exists s, put_digits fuel base n acc = s ++ acc /\ valued base s n /\ (hd_error s = Some 48 -> s = [48]).
Proof.
  intros B B'. induction fuel as [|f IH]; intros n acc Hn; cbn [put_digits].
  - assert (n < base) by (cbn in Hn; lia).
    rewrite N.mod_small by lia. exists [digit_char n]. split; [reflexivity|].
    split; [constructor; now apply digit_symbol|]. cbn. congruence.
  - destruct (N.eqb_spec (n / base) 0) as [E|E].
    + assert (n < base) by (apply N.div_small_iff in E; lia).
      rewrite N.mod_small by lia. exists [digit_char n]. split; [reflexivity|].
      split; [constructor; now apply digit_symbol|]. cbn. congruence.
    + destruct (IH (n / base) (digit_char (n mod base) :: acc)) as (s & -> & V & Z).
      { apply N.div_lt_upper_bound; [lia|]. rewrite !Nat2N.inj_succ, !N.pow_succ_r' in *. nia. }
      exists (s ++ [digit_char (n mod base)]). split; [now rewrite <- app_assoc|]. split.
      * pose proof (V_more base s (n / base) (digit_char (n mod base)) (n mod base) V) as K.
        rewrite (N.mul_comm (n / base)), <- (N.div_mod n base) in K by lia. apply K.
        apply digit_symbol; [exact B'|]. apply N.mod_upper_bound. lia.
      * intros Hs. destruct s as [|x s]; [inversion V; now destruct s|]. cbn in Hs.
        rewrite (Z Hs) in V. exfalso. apply E.
        apply (valued_fun base [48] _ 0 B' V). constructor. split; [lia|reflexivity].
Qed.
Lemma put_num_numeral base n : 2 <= base -> base <= 16 -> numeral base (put_num base n) n.
Proof.
  intros B B'. unfold put_num.
  destruct (put_digits_spec base B B' (N.to_nat (N.size n)) n []) as (s & -> & V & Z).
  - rewrite Nat2N.inj_succ, N2Nat.id. pose proof (N.size_gt n). rewrite N.pow_succ_r'. lia.
  - rewrite app_nil_r. split; assumption.
Qed.
Lemma put_num_inj base m n : 2 <= base -> base <= 16 -> put_num base m = put_num base n -> m = n.
Proof.
  intros B B' E. destruct (put_num_numeral base m B B') as [V _], (put_num_numeral base n B B') as [V' _].
  rewrite E in V. eauto using valued_fun.
Qed.
Lemma put_num_symbols base n : 2 <= base -> base <= 16 -> Forall (fun c => In c symbols) (put_num base n).
Proof.
  intros B B'. destruct (put_num_numeral base n B B') as [V _]. apply valued_digits in V.
  eapply Forall_impl; [|exact V]. intros c [d [_ H]]. eauto using nth_error_In.
Qed.

(** ** Splitting texts *)
Lemma split_at (P : N -> Prop) x a b a' b' :
  Forall P a -> Forall P a' -> ~ P x -> a ++ x :: b = a' ++ x :: b' -> a = a' /\ b = b'.
Proof.
  intros Ha. revert a'. induction Ha as [|c a Hc Ha IH]; intros a' Ha' Hx E; destruct Ha' as [|c' a' Hc' Ha']; cbn in E.
  - split; congruence.
  - injection E as -> _. tauto.
  - injection E as -> _. tauto.
  - injection E as -> E. destruct (IH a' Ha' Hx E) as [-> ->]. auto.
Qed.

(** ** Positions *)
Lemma line_ends_split src i j : (i <= j)%nat ->
  line_ends src j = line_ends src i ++ filter (ends_line src) (seq i (j - i)).
Proof.
  intros H. unfold line_ends. rewrite <- filter_app. f_equal.
  replace j with (i + (j - i))%nat at 1 by lia. now rewrite seq_app.
Qed.
Lemma line_ends_below src k i : In i (line_ends src k) -> (i < k)%nat.
Proof. unfold line_ends. rewrite filter_In, in_seq. lia. Qed.
Lemma posn_at_lt src i j : (i < j)%nat ->
  ~ (line (posn_at src i) = line (posn_at src j) /\ column (posn_at src i) = column (posn_at src j)).
Proof.
  intros H [L C]. unfold posn_at in L, C. cbn [line column] in L, C.
  apply Nat2N.inj in L. apply Nat2N.inj in C. rewrite (line_ends_split src i j) in L, C by lia.
  rewrite app_length in L. destruct (filter (ends_line src) (seq i (j - i))) as [|x l]; [|cbn in L; lia].
  rewrite app_nil_r in C. destruct (rev (line_ends src i)) as [|x l] eqn:E; [lia|].
  assert (In x (line_ends src i)) by (rewrite in_rev, E; now left).
  apply line_ends_below in H0. lia.
Qed.
Lemma posn_at_inj src i j : line (posn_at src i) = line (posn_at src j) ->
  column (posn_at src i) = column (posn_at src j) -> i = j.
Proof.
  intros L C. destruct (Nat.lt_trichotomy i j) as [H|[H|H]]; [|exact H|]; exfalso;
    eapply posn_at_lt; eauto.
Qed.
Lemma not_colon : ~ In 58 symbols.
Proof. cbn. intuition discriminate. Qed.
Lemma posn_text_inj p q : posn_text p = posn_text q -> line p = line q /\ column p = column q.
Proof.
  unfold posn_text. intros E.
  apply (split_at (fun c => In c symbols)) in E as [E1 E2]; try (apply put_num_symbols; lia); [|exact not_colon].
  apply put_num_inj in E1; [|lia..]. apply put_num_inj in E2; [|lia..]. lia.
Qed.
Lemma posn_text_chars p : Forall (fun c => In c symbols \/ c = 58) (posn_text p).
Proof.
  unfold posn_text. rewrite !Forall_app. repeat split.
  - eapply Forall_impl; [|apply put_num_symbols; lia]. auto.
  - constructor; [now right|constructor].
  - eapply Forall_impl; [|apply put_num_symbols; lia]. auto.
Qed.
Lemma span_text_inj s t : span_text s = span_text t ->
  posn_text (sp_start s) = posn_text (sp_start t) /\ posn_text (sp_end s) = posn_text (sp_end t).
Proof.
  unfold span_text. intros E.
  apply (split_at (fun c => In c symbols \/ c = 58)) in E as [E1 E2]; try apply posn_text_chars.
  - split; [exact E1|]. now injection E2.
  - cbn. intuition discriminate.
Qed.

(** ** Kinds of errors of the parser *)
Lemma lex_description_alike e f : lex_description e = lex_description f <-> lex_alike e f.
Proof.
  split.
  - destruct e, f; try (intros; constructor); intros H; vm_compute in H; discriminate H.
  - destruct 1; reflexivity.
Qed.
Lemma cover_description_alike e f : cover_description e = cover_description f <-> cover_alike e f.
Proof.
  split.
  - destruct e, f; try (intros; constructor); intros H; vm_compute in H; discriminate H.
  - destruct 1; reflexivity.
Qed.
Lemma lex_not_cover e f : lex_description e <> cover_description f.
Proof. destruct e, f; intros H; vm_compute in H; discriminate H. Qed.
Lemma description_alike e f : description e = description f <-> alike e f.
Proof.
  split.
  - destruct e, f; try (intros; constructor; fail);
      cbn [description]; intros H;
      try (vm_compute in H; discriminate H);
      try (constructor; apply lex_description_alike; exact H);
      try (constructor; apply cover_description_alike; exact H);
      try (exfalso; eapply lex_not_cover; eauto; fail);
      exfalso; match type of H with
      | context [lex_description ?e] => destruct e; vm_compute in H; discriminate H
      | context [cover_description ?e] => destruct e; vm_compute in H; discriminate H
      end.
  - destruct 1; try reflexivity; cbn [description];
      [now apply lex_description_alike | now apply cover_description_alike].
Qed.

(** ** Messages of the lexer *)
Lemma reserved_debug_inj r s : reserved_debug r = reserved_debug s -> r = s.
Proof. destruct r, s; try reflexivity; intros H; vm_compute in H; discriminate H. Qed.
Lemma valued_zero base s n : valued base s n -> 2 <= base -> valued base (48 :: s) n.
Proof.
  intros H B. induction H as [c d D|s n c d V IH D].
  - pose proof (V_more base [48] 0 c d) as K. cbn in K. apply K; [|exact D].
    constructor. split; [lia|reflexivity].
  - exact (V_more base (48 :: s) n c d IH D).
Qed.
Lemma pad4_valued base s n : valued base s n -> 2 <= base -> valued base (pad4 s) n.
Proof.
  intros H B. unfold pad4. induction (4 - List.length s)%nat as [|k IH]; [exact H|].
  cbn. now apply valued_zero.
Qed.
Lemma pad4_hex_inj m n : pad4 (put_num 16 m) = pad4 (put_num 16 n) -> m = n.
Proof.
  intros E. apply (valued_fun 16 (pad4 (put_num 16 m))); [lia| |rewrite E];
    apply pad4_valued; try lia; apply put_num_numeral; lia.
Qed.
Lemma lex_display_same dbg e f : (forall a b, dbg a = dbg b -> a = b) ->
  lex_display dbg e = lex_display dbg f -> lex_same e f.
Proof.
  intros D H. destruct e, f; cbn [lex_display] in H;
    try (constructor; fail);
    try (exfalso; vm_compute in H; discriminate H).
  - apply app_inv_head, app_inv_head, D in H. subst. constructor.
  - apply app_inv_head, app_inv_head, D in H. subst. constructor.
  - apply app_inv_head, app_inv_head, app_inv_tail, pad4_hex_inj in H. subst. constructor.
  - apply app_inv_head, app_inv_head, reserved_debug_inj in H. subst. constructor.
Qed.

(** ** Messages of the conversion from ESTree *)
Inductive head : Type :=
| H_type (w : string) | H_missing | H_length | H_string (w : string) | H_tag | H_node (w : string)
| H_init | H_left | H_const.
Definition head_text (h : head) : str :=
  match h with
  | H_type w | H_string w => lit "expected " ++ lit w ++ lit ", got "
  | H_missing => lit "missing object field '"
  | H_length => lit "expected array of length "
  | H_tag => lit "expected node type tag, got "
  | H_node w => lit "expected " ++ lit w ++ lit " node, got "
  | H_init => lit "unexpected initializer in for-in loop"
  | H_left => lit "invalid left-hand side of assignment"
  | H_const => lit "uninitialized constant pattern in declarator"
  end.
Definition type_words : list string :=
  ["string"; "boolean"; "value"; "object"; "object or null"; "array"; "null, number, boolean, string, or object";
   "identifier, number literal, or string literal"; "'init', 'get', or 'set'"].
Definition string_words : list string :=
  ["binary operator"; "logical operator"; "assignment operator"; "unary operator"; "'++' or '--'"; "new.target";
   "var or let"; "var"].
Definition node_words : list string :=
  ["identifier"; "block statement"; "expression"; "statement"; "statement or declaration"].
Definition heads : list head :=
  [H_missing; H_length; H_tag; H_init; H_left; H_const]
  ++ map H_type type_words ++ map H_string string_words ++ map H_node node_words.
Definition head_eq_dec (a b : head) : {a = b} + {a <> b}.
Proof. decide equality; apply string_dec. Defined.
Fixpoint clash (a b : str) : bool :=
  match a, b with
  | x :: a', y :: b' => if x =? y then clash a' b' else true
  | _, _ => false
  end.
Lemma clash_spec a b s t : clash a b = true -> a ++ s <> b ++ t.
Proof.
  revert b. induction a as [|x a IH]; intros [|y b]; cbn; try discriminate.
  destruct (N.eqb_spec x y) as [->|n]; intros H E; [|congruence]. injection E as E. now apply (IH b H).
Qed.
Lemma heads_apart h k s t : In h heads -> In k heads -> head_text h ++ s = head_text k ++ t -> h = k /\ s = t.
Proof.
  assert (A : forallb (fun h => forallb (fun k =>
    if head_eq_dec h k then true else clash (head_text h) (head_text k)) heads) heads = true) by (vm_compute; reflexivity).
  intros Hh Hk E. rewrite forallb_forall in A. specialize (A h Hh). rewrite forallb_forall in A. specialize (A k Hk).
  destruct (head_eq_dec h k) as [->|_].
  - split; [reflexivity|]. now apply app_inv_head in E.
  - exfalso. now apply (clash_spec _ _ s t A).
Qed.

Inductive reads (dbg : str -> str) : est_error -> head -> str -> Prop :=
| R_type w t : reads dbg (EE_Json (TypeMismatch (lit w) t)) (H_type w) (ty_text t)
| R_missing k : reads dbg (EE_Json (MissingField (lit k))) H_missing (lit k ++ lit "'")
| R_length m n : reads dbg (EE_Json (WrongArrayLength m n)) H_length
    (put_num 10 (N.of_nat m) ++ lit ", got array of length " ++ put_num 10 (N.of_nat n))
| R_string w s : reads dbg (EE_Json (IllegalString (lit w) s)) (H_string w) (dbg s)
| R_tag s : reads dbg (EE_InvalidTypeTag s) H_tag s
| R_node w t : reads dbg (EE_NodeTypeMismatch (lit w) t) (H_node w) (tag_text t)
| R_init e : reads dbg (EE_UnexpectedInitializer e) H_init []
| R_left k : reads dbg (EE_InvalidLHS k) H_left []
| R_const i : reads dbg (EE_UninitializedPattern (Simple i)) H_const [].
Lemma reads_display dbg e h s : reads dbg e h s -> est_display dbg e = head_text h ++ s.
Proof. destruct 1; cbn [est_display json_display head_text]; rewrite <- ?app_assoc, ?app_nil_r; reflexivity. Qed.

Lemma in_type w : In w type_words -> In (H_type w) heads.
Proof. intros H. unfold heads. rewrite !in_app_iff. right. left. now apply in_map. Qed.
Lemma in_string w : In w string_words -> In (H_string w) heads.
Proof. intros H. unfold heads. rewrite !in_app_iff. right. right. left. now apply in_map. Qed.
Lemma in_node w : In w node_words -> In (H_node w) heads.
Proof. intros H. unfold heads. rewrite !in_app_iff. right. right. right. now apply in_map. Qed.
Ltac pick := cbn; repeat (first [left; reflexivity | right]).
Lemma fault_reads dbg d e : fault d e -> exists h s, In h heads /\ reads dbg e h s.
Proof.
  assert (M : forall w v x, In w type_words -> mismatch w v x -> exists h s, In h heads /\ reads dbg (EE_Json x) h s).
  { intros w v x I (t & n & -> & _). exists (H_type w), (ty_text t). split; [now apply in_type|constructor]. }
  destruct 1.
  - exists H_missing. eexists. split; [pick|constructor].
  - eapply M; [|eassumption]. destruct kd; pick.
  - eapply M; [|eassumption]; pick.
  - eapply M; [|eassumption]; pick.
  - eapply M; [|eassumption]; pick.
  - eapply M; [|eassumption]; pick.
  - eapply M; [|eassumption]; pick.
  - exists (H_string wanted), (dbg s). split; [|constructor]. apply in_string.
    match goal with B : bad_string _ _ _ _ |- _ => destruct B; pick end.
  - exists H_length. eexists. split; [pick|constructor].
  - exists H_tag. eexists. split; [pick|constructor].
  - exists (H_node wanted), (tag_text tg). split; [|constructor]. apply in_node.
    match goal with B : admits _ _ _ |- _ => destruct B; pick end.
  - exists H_init. eexists. split; [pick|constructor].
  - exists H_left. eexists. split; [pick|constructor].
  - exists H_const. eexists. split; [pick|constructor].
Qed.

Lemma ty_text_inj s t : ty_text s = ty_text t -> s = t.
Proof. destruct s, t; try reflexivity; intros H; vm_compute in H; discriminate H. Qed.
Lemma tag_text_inj s t : tag_text s = tag_text t -> s = t.
Proof.
  intros H. pose proof (proj2 (tag_text_iff _ s) eq_refl) as A. pose proof (proj2 (tag_text_iff _ t) eq_refl) as B.
  congruence.
Qed.
Lemma reads_same dbg e f h s : (forall a b, dbg a = dbg b -> a = b) -> reads dbg e h s -> reads dbg f h s -> est_same e f.
Proof.
  intros D A B. destruct A; inversion B; subst; try constructor;
    match goal with
    | H : ty_text _ = ty_text _ |- _ => apply ty_text_inj in H; subst; constructor
    | H : _ ++ lit "'" = _ ++ lit "'" |- _ => apply app_inv_tail in H; rewrite H; constructor
    | H : dbg _ = dbg _ |- _ => apply D in H; subst; constructor
    | H : tag_text _ = tag_text _ |- _ => apply tag_text_inj in H; subst; constructor
    | H : put_num _ _ ++ _ = _ |- _ =>
        apply (split_at (fun c => In c symbols)) in H as [H1 H2];
          [ apply put_num_inj in H1; [|lia..]; injection H2 as H2; apply put_num_inj in H2; [|lia..];
            apply Nat2N.inj in H1, H2; subst; constructor
          | apply put_num_symbols; lia | apply put_num_symbols; lia | cbn; intuition discriminate ]
    | _ => idtac
    end.
Qed.
Lemma messages_apart dbg d d' e f : (forall a b, dbg a = dbg b -> a = b) -> fault d e -> fault d' f ->
  est_display dbg e = est_display dbg f -> est_same e f.
Proof.
  intros D Fe Ff E. destruct (fault_reads dbg d e Fe) as (h & s & Hh & R), (fault_reads dbg d' f Ff) as (k & t & Hk & R').
  rewrite (reads_display _ _ _ _ R), (reads_display _ _ _ _ R') in E. apply heads_apart in E as [<- <-]; auto.
  eauto using reads_same.
Qed.
