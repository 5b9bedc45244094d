(** Line terminators at the end of an accepted text (C40).  The vocabulary is that of
    [SpecLexer], [SpecGrammar] and [SpecExact]. *)
From Coq Require Import String Ascii List NArith Arith Bool Lia.
From Verif Require Import Base Chars Word Token Reader Lexer LexClient Punc Ast Track PState Parser Api Node SpecStack
  SpecTree SpecLexer SpecGrammar SpecParser SpecPlace SpecEntry SpecExact GrammarProps ExactProofs LexTheorems LexLayout PropLayout
  PropParser PropComplete PropExact EndProofs EndText.
Import ListNotations.
Local Open Scope nat_scope.

Lemma begins_snoc V src c m t : ucd_ok V -> line_terminator c -> begins_with V src m t -> begins_with V (src ++ [c]) m t.
Proof.
  intros HV hc (ts & rest & k & (ops & T) & D).
  destruct (tiles_snoc _ _ _ _ _ _ _ c HV hc T ltac:(lia)) as (ts' & k' & T' & R).
  destruct (G_raise _ _ _ _ _ _ _ _ D R) as (o' & D' & _).
  destruct (G_suffix _ _ _ _ _ _ D') as (pre & ->). exists pre, o', k'. split; [exists ops; exact T'|exact D'].
Qed.
Lemma consists_snoc V src c m t : ucd_ok V -> line_terminator c -> consists_of V src m t -> consists_of V (src ++ [c]) m t.
Proof.
  intros HV hc (ts & e & rest & k & (ops & T) & He & D).
  destruct (tiles_snoc _ _ _ _ _ _ _ c HV hc T ltac:(lia)) as (ts' & k' & T' & R).
  destruct (G_raise _ _ _ _ _ _ _ _ D R) as (o' & D' & R').
  apply up_cons in R' as (e' & rest' & -> & u & _).
  destruct (G_suffix _ _ _ _ _ _ D') as (pre & ->). exists pre, e', rest', k'. split; [exists ops; exact T'|].
  split; [|exact D']. unfold at_eof in *. rewrite (up_value _ _ u). exact He.
Qed.

(** The last token of the text is [break], [continue] or [return]. *)
Definition open_ended (V : env) (src : str) : Prop :=
  exists ts t e k, reads V src (ts ++ [t; e]) k /\ at_eof e
    /\ In (tk_value t) [TReserved R_Break; TReserved R_Continue; TReserved R_Return].

Lemma tiles_prefix V src ops b k a c k' : tiles V src ops b k (a ++ c) k' -> exists ops' k'', tiles V src ops' b k a k''.
Proof.
  revert ops b k. induction a as [|t a IH]; intros ops b k h; [exists [], k; constructor|].
  inversion h as [|op ops0 ? ? ? k1 ? ? N T]; subst. destruct (IH _ _ _ T) as (ops' & k'' & T').
  exists (op :: ops'), k''. econstructor; eassumption.
Qed.
Lemma quiet_text V src ts k : reads V src ts k -> ~ open_ended V src -> quiet ts.
Proof.
  intros (ops & T) h before t e after -> he K. apply h.
  replace (before ++ t :: e :: after) with ((before ++ [t; e]) ++ after) in T by (rewrite <- app_assoc; reflexivity).
  apply tiles_prefix in T as (ops' & k' & T). exists before, t, e, k'. split; [exists ops'; exact T|]. split; [exact he|exact K].
Qed.
Lemma open_unsnoc V src c : ucd_ok V -> line_terminator c -> open_ended V (src ++ [c]) -> open_ended V src.
Proof.
  intros HV hc (ts & t & e & k & (ops & T) & He & K).
  destruct (tiles_unsnoc _ _ _ _ _ _ _ c HV hc T ltac:(lia)) as (ts' & k' & T' & R).
  apply Forall2_app_inv_r in R as (a & r & Ra & R & ->). inversion R as [|t' ? r' ? u R1]; subst.
  inversion R1 as [|e' ? ? ? u' R2]; subst. inversion R2; subst. exists a, t', e', k'. split; [exists ops; exact T'|].
  apply up_eqv, up_value in u. apply up_eqv, up_value in u'. unfold at_eof in *. split; [congruence|]. rewrite <- u. exact K.
Qed.
Lemma begins_unsnoc V src c m t : ucd_ok V -> line_terminator c -> ~ open_ended V src ->
  begins_with V (src ++ [c]) m t -> begins_with V src m t.
Proof.
  intros HV hc hq (ts & rest & k & (ops & T) & D).
  destruct (tiles_unsnoc _ _ _ _ _ _ _ c HV hc T ltac:(lia)) as (ts' & k' & T' & R).
  destruct (G_lower _ _ _ _ _ _ _ _ D R (quiet_text _ _ _ _ ltac:(exists ops; exact T') hq)) as (o' & D' & _).
  destruct (G_suffix _ _ _ _ _ _ D') as (pre & ->). exists pre, o', k'. split; [exists ops; exact T'|exact D'].
Qed.
Lemma consists_unsnoc V src c m t : ucd_ok V -> line_terminator c -> ~ open_ended V src ->
  consists_of V (src ++ [c]) m t -> consists_of V src m t.
Proof.
  intros HV hc hq (ts & e & rest & k & (ops & T) & He & D).
  destruct (tiles_unsnoc _ _ _ _ _ _ _ c HV hc T ltac:(lia)) as (ts' & k' & T' & R).
  destruct (G_lower _ _ _ _ _ _ _ _ D R (quiet_text _ _ _ _ ltac:(exists ops; exact T') hq)) as (o' & D' & R').
  apply up_cons in R' as (e' & rest' & -> & u & _).
  destruct (G_suffix _ _ _ _ _ _ D') as (pre & ->). exists pre, e', rest', k'. split; [exists ops; exact T'|].
  split; [|exact D']. unfold at_eof in *. rewrite (up_value _ _ u). exact He.
Qed.
Lemma begins_less V nl m t : ucd_ok V -> Forall line_terminator nl -> forall src, ~ open_ended V src ->
  begins_with V (src ++ nl) m t -> begins_with V src m t.
Proof.
  intros HV. induction 1 as [|c nl hc F IH]; intros src hq h; [rewrite app_nil_r in h; exact h|].
  change (c :: nl) with ([c] ++ nl) in h. rewrite app_assoc in h. eapply begins_unsnoc; [exact HV|exact hc|exact hq|].
  apply IH; [|exact h]. intros K. apply hq. exact (open_unsnoc _ _ _ HV hc K).
Qed.
Lemma consists_less V nl m t : ucd_ok V -> Forall line_terminator nl -> forall src, ~ open_ended V src ->
  consists_of V (src ++ nl) m t -> consists_of V src m t.
Proof.
  intros HV. induction 1 as [|c nl hc F IH]; intros src hq h; [rewrite app_nil_r in h; exact h|].
  change (c :: nl) with ([c] ++ nl) in h. rewrite app_assoc in h. eapply consists_unsnoc; [exact HV|exact hc|exact hq|].
  apply IH; [|exact h]. intros K. apply hq. exact (open_unsnoc _ _ _ HV hc K).
Qed.
Lemma begins_more V nl m t : ucd_ok V -> Forall line_terminator nl -> forall src, begins_with V src m t -> begins_with V (src ++ nl) m t.
Proof.
  intros HV. induction 1 as [|c nl hc F IH]; intros src h; [rewrite app_nil_r; exact h|].
  change (c :: nl) with ([c] ++ nl). rewrite app_assoc. apply IH, begins_snoc; assumption.
Qed.
Lemma consists_more V nl m t : ucd_ok V -> Forall line_terminator nl -> forall src, consists_of V src m t -> consists_of V (src ++ nl) m t.
Proof.
  intros HV. induction 1 as [|c nl hc F IH]; intros src h; [rewrite app_nil_r; exact h|].
  change (c :: nl) with ([c] ++ nl). rewrite app_assoc. apply IH, consists_snoc; assumption.
Qed.
Lemma no_slash_more src nl : ~ In (N_of_ascii "/") src -> Forall line_terminator nl -> ~ In (N_of_ascii "/") (src ++ nl).
Proof.
  intros h F K. apply in_app_or in K as [K|K]; [exact (h K)|]. rewrite Forall_forall in F. apply F in K.
  cbn in K. intuition discriminate.
Qed.

(** C40 is refuted as stated: there are texts that only a final line terminator makes
    acceptable ([PropRefuted]).  What holds is the converse: line terminators behind an
    accepted text change neither the verdict nor the tree, up to locations.  The
    hypotheses are those of C72: no slash in the text, and no label inside a statement
    with the same label. *)
Theorem C40_script_partial : forall V src nl t, ucd_ok V -> Forall line_terminator nl -> ~ In (N_of_ascii "/") src ->
  labels_differ (N_body t) -> script_of V src = Ok t ->
  exists u, script_of V (src ++ nl) = Ok u /\ script_untrack u = script_untrack t.
Proof.
  intros V src nl t HV F Hn Hl E. apply (C72_script_exact V (src ++ nl) t HV (no_slash_more _ _ Hn F) Hl).
  exists t. split; [|reflexivity]. apply begins_more; [exact HV|exact F|]. exact (C44_script V src t HV E).
Qed.
Print Assumptions C40_script_partial.

Theorem C40_strict_partial : forall V src nl t, ucd_ok V -> Forall line_terminator nl -> ~ In (N_of_ascii "/") src ->
  labels_differ (N_body t) -> strict_of V src = Ok t ->
  exists u, strict_of V (src ++ nl) = Ok u /\ script_untrack u = script_untrack t.
Proof.
  intros V src nl t HV F Hn Hl E. apply (C72_strict_exact V (src ++ nl) t HV (no_slash_more _ _ Hn F) Hl).
  exists t. split; [|reflexivity]. apply begins_more; [exact HV|exact F|]. exact (C44_strict V src t HV E).
Qed.
Print Assumptions C40_strict_partial.

Theorem C40_program_partial : forall V src nl cs t, ucd_ok V -> Forall line_terminator nl -> ~ In (N_of_ascii "/") src ->
  labels_differ (N_body t) -> program_of V src = Ok (Pg_Ambiguous cs t) ->
  exists cs' u, program_of V (src ++ nl) = Ok (Pg_Ambiguous cs' u) /\ script_untrack u = script_untrack t.
Proof.
  intros V src nl cs t HV F Hn Hl E. apply (C72_program_exact V (src ++ nl) t HV (no_slash_more _ _ Hn F) Hl).
  destruct (proj1 (C72_program_exact V src t HV Hn Hl) ltac:(exists cs, t; split; [exact E|reflexivity])) as (u & Hu & Eu).
  exists u. split; [|exact Eu]. apply consists_more; assumption.
Qed.
Print Assumptions C40_program_partial.

Theorem C40_module_partial : forall V src nl t, ucd_ok V -> Forall line_terminator nl -> ~ In (N_of_ascii "/") src ->
  labels_differ (N_body t) -> module_of V src = Ok (as_module t) ->
  exists u, module_of V (src ++ nl) = Ok u /\ module_untrack u = module_untrack (as_module t).
Proof.
  intros V src nl t HV F Hn Hl E. apply (C72_module_exact V (src ++ nl) t HV (no_slash_more _ _ Hn F) Hl).
  destruct (proj1 (C72_module_exact V src t HV Hn Hl) ltac:(exists (as_module t); split; [exact E|reflexivity])) as (u & Hu & Eu).
  exists u. split; [|exact Eu]. apply consists_more; assumption.
Qed.
Print Assumptions C40_module_partial.

(** And C40 itself holds of every text whose last token is not one of [break],
    [continue] and [return]: with line terminators behind it or without, the verdict and
    the tree are the same, at every entry point. *)
Theorem C40_final_newline_partial : forall V src nl t, ucd_ok V -> Forall line_terminator nl -> ~ In (N_of_ascii "/") src ->
  labels_differ (N_body t) -> ~ open_ended V src ->
  ((exists u, script_of V (src ++ nl) = Ok u /\ script_untrack u = script_untrack t)
   <-> exists u, script_of V src = Ok u /\ script_untrack u = script_untrack t)
  /\ ((exists u, strict_of V (src ++ nl) = Ok u /\ script_untrack u = script_untrack t)
   <-> exists u, strict_of V src = Ok u /\ script_untrack u = script_untrack t)
  /\ ((exists cs u, program_of V (src ++ nl) = Ok (Pg_Ambiguous cs u) /\ script_untrack u = script_untrack t)
   <-> exists cs u, program_of V src = Ok (Pg_Ambiguous cs u) /\ script_untrack u = script_untrack t)
  /\ ((exists u, module_of V (src ++ nl) = Ok u /\ module_untrack u = module_untrack (as_module t))
   <-> exists u, module_of V src = Ok u /\ module_untrack u = module_untrack (as_module t)).
Proof.
  intros V src nl t HV F Hn Hl Hq. pose proof (no_slash_more _ _ Hn F) as Hn'.
  rewrite !(C72_script_exact V _ t HV) by assumption. rewrite !(C72_strict_exact V _ t HV) by assumption.
  rewrite !(C72_program_exact V _ t HV) by assumption. rewrite !(C72_module_exact V _ t HV) by assumption.
  split; [|split; [|split]]; split; intros (u & h & E); exists u; (split; [|exact E]);
    first [exact (begins_less _ _ _ _ HV F _ Hq h) | exact (consists_less _ _ _ _ HV F _ Hq h)
          | exact (begins_more _ _ _ _ HV F _ h) | exact (consists_more _ _ _ _ HV F _ h)].
Qed.
Print Assumptions C40_final_newline_partial.

(** A text that ends in a comment meets the hypotheses. *)
Definition tail_text : str := lit "a: while (b) { c = d + 1; break a }
<!-- no newline at end of file".
Example C40_example : exists t, script_of env_ascii tail_text = Ok t /\ labels_differ (N_body t)
  /\ ~ In (N_of_ascii "/") tail_text /\ Forall line_terminator [13; 10; 8232]%N /\ length (bo_items t) = 1
  /\ exists u, script_of env_ascii (tail_text ++ [13; 10; 8232]%N) = Ok u.
Proof.
  eexists. split; [vm_compute; reflexivity|]. split; [|split; [|split; [|split; [reflexivity|]]]].
  - match goal with |- labels_differ ?n => assert (h : L nothing n); [labels|destruct h as [h]; exact h] end.
  - intros h. vm_compute in h. decompose sum h; discriminate.
  - repeat constructor; cbn; tauto.
  - eexists. vm_compute. reflexivity.
Qed.

(** A reserved word among the tokens occurs in the text. *)
Lemma reserved_occurs V src ops b k ts k' r : tiles V src ops b k ts k' -> Exists (fun t => tk_value t = TReserved r) ts ->
  exists j, firstn (length (reserved_name r)) (skipn j src) = reserved_name r.
Proof.
  induction 1 as [b k|op ops b k t k1 ts k2 N T IH]; intros X; inversion X as [? ? h|? ? h]; subst; [|exact (IH h)].
  destruct N as (ws & w & l & E & _ & _ & L & _). rewrite h in L.
  assert (Ew : w = reserved_name r) by (inversion L; reflexivity). exists (k + length ws).
  assert (Es : skipn (k + length ws) src = w ++ l).
  { clear -E. revert k E. induction src as [|c src IH]; intros [|k] E; cbn [skipn plus] in *.
    - destruct ws; [destruct w; [|discriminate]; exact E|discriminate].
    - destruct ws; [destruct w; [|discriminate]; exact E|discriminate].
    - rewrite E, skipn_app, skipn_all, Nat.sub_diag. reflexivity.
    - exact (IH k E). }
  rewrite <- Ew, Es.
  rewrite firstn_app, Nat.sub_diag, firstn_O, app_nil_r. apply firstn_all.
Qed.
Fixpoint occurs (w src : str) : bool :=
  (if list_eq_dec N.eq_dec (firstn (length w) src) w then true else false) || match src with [] => false | _ :: r => occurs w r end.
Lemma occurs_skip w j : forall src, firstn (length w) (skipn j src) = w -> occurs w src = true.
Proof.
  induction j as [|j IH]; intros src h.
  - cbn in h. destruct src; cbn [occurs]; (destruct (list_eq_dec N.eq_dec _ w); [reflexivity|contradiction]).
  - destruct src as [|c src].
    + rewrite skipn_nil in h. apply (IH []). rewrite skipn_nil. exact h.
    + cbn [occurs]. apply orb_true_iff. right. apply IH, h.
Qed.
Lemma not_open V src : forallb (fun r => negb (occurs (reserved_name r) src)) [R_Break; R_Continue; R_Return] = true -> ~ open_ended V src.
Proof.
  intros h (ts & t & e & k & (ops & T) & _ & K).
  assert (X : exists r, In r [R_Break; R_Continue; R_Return] /\ tk_value t = TReserved r).
  { cbn in K. destruct K as [K|[K|[K|[]]]]; eexists; (split; [|symmetry; exact K]); cbn; tauto. }
  destruct X as (r & hr & hv). rewrite forallb_forall in h. specialize (h r hr).
  destruct (reserved_occurs _ _ _ _ _ _ _ r T) as (j & E); [apply Exists_app; right; left; exact hv|].
  apply occurs_skip in E. rewrite E in h. discriminate.
Qed.

Definition open_text : str := lit "a: while (b) { c = d + 1 }
var e = function (x) { f(x); }".
Example C40_open_example : exists t, script_of env_ascii open_text = Ok t /\ labels_differ (N_body t)
  /\ ~ In (N_of_ascii "/") open_text /\ ~ open_ended env_ascii open_text /\ length (bo_items t) = 2
  /\ open_ended env_ascii (lit "while(1) break").
Proof.
  eexists. split; [vm_compute; reflexivity|]. split; [|split; [|split; [|split; [reflexivity|]]]].
  - match goal with |- labels_differ ?n => assert (h : L nothing n); [labels|destruct h as [h]; exact h] end.
  - intros h. vm_compute in h. decompose sum h; discriminate.
  - apply not_open. vm_compute. reflexivity.
  - destruct (read_tokens env_ascii [false; true; true; true; true; true] (lexer_new (lit "while(1) break"))) as [[ts x]| | |] eqn:E;
      try (exfalso; vm_compute in E; discriminate).
    destruct (proj1 (read_exact env_ascii (lit "while(1) break") _ ts ucd_ok_ascii) (ex_intro _ x E)) as (k & T).
    vm_compute in E. injection E as <- _.
    eexists [_; _; _; _], _, _, k. split; [exists [false; true; true; true; true; true]; exact T|]. split; [reflexivity|cbn; tauto].
Qed.
