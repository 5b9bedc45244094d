(** Properties of the locations in parsed trees (C41-C43, C59, C77, C78). *)
From Coq Require Import String Ascii List NArith Bool Lia.
From Verif Require Import Base Chars Word Token Reader Lexer LexClient Punc Ast Track PState Parser Api Node SpecReader SpecLexer
  LexTheorems SpecGrammar SpecParser SpecLoc LocProofs LeafProofs PropParser SimTop PropStrict.
Import ListNotations.
Local Open Scope nat_scope.

(** The trees that a text yields: the results of [script], [strict] and [module], and
    what the methods of the [Program] that [program] returns give. *)
Inductive parsed (V : env) (src : str) : node -> Prop :=
| pa_script : forall b, script_of V src = Ok b -> parsed V src (N_body b)
| pa_strict : forall b, strict_of V src = Ok b -> parsed V src (N_body b)
| pa_module : forall m, module_of V src = Ok m -> parsed V src (N_mod m)
| pa_program_script : forall p b, program_of V src = Ok p -> program_script p = Ok b -> parsed V src (N_body b)
| pa_program_strict : forall p b, program_of V src = Ok p -> program_strict p = Ok b -> parsed V src (N_body b)
| pa_program_module : forall p m, program_of V src = Ok p -> program_module p = Ok m -> parsed V src (N_mod m).

Lemma parsed_located V src n : ucd_ok V -> parsed V src n -> all_located src n.
Proof.
  intros HV H. destruct H as [b E|b E|m E|p b E E1|p b E E1|p m E E1].
  - exact (script_located V src HV b E).
  - exact (strict_located V src HV b E).
  - exact (module_located V src HV m E).
  - destruct (C32_every_program V src p HV E) as (h & _ & _). rewrite h in E1. exact (script_located V src HV b E1).
  - destruct (C32_every_program V src p HV E) as (_ & h & _). rewrite h in E1. exact (strict_located V src HV b E1).
  - destruct (C32_every_program V src p HV E) as (_ & _ & h). rewrite h in E1. exact (module_located V src HV m E1).
Qed.

(** C41: every node of a parsed tree carries a location. *)
Theorem C41_every_node_is_tracked : forall V src t n, ucd_ok V -> parsed V src t -> within t n ->
  node_loc n <> None.
Proof.
  intros V src t n HV H Hn. destruct (parsed_located V src t HV H n Hn) as (i & j & -> & _). discriminate.
Qed.
Print Assumptions C41_every_node_is_tracked.

(** C42: every location in a parsed tree begins no later than it ends, both in the
    text, and its positions carry the lines and columns of those two places. *)
Theorem C42_locations_are_well_formed : forall V src t n l, ucd_ok V -> parsed V src t -> within t n ->
  node_loc n = Some l ->
  (offset (sp_start l) <= offset (sp_end l) <= N.of_nat (length src))%N
  /\ sp_start l = posn_at src (N.to_nat (offset (sp_start l)))
  /\ sp_end l = posn_at src (N.to_nat (offset (sp_end l))).
Proof.
  intros V src t n l HV H Hn E. destruct (parsed_located V src t HV H n Hn) as (i & j & E' & Hij).
  rewrite E in E'. injection E' as ->. cbn [sp_start sp_end].
  unfold posn_at; cbn [offset]. rewrite !Nat2N.id. split; [lia|auto].
Qed.
Print Assumptions C42_locations_are_well_formed.

(** A text of several lines whose tree has nodes of many kinds; the locations of its
    outermost node, of its second statement and of a name in it. *)
Definition loc_example : str :=
  app (lit "a = [b, ...c];") (10%N :: app (lit "l: for (let x of f(y)) {") (10%N :: lit " if (x in z) break l; }")).
Example C41_example : exists b, parsed env_ascii loc_example (N_body b)
  /\ bo_loc b = Some (Span (posn_at loc_example 0) (posn_at loc_example (length loc_example)))
  /\ exists i1 l i s, bo_items b = [i1; I_Stmt (S_Label l i s)]
  /\ l = Some (Span (posn_at loc_example 15) (posn_at loc_example (length loc_example)))
  /\ within (N_body b) (N_id i)
  /\ id_loc i = Some (Span (posn_at loc_example 15) (posn_at loc_example 16))
  /\ (offset (posn_at loc_example 15), line (posn_at loc_example 15), column (posn_at loc_example 15)) = (15, 1, 0)%N.
Proof.
  destruct (script_of env_ascii loc_example) as [b| | |] eqn:E; try (vm_compute in E; discriminate).
  exists b. split; [apply pa_script, E|]. vm_compute in E. injection E as <-.
  split; [reflexivity|]. do 4 eexists. split; [reflexivity|]. split; [reflexivity|].
  split; [|split; reflexivity].
  eapply wi_step; [eapply wi_step; [eapply wi_step; [apply wi_refl|]|]|].
  - right. left. reflexivity.
  - left. reflexivity.
  - left. reflexivity.
Qed.

(** C59: identifiers, literals, keys and operators carry the location of the token of
    the input that they come from, and it is a token of that text or value. *)
Theorem C59_leaves_are_their_tokens : forall V src t, ucd_ok V -> parsed V src t ->
  exists ts k, reads V src ts k /\ forall n, within t n -> token_ok ts n.
Proof.
  assert (S1 : forall V src b, ucd_ok V -> script_of V src = Ok b ->
    exists ts k, reads V src ts k /\ forall n, within (N_body b) n -> token_ok ts n).
  { intros V src b HV E. apply C44_script in E as (ts & r & k & hr & hg); [|exact HV].
    exists (ts ++ r), k. split; [exact hr|exact (script_leaves _ _ _ _ hg)]. }
  assert (S2 : forall V src b, ucd_ok V -> strict_of V src = Ok b ->
    exists ts k, reads V src ts k /\ forall n, within (N_body b) n -> token_ok ts n).
  { intros V src b HV E. apply C44_strict in E as (ts & r & k & hr & hg); [|exact HV].
    exists (ts ++ r), k. split; [exact hr|exact (script_leaves _ _ _ _ hg)]. }
  assert (S3 : forall V src b, ucd_ok V -> module_of V src = Ok b ->
    exists ts k, reads V src ts k /\ forall n, within (N_mod b) n -> token_ok ts n).
  { intros V src b HV E. apply C31_module_whole in E as (l & ds & is & ts & e & r & -> & _ & hr & hg); [|exact HV].
    eexists _, _. split; [exact hr|exact (module_leaves _ _ _ _ _ _ hg)]. }
  intros V src t HV H. destruct H as [b E|b E|m E|p b E E1|p b E E1|p m E E1]; auto.
  - destruct (C32_every_program V src p HV E) as (h & _ & _). rewrite h in E1. auto.
  - destruct (C32_every_program V src p HV E) as (_ & h & _). rewrite h in E1. auto.
  - destruct (C32_every_program V src p HV E) as (_ & _ & h). rewrite h in E1. auto.
Qed.
Print Assumptions C59_leaves_are_their_tokens.
Example C59_example : exists b i, parsed env_ascii (lit " x+ y.z ") (N_body b) /\ within (N_body b) (N_binop i)
  /\ op_loc i = Some (Span (posn_at (lit " x+ y.z ") 2) (posn_at (lit " x+ y.z ") 3)) /\ op_tag i = Bi_Plus.
Proof.
  destruct (script_of env_ascii (lit " x+ y.z ")) as [b| | |] eqn:E; try (vm_compute in E; discriminate).
  exists b. vm_compute in E. injection E as <-. eexists.
  split; [apply pa_script; vm_compute; reflexivity|]. split.
  - eapply wi_step; [eapply wi_step; [eapply wi_step; [eapply wi_step; [apply wi_refl|]|]|]|].
    + left. reflexivity.
    + left. reflexivity.
    + left. reflexivity.
    + right. left. reflexivity.
  - split; reflexivity.
Qed.

(** C43, the part that holds: a node starts no later than the nodes directly below it
    unless it is a conditional expression, a postfix increment or decrement, an expression
    statement or a declarator of one name, and ends no earlier than them unless it is a
    prefix increment or decrement.  What is missing is exactly those kinds of nodes:
    C43_missing_kinds shows that none of them can be left out. *)
Theorem C43_enclosing_partial : forall V src t, ucd_ok V -> parsed V src t ->
  forall n c l k, within t n -> In c (children n) -> node_loc n = Some l -> node_loc c = Some k ->
  (starts_first n = true -> (offset (sp_start l) <= offset (sp_start k))%N)
  /\ (ends_last n = true -> (offset (sp_end k) <= offset (sp_end l))%N).
Proof.
  intros V src t HV H. change (nested t). destruct H as [b E|b E|m E|p b E E1|p b E E1|p m E E1].
  - exact (script_nested V src HV b E).
  - exact (strict_nested V src HV b E).
  - exact (module_nested V src HV m E).
  - destruct (C32_every_program V src p HV E) as (h & _ & _). rewrite h in E1. exact (script_nested V src HV b E1).
  - destruct (C32_every_program V src p HV E) as (_ & h & _). rewrite h in E1. exact (strict_nested V src HV b E1).
  - destruct (C32_every_program V src p HV E) as (_ & _ & h). rewrite h in E1. exact (module_nested V src HV m E1).
Qed.
Print Assumptions C43_enclosing_partial.
(** Its consequence for whole statements and functions: a node of any other kind encloses
    everything directly below it. *)
Theorem C43_enclosing_elsewhere_partial : forall V src t, ucd_ok V -> parsed V src t ->
  forall n c l k, within t n -> In c (children n) -> node_loc n = Some l -> node_loc c = Some k ->
  match n with
  | N_stmt (S_Expr _ _ _) | N_dtor (Dt_Simple _ _ _)
  | N_expr (E_Cond _ _ _ _) | N_expr (E_PostInc _ _) | N_expr (E_PostDec _ _)
  | N_expr (E_PreInc _ _) | N_expr (E_PreDec _ _) => True
  | _ => (offset (sp_start l) <= offset (sp_start k) /\ offset (sp_end k) <= offset (sp_end l))%N
  end.
Proof.
  intros V src t HV H n c l k Hn Hc El Ek. destruct (C43_enclosing_partial V src t HV H n c l k Hn Hc El Ek) as [A B].
  destruct n; try (split; [apply A|apply B]; reflexivity);
    match goal with x : expr |- _ => destruct x | x : stmt |- _ => destruct x | x : dtor |- _ => destruct x end;
    try exact Logic.I; (split; [apply A|apply B]; reflexivity).
Qed.
Print Assumptions C43_enclosing_elsewhere_partial.

(** A search for a node and a node directly below it that are related. *)
Fixpoint search (fuel : nat) (p : node -> node -> bool) (n : node) : option (node * node) :=
  match fuel with
  | O => None
  | S f => match find (p n) (children n) with
           | Some c => Some (n, c)
           | None => fold_right (fun c r => match search f p c with Some x => Some x | None => r end) None (children n)
           end
  end.
Lemma search_in fuel p : forall n m c, search fuel p n = Some (m, c) -> within n m /\ In c (children m) /\ p m c = true.
Proof.
  assert (T : forall a b c, within a b -> within b c -> within a c).
  { intros a b c H K. induction K as [|m c K IH Hc]; [exact H|]. exact (wi_step _ _ _ IH Hc). }
  induction fuel as [|f IH]; intros n m c H; [discriminate|]. cbn [search] in H.
  destruct (find (p n) (children n)) as [x|] eqn:E.
  - injection H as <- <-. apply find_some in E as [E1 E2]. split; [apply wi_refl|auto].
  - assert (G : forall l, fold_right (fun c r => match search f p c with Some x => Some x | None => r end) None l = Some (m, c) ->
      exists y, In y l /\ search f p y = Some (m, c)).
    { induction l as [|y l IHl]; [discriminate|]. cbn. destruct (search f p y) eqn:Ey.
      - intros K. injection K as ->. exists y. auto.
      - intros K. destruct (IHl K) as (z & Hz & Hs). exists z. auto. }
    destruct (G _ H) as (y & Hy & Hs). destruct (IH _ _ _ Hs) as (H1 & H2 & H3). split; [|auto].
    refine (T _ _ _ _ H1). exact (wi_step _ _ _ (wi_refl _) Hy).
Qed.
Definition late (n c : node) : bool :=
  match node_loc n, node_loc c with Some l, Some k => (offset (sp_start k) <? offset (sp_start l))%N | _, _ => false end.
Definition early (n c : node) : bool :=
  match node_loc n, node_loc c with Some l, Some k => (offset (sp_end l) <? offset (sp_end k))%N | _, _ => false end.

(** Every kind of node that C43_enclosing_partial leaves out occurs, in the tree of some
    text, above a node that starts earlier (or ends later) than it does. *)
Definition late_kinds : list (node -> bool) :=
  [ (fun n => match n with N_expr (E_Cond _ _ _ _) => true | _ => false end);
    (fun n => match n with N_expr (E_PostInc _ _) => true | _ => false end);
    (fun n => match n with N_expr (E_PostDec _ _) => true | _ => false end);
    (fun n => match n with N_stmt (S_Expr _ _ _) => true | _ => false end);
    (fun n => match n with N_dtor (Dt_Simple _ _ _) => true | _ => false end) ].
Definition early_kinds : list (node -> bool) :=
  [ (fun n => match n with N_expr (E_PreInc _ _) => true | _ => false end);
    (fun n => match n with N_expr (E_PreDec _ _) => true | _ => false end) ].
Definition kinds_text : str := lit "let x = a ? b : c; x++; x--; ++x; --x".
Theorem C43_missing_kinds_refuted : exists t, parsed env_ascii kinds_text t
  /\ (forall q, In q late_kinds -> exists n c l k, within t n /\ In c (children n) /\ q n = true
        /\ node_loc n = Some l /\ node_loc c = Some k /\ (offset (sp_start k) < offset (sp_start l))%N)
  /\ (forall q, In q early_kinds -> exists n c l k, within t n /\ In c (children n) /\ q n = true
        /\ node_loc n = Some l /\ node_loc c = Some k /\ (offset (sp_end l) < offset (sp_end k))%N).
Proof.
  assert (S1 : forall t q n c, search 20 (fun n c => q n && late n c) t = Some (n, c) -> exists n c l k, within t n /\ In c (children n) /\ q n = true
        /\ node_loc n = Some l /\ node_loc c = Some k /\ (offset (sp_start k) < offset (sp_start l))%N).
  { intros t q n c H. apply search_in in H as (H1 & H2 & H3). apply andb_true_iff in H3 as [H3 H4]. unfold late in H4.
    destruct (node_loc n) as [l|] eqn:El; [|discriminate]. destruct (node_loc c) as [k|] eqn:Ek; [|discriminate].
    exists n, c, l, k. apply N.ltb_lt in H4. auto 10. }
  assert (S2 : forall t q n c, search 20 (fun n c => q n && early n c) t = Some (n, c) -> exists n c l k, within t n /\ In c (children n) /\ q n = true
        /\ node_loc n = Some l /\ node_loc c = Some k /\ (offset (sp_end l) < offset (sp_end k))%N).
  { intros t q n c H. apply search_in in H as (H1 & H2 & H3). apply andb_true_iff in H3 as [H3 H4]. unfold early in H4.
    destruct (node_loc n) as [l|] eqn:El; [|discriminate]. destruct (node_loc c) as [k|] eqn:Ek; [|discriminate].
    exists n, c, l, k. apply N.ltb_lt in H4. auto 10. }
  destruct (script_of env_ascii kinds_text) as [b| | |] eqn:E; try (vm_compute in E; discriminate).
  exists (N_body b). split; [apply pa_script, E|]. vm_compute in E. injection E as <-.
  split; intros q Hq; cbn in Hq.
  - destruct Hq as [<-|[<-|[<-|[<-|[<-|[]]]]]]; (eapply S1; vm_compute; reflexivity).
  - destruct Hq as [<-|[<-|[]]]; (eapply S2; vm_compute; reflexivity).
Qed.
Print Assumptions C43_missing_kinds_refuted.

(** In the text of C41_example the loop encloses its body, which encloses the conditional
    statement in it. *)
Example C43_example : exists b n c d l k j, parsed env_ascii loc_example (N_body b)
  /\ within (N_body b) n /\ In c (children n) /\ In d (children c)
  /\ starts_first n = true /\ ends_last n = true /\ starts_first c = true /\ ends_last c = true
  /\ node_loc n = Some l /\ node_loc c = Some k /\ node_loc d = Some j
  /\ (offset (sp_start l) < offset (sp_start k) /\ offset (sp_start k) <= offset (sp_start j))%N.
Proof.
  destruct (script_of env_ascii loc_example) as [b| | |] eqn:E; try (vm_compute in E; discriminate).
  exists b. assert (P : parsed env_ascii loc_example (N_body b)) by (apply pa_script, E). vm_compute in E. injection E as <-.
  set (q := fun n c => match n with N_stmt (S_ForOf _ _ _ _) => match c with N_stmt (S_Block _) => true | _ => false end | _ => false end).
  match type of P with parsed _ _ ?t => destruct (search 20 q t) as [[n c]|] eqn:F; [|vm_compute in F; discriminate] end.
  destruct (search_in _ _ _ _ _ F) as (H1 & H2 & _). vm_compute in F. injection F as <- <-.
  eexists _, _, _, _, _, _. split; [exact P|]. split; [exact H1|]. split; [exact H2|].
  split; [left; reflexivity|]. do 4 (split; [reflexivity|]). do 3 (split; [reflexivity|]). split; [reflexivity|discriminate].
Qed.

(** C77: a node that has no token of its own in front of its first part starts exactly
    where that part starts, and one with no token of its own behind its last part ends
    exactly where that ends, for the kinds of nodes that SpecLoc lists. *)
Theorem C77_parts_set_the_location : forall V src t, ucd_ok V -> parsed V src t ->
  forall n l, within t n -> node_loc n = Some l ->
  (starts_with_first n = true -> forall c r k, children n = c :: r -> node_loc c = Some k -> sp_start l = sp_start k)
  /\ (ends_with_last n = true -> forall r c k, children n = r ++ [c] -> node_loc c = Some k -> sp_end l = sp_end k).
Proof.
  intros V src t HV H. change (tight t). destruct H as [b E|b E|m E|p b E E1|p b E E1|p m E E1].
  - exact (script_tight V src HV b E).
  - exact (strict_tight V src HV b E).
  - exact (module_tight V src HV m E).
  - destruct (C32_every_program V src p HV E) as (h & _ & _). rewrite h in E1. exact (script_tight V src HV b E1).
  - destruct (C32_every_program V src p HV E) as (_ & h & _). rewrite h in E1. exact (strict_tight V src HV b E1).
  - destruct (C32_every_program V src p HV E) as (_ & _ & h). rewrite h in E1. exact (module_tight V src HV m E1).
Qed.
Print Assumptions C77_parts_set_the_location.
(** Its instances for the operators with two operands and for assignments. *)
Theorem C77_operators : forall V src t l o a b la lb, ucd_ok V -> parsed V src t ->
  within t (N_expr (E_Binop l o a b)) -> expr_loc a = Some la -> expr_loc b = Some lb ->
  l = Some (Span (sp_start la) (sp_end lb)).
Proof.
  intros V src t l o a b la lb HV H Hn Ea Eb.
  assert (Hl := C41_every_node_is_tracked _ _ _ _ HV H Hn). cbn in Hl. destruct l as [[x y]|]; [|contradiction].
  destruct (C77_parts_set_the_location V src t HV H _ _ Hn eq_refl) as [A B].
  specialize (A eq_refl _ _ la eq_refl Ea). specialize (B eq_refl [N_expr a; N_binop o] (N_expr b) lb eq_refl Eb).
  cbn in A, B. subst. reflexivity.
Qed.
Print Assumptions C77_operators.
Theorem C77_assignments : forall V src t l p a lp la, ucd_ok V -> parsed V src t ->
  within t (N_expr (E_Assign l p a)) -> patt_target_loc p = Some lp -> expr_loc a = Some la ->
  l = Some (Span (sp_start lp) (sp_end la)).
Proof.
  intros V src t l p a lp la HV H Hn Ep Ea.
  assert (Hl := C41_every_node_is_tracked _ _ _ _ HV H Hn). cbn in Hl. destruct l as [[x y]|]; [|contradiction].
  destruct (C77_parts_set_the_location V src t HV H _ _ Hn eq_refl) as [A B].
  specialize (A eq_refl _ _ lp eq_refl Ep). specialize (B eq_refl [N_tpatt p] (N_expr a) la eq_refl Ea).
  cbn in A, B. subst. reflexivity.
Qed.
Print Assumptions C77_assignments.
Example C77_example : exists b l p a, parsed env_ascii (lit " x = a + b ; ") (N_body b)
  /\ within (N_body b) (N_expr (E_Assign l p a))
  /\ l = Some (Span (posn_at (lit " x = a + b ; ") 1) (posn_at (lit " x = a + b ; ") 10))
  /\ expr_loc a = Some (Span (posn_at (lit " x = a + b ; ") 5) (posn_at (lit " x = a + b ; ") 10)).
Proof.
  destruct (script_of env_ascii (lit " x = a + b ; ")) as [b| | |] eqn:E; try (vm_compute in E; discriminate).
  exists b. vm_compute in E. injection E as <-. eexists _, _, _.
  split; [apply pa_script; vm_compute; reflexivity|]. split.
  { eapply wi_step; [eapply wi_step; [eapply wi_step; [apply wi_refl|]|]|]. - left; reflexivity. - left; reflexivity. - left; reflexivity. }
  split; reflexivity.
Qed.

(** C78: array and object literals (and the patterns made from them), calls, bracketed
    members, [new] expressions and the heads of loops begin and end with their own tokens. *)
Theorem C78_delimiters : forall V src t, ucd_ok V -> parsed V src t -> forall n, within t n ->
  (forall d, opening n = Some d -> exists x l, delivers V src x /\ tk_value x = d
     /\ node_loc n = Some l /\ sp_start l = sp_start (tk_loc x))
  /\ (forall d, closing n = Some d -> exists x l, delivers V src x /\ tk_value x = d
     /\ node_loc n = Some l /\ sp_end l = sp_end (tk_loc x)).
Proof.
  intros V src t HV H. change (forall n, within t n -> delimited V src n). destruct H as [b E|b E|m E|p b E E1|p b E E1|p m E E1].
  - exact (script_delimited V src HV b E).
  - exact (strict_delimited V src HV b E).
  - exact (module_delimited V src HV m E).
  - destruct (C32_every_program V src p HV E) as (h & _ & _). rewrite h in E1. exact (script_delimited V src HV b E1).
  - destruct (C32_every_program V src p HV E) as (_ & h & _). rewrite h in E1. exact (strict_delimited V src HV b E1).
  - destruct (C32_every_program V src p HV E) as (_ & _ & h). rewrite h in E1. exact (module_delimited V src HV m E1).
Qed.
Print Assumptions C78_delimiters.
Example C78_example : exists b l e args, parsed env_ascii (lit "new F ( [x] ) . y") (N_body b)
  /\ within (N_body b) (N_expr (E_New l e (Some args)))
  /\ closing (N_expr (E_New l e (Some args))) = Some (TPunc T_RParen)
  /\ l = Some (Span (posn_at (lit "new F ( [x] ) . y") 0) (posn_at (lit "new F ( [x] ) . y") 13)).
Proof.
  destruct (script_of env_ascii (lit "new F ( [x] ) . y")) as [b| | |] eqn:E; try (vm_compute in E; discriminate).
  exists b. vm_compute in E. injection E as <-. eexists _, _, _.
  split; [apply pa_script; vm_compute; reflexivity|]. split.
  { eapply wi_step; [eapply wi_step; [eapply wi_step; [eapply wi_step; [apply wi_refl|]|]|]|]. - left; reflexivity. - left; reflexivity. - left; reflexivity. - left; reflexivity. }
  split; reflexivity.
Qed.
