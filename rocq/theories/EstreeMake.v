(** Every tree ESTree can express has an encoding. *)
From Coq Require Import String Ascii List NArith ZArith Bool Lia.
From Verif Require Import Base F64 Word Token Punc Ast Track Node SpecTree Cover CoverProofs NodeProofs
  LexTheorems PropTree Unjson Estree SpecEstree EstreeProofs EstreeConv EstreeComp EstreeImg.
Import ListNotations.
Local Open Scope nat_scope.
Local Arguments lit _ : simpl never.

(** ** Documents whose integers are machine integers *)
Definition mjson (v : json) : Prop := forall w, inside v w -> holds_machine_integer w.
Lemma mj_obj o : machine o -> mjson (J_Object o).
Proof. intros H. exact H. Qed.
Lemma mj_null : mjson J_Null. Proof. intros w H; inversion H; exact Logic.I. Qed.
Lemma mj_bool b : mjson (J_Bool b). Proof. intros w H; inversion H; exact Logic.I. Qed.
Lemma mj_string s : mjson (J_String s). Proof. intros w H; inversion H; exact Logic.I. Qed.
Lemma mj_f64 s : mjson (J_F64 s). Proof. intros w H; inversion H; exact Logic.I. Qed.
Lemma mj_arr a : Forall mjson a -> mjson (J_Array a).
Proof.
  intros F w H. inversion H as [|? x ? Hx Hw|]; subst; [exact Logic.I|].
  rewrite Forall_forall in F. exact (F x Hx w Hw).
Qed.
Lemma m_nil : machine []. Proof. intros w H. inversion H as [| |? ? ? ? X]; subst; [exact Logic.I|destruct X]. Qed.
Lemma m_cons k v o : mjson v -> machine o -> machine ((k, v) :: o).
Proof.
  intros Hv Ho w H. inversion H as [| |? k' x ? X Hw]; subst; [exact Logic.I|]. destruct X as [X|X].
  - injection X as <- <-. now apply Hv.
  - apply Ho. now apply (In_object o k' x).
Qed.
Ltac mach := repeat first [ assumption | apply m_cons | apply m_nil | apply mj_obj | apply mj_null | apply mj_bool
  | apply mj_string | apply mj_f64 | apply mj_arr ].

Section Make.
Variable std : bool.

(** What each node has to have. *)
Definition made (n : node) : Prop :=
  match n with
  | N_expr _ | N_eli _ | N_prop _ | N_stmt _ | N_block _ | N_fh _ | N_fi _ | N_fo _ | N_catch _ | N_case _
  | N_item _ | N_decl _ | N_dtor _ => exists o, machine o /\ est std o n
  | N_target t => exists o, machine o /\ est std o (N_expr (target_expr t))
  | N_tpatt p => rests_unlocated p /\ also std (plain_patt p) /\ exists o, machine o /\ est std o (N_expr (patt_expr p))
  | N_trest r => rp_loc r = None /\ rests_unlocated (rp_patt r) /\
      exists o, machine o /\ est std o (N_expr (patt_expr (rp_patt r)))
  | N_tpp (PP_Regular l k q) => l = None /\ rests_unlocated q /\
      exists o, machine o /\ est std o (N_prop (Pr_Regular None k (PV_Init (patt_expr q))))
  | N_tpp (PP_Shorthand i) => exists o, machine o /\ est std o (N_prop (Pr_Shorthand i))
  | N_cdtor (CDt l p e) => l = None /\ exists i o, p = Simple i /\
      machine o /\ est std o (N_dtor (Dt_Simple None i (Some e)))
  | N_pval (PV_Init e) => exists o, machine o /\ est std o (N_expr e)
  | N_pval (PV_Get l b) => l = None /\ exists o, machine o /\ typed o "BlockStatement" /\ est std o (N_body b)
  | N_pval (PV_Set l p b) => l = None /\ exists i ob o, p = Simple i /\ machine ob /\ est_id ob i /\
      machine o /\ typed o "BlockStatement" /\ est std o (N_body b)
  | N_fexpr (Fun l i ps b _) =>
      l = None /\ (exists v, mjson v /\ forall o k, has o k v -> est_id_opt o k i) /\ exists js o,
        Forall mjson js /\ est_params js ps /\ machine o /\ typed o "BlockStatement" /\ est std o (N_body b)
  | N_fmeth (Fun l i ps b _) =>
      l = None /\ (exists o, machine o /\ est_key std o i) /\ exists js o,
        Forall mjson js /\ est_params js ps /\ machine o /\ typed o "BlockStatement" /\ est std o (N_body b)
  | N_fdecl (Fun l i ps b _) =>
      l = None /\ (exists o, machine o /\ est_id o i) /\ exists js o, Forall mjson js /\ est_params js ps /\
        machine o /\ typed o "BlockStatement" /\ est std o (N_body b)
  | N_body b => forall t, exists o, machine o /\ typed o t /\ est std o (N_body b)
  | N_params ps => exists js, Forall mjson js /\ est_params js ps
  | N_id i => exists o, machine o /\ est_id o i
  | N_ipatt p => exists i o, p = Simple i /\ machine o /\ est_id o i
  | N_irest r => exists i o, r = RestPatt None (Simple i) /\ machine o /\ est_id o i
  | N_pk k => exists o, machine o /\ est_key std o k
  | N_dir d => exists o, machine o /\ est std o (N_item (I_Stmt (S_Expr (dir_loc d) (E_String None (dir_string d)) (dir_semi d))))
  | N_unop o => op_loc o = None
  | N_binop o => op_loc o = None
  | N_logop o => op_loc o = None
  | N_assop o => op_loc o = None
  | N_dk k => dk_loc k = None
  | _ => True
  end.

Ltac hs := first [assumption | apply has_lookup; reflexivity].
Ltac give o := exists o; split; [mach|].

Lemma at_make o k x n : has o k (J_Object x) -> est std x n -> est_at std o k n.
Proof. intros. now apply (EAt _ _ _ x). Qed.
Lemma list_make o k js ns : has o k (J_Array js) -> est_elems std js (map Some ns) -> est_list std o k ns.
Proof. intros. now apply (EList _ _ _ js). Qed.
Lemma id_at_make o k x i : has o k (J_Object x) -> est_id x i -> est_id_at o k i.
Proof. intros. now apply (EIA _ _ x). Qed.

Lemma elems_make {A} (N : A -> node) l : (forall a, In a l -> exists o, machine o /\ est std o (N a)) ->
  exists js, Forall mjson js /\ est_elems std js (map Some (map N l)).
Proof.
  induction l as [|a l IH]; intros H.
  - exists []. split; constructor.
  - destruct (H a (or_introl eq_refl)) as (o & M & E).
    destruct IH as (js & Ms & Es); [intros; apply H; now right|].
    exists (J_Object o :: js). split; cbn; constructor; auto.
Qed.
Lemma holes_make {A} (N : A -> node) l : (forall a, In (Some a) l -> exists o, machine o /\ est std o (N a)) ->
  exists js, Forall mjson js /\ est_elems std js (map (option_map N) l).
Proof.
  induction l as [|a l IH]; intros H.
  - exists []. split; constructor.
  - destruct IH as (js & Ms & Es); [intros; apply H; now right|]. destruct a as [a|].
    + destruct (H a (or_introl eq_refl)) as (o & M & E).
      exists (J_Object o :: js). split; cbn; constructor; auto.
    + exists (J_Null :: js). split; cbn; constructor; auto. apply mj_null.
Qed.
(** The value of an optional field. *)
Lemma opt_make {A} (N : A -> node) r : (forall a, r = Some a -> exists o, machine o /\ est std o (N a)) ->
  exists v, mjson v /\ forall o k, has o k v -> est_opt std o k (option_map N r).
Proof.
  intros H. destruct r as [a|]; cbn.
  - destruct (H a eq_refl) as (o & M & E). exists (J_Object o). split; [exact M|]. intros x k Hk.
    constructor. now apply (at_make _ _ o).
  - exists J_Null. split; [apply mj_null|]. intros x k Hk. now constructor.
Qed.
Lemma id_opt_make r : (forall i, r = Some i -> exists o, machine o /\ est_id o i) ->
  exists v, mjson v /\ forall o k, has o k v -> est_id_opt o k r.
Proof.
  intros H. destruct r as [a|]; cbn.
  - destruct (H a eq_refl) as (o & M & E). exists (J_Object o). split; [exact M|]. intros x k Hk.
    constructor. now apply (id_at_make _ _ o).
  - exists J_Null. split; [apply mj_null|]. intros x k Hk. now constructor.
Qed.
Lemma consts_make cs : (forall c, In c cs -> made (N_cdtor c)) ->
  exists ds, Forall2 const_of ds cs /\ forall d, In d ds -> exists o, machine o /\ est std o (N_dtor d).
Proof.
  induction cs as [|[l p e] cs IH]; intros H.
  - exists []. split; [constructor|intros d []].
  - destruct (H _ (or_introl eq_refl)) as (-> & i & o & -> & M & E).
    destruct IH as (ds & F & D); [intros; apply H; now right|].
    exists (Dt_Simple None i (Some e) :: ds). split; [constructor; [constructor|exact F]|].
    intros d [<-|Hd]; eauto.
Qed.

Lemma number_make n : plain_number n -> exists v, mjson v /\
  forall o, has o "value" v -> est_value o (E_Number None n).
Proof.
  intros [H|(z & Hz & ->)].
  - destruct n as [src v]. cbn in H. subst. exists (J_F64 v). split; [mach|]. intros o Ho. now constructor.
  - unfold machine_integer in Hz. destruct (Z_lt_le_dec z (2^63)) as [L|L].
    + exists (J_I64 z). split; [|intros o Ho; now constructor].
      intros w Hw. inversion Hw; subst. cbn. lia.
    + exists (J_U64 (Z.to_N z)). split.
      * intros w Hw. inversion Hw; subst. cbn. lia.
      * intros o Ho. replace z with (Z.of_N (Z.to_N z)) by lia. apply EV_u64. rewrite ?N2Z.id. exact Ho.
Qed.

Lemma made_list {A} (f : A -> node) l : Forall made (of_list f l) -> forall a, In a l -> made (f a).
Proof. unfold of_list. rewrite Forall_forall. intros H a Ha. apply H. now apply in_map. Qed.
Lemma made_opt {A} (f : A -> node) l : Forall made (of_opt f l) -> forall a, l = Some a -> made (f a).
Proof. intros H a ->. cbn in H. now inversion H. Qed.
Lemma made_holes {A} (f : A -> node) l : Forall made (of_holes f l) -> forall a, In (Some a) l -> made (f a).
Proof.
  unfold of_holes. rewrite Forall_forall. intros H a Ha. apply H. apply in_flat_map. exists (Some a). split; [exact Ha|now left].
Qed.

Definition ty (t : string) : str * json := (lit "type", J_String (lit t)).
Definition fld (k : string) (v : json) : str * json := (lit k, v).
Ltac gv o := exists o; split; [unfold ty, fld; mach|].
Ltac hh := first [assumption | apply has_lookup; reflexivity | eapply at_make; [apply has_lookup; reflexivity|eassumption]
  | eapply list_make; [apply has_lookup; reflexivity|eassumption]
  | eapply id_at_make; [apply has_lookup; reflexivity|eassumption]
  | match goal with H : forall o k, has o k ?v -> _ |- _ => apply H; apply has_lookup; reflexivity end
  | reflexivity | intros _; apply has_lookup; reflexivity | (intros _; split; apply has_lookup; reflexivity) ].
Ltac kids K := rewrite ?Forall_cons_iff, ?Forall_app in K.

(** The object of a function expression. *)
Lemma fun_make f : made (N_fexpr f) ->
  exists o, machine o /\ typed o "FunctionExpression" /\ est_id_opt o "id" (fn_id f) /\ est std o (N_fexpr f).
Proof.
  destruct f as [l i ps b g]. intros (-> & (v & Mv & Hv) & js & bo & Mj & Hps & Mb & Tb & Hb).
  gv [ty "FunctionExpression"; fld "id" v; fld "params" (J_Array js); fld "body" (J_Object bo);
      fld "generator" (J_Bool g)].
  split; [hh|]. split; [hh|].
  eapply (Es_fun _ _ _ _ _ _ (J_Bool g) js bo); 
    first [hh | (left; reflexivity) | (intros _; reflexivity) | (intros _; exact Tb)].
Qed.

Lemma make_expr e : expressible_at (N_expr e) -> Forall made (expr_children e) -> made (N_expr e).
Proof.
  intros (L & _ & S) K. cbn in L, S |- *.
  destruct e; cbn in L, K; subst; kids K.
  - (* this *) gv [ty "ThisExpression"]. apply Es_this. hh.
  - (* id *) destruct K as ((o & M & E) & _). gv o. now constructor.
  - (* array *) destruct (holes_make N_eli elts (made_holes _ _ K)) as (js & Mj & Ej).
    gv [ty "ArrayExpression"; fld "elements" (J_Array js)].
    apply Es_array; [hh|]. apply (EHoles _ _ _ js); hh.
  - (* object *) destruct (elems_make N_prop props (made_list _ _ K)) as (js & Mj & Ej).
    gv [ty "ObjectExpression"; fld "properties" (J_Array js)]. apply Es_object; hh.
  - (* function *) destruct K as (K & _). apply fun_make in K as (o & M & T & I & E). exists o. split; [exact M|].
    eapply Es_function; eauto.
  - (* sequence *) destruct (elems_make N_expr es (made_list _ _ K)) as (js & Mj & Ej).
    gv [ty "SequenceExpression"; fld "expressions" (J_Array js)]. apply Es_sequence; hh.
  - (* unary *) destruct K as (O & (a & Ma & Ea) & _). destruct o as [lo t]. cbn in O. subst.
    gv [ty "UnaryExpression"; fld "operator" (J_String (lit (unop_spelling t))); fld "prefix" (J_Bool true);
        fld "argument" (J_Object a)]. apply Es_unary; hh.
  - (* binary *) destruct K as ((a & Ma & Ea) & O & (b & Mb & Eb) & _). destruct o as [lo t]. cbn in O. subst.
    gv [ty "BinaryExpression"; fld "operator" (J_String (binop_tag_text t)); fld "left" (J_Object a);
        fld "right" (J_Object b)]. apply Es_binary; hh.
  - (* logical *) destruct K as ((a & Ma & Ea) & O & (b & Mb & Eb) & _). destruct o as [lo t]. cbn in O. subst.
    gv [ty "LogicalExpression"; fld "operator" (J_String (logop_tag_text t)); fld "left" (J_Object a);
        fld "right" (J_Object b)]. apply Es_logical; hh.
  - destruct K as ((a & Ma & Ea) & _). gv [ty "UpdateExpression"; fld "operator" (J_String (lit "++"));
      fld "prefix" (J_Bool true); fld "argument" (J_Object a)]. eapply Es_preinc; hh.
  - destruct K as ((a & Ma & Ea) & _). gv [ty "UpdateExpression"; fld "operator" (J_String (lit "++"));
      fld "prefix" (J_Bool false); fld "argument" (J_Object a)]. eapply Es_postinc; hh.
  - destruct K as ((a & Ma & Ea) & _). gv [ty "UpdateExpression"; fld "operator" (J_String (lit "--"));
      fld "prefix" (J_Bool true); fld "argument" (J_Object a)]. eapply Es_predec; hh.
  - destruct K as ((a & Ma & Ea) & _). gv [ty "UpdateExpression"; fld "operator" (J_String (lit "--"));
      fld "prefix" (J_Bool false); fld "argument" (J_Object a)]. eapply Es_postdec; hh.
  - (* assign *) destruct K as ((U & PP & a & Ma & Ea) & (b & Mb & Eb) & _).
    gv [ty "AssignmentExpression"; fld "operator" (J_String (lit "=")); fld "left" (J_Object a);
        fld "right" (J_Object b)]. eapply Es_assign; hh.
  - (* assignop *) destruct K as ((a & Ma & Ea) & O & (b & Mb & Eb) & _). destruct o as [lo t]. cbn in O. subst.
    gv [ty "AssignmentExpression"; fld "operator" (J_String (assop_tag_text t)); fld "left" (J_Object a);
        fld "right" (J_Object b)]. eapply Es_assignop; hh.
  - (* cond *) destruct K as ((a & Ma & Ea) & (b & Mb & Eb) & (c & Mc & Ec) & _).
    gv [ty "ConditionalExpression"; fld "test" (J_Object a); fld "consequent" (J_Object b);
        fld "alternate" (J_Object c)]. apply Es_cond; hh.
  - (* call *) destruct K as ((a & Ma & Ea) & K).
    destruct (elems_make N_eli args (made_list _ _ K)) as (js & Mj & Ej).
    gv [ty "CallExpression"; fld "callee" (J_Object a); fld "arguments" (J_Array js)]. apply Es_call; hh.
  - (* new *) destruct args as [args|]; [|congruence]. destruct K as ((a & Ma & Ea) & K).
    destruct (elems_make N_eli args (made_list _ _ K)) as (js & Mj & Ej).
    gv [ty "NewExpression"; fld "callee" (J_Object a); fld "arguments" (J_Array js)]. apply Es_new; hh.
  - (* dot *) destruct K as ((a & Ma & Ea) & O & _). destruct key as [lk s]. cbn in O. subst.
    gv [ty "MemberExpression"; fld "object" (J_Object a); fld "computed" (J_Bool false);
        fld "property" (J_Object [ty "Identifier"; fld "name" (J_String s)])]. eapply Es_dot; hh.
  - (* brack *) destruct K as ((a & Ma & Ea) & (b & Mb & Eb) & _).
    gv [ty "MemberExpression"; fld "object" (J_Object a); fld "computed" (J_Bool true);
        fld "property" (J_Object b)]. eapply Es_brack; hh.
  - (* new.target *)
    gv [ty "MetaProperty"; fld "meta" (J_Object [ty "Identifier"; fld "name" (J_String (lit "new"))]);
        fld "property" (J_Object [ty "Identifier"; fld "name" (J_String (lit "target"))])]. eapply Es_newtarget; hh.
  - gv [ty "Literal"; fld "value" (J_Bool true)]. apply Es_literal; [hh|]. apply EV_true. hh.
  - gv [ty "Literal"; fld "value" (J_Bool false)]. apply Es_literal; [hh|]. apply EV_false. hh.
  - gv [ty "Literal"; fld "value" J_Null]. apply Es_literal; [hh|]. apply EV_null; [hh|].
    intros v Hv. apply has_lookup in Hv. discriminate Hv.
  - destruct (number_make n S) as (v & Mv & Hv). gv [ty "Literal"; fld "value" v]. apply Es_literal; [hh|].
    apply Hv. hh.
  - destruct r as [pp ff]. gv [ty "Literal"; fld "value" J_Null;
      fld "regex" (J_Object [fld "pattern" (J_String pp); fld "flags" (J_String ff)])].
    apply Es_literal; [hh|]. eapply EV_regexp; [left|..]; hh.
  - destruct s as [src v]. cbn in S. subst. gv [ty "Literal"; fld "value" (J_String v)].
    apply Es_literal; [hh|]. apply EV_string. hh.
Qed.

Lemma elems_one d n : est std d n -> est_elems std [J_Object d] (map Some [n]).
Proof. intros E. cbn. constructor; [exact E|constructor]. Qed.
Lemma dtor_make i o v e : machine o -> est_id o i -> mjson v ->
  (forall o k, has o k v -> est_opt std o k (option_map N_expr e)) ->
  exists x, machine x /\ est std x (N_dtor (Dt_Simple None i e)).
Proof.
  intros M E Mv Hv. gv [ty "VariableDeclarator"; fld "id" (J_Object o); fld "init" v]. apply Es_dtor; hh.
Qed.
Lemma decl_make kind js : Forall mjson js ->
  exists o, machine o /\ typed o "VariableDeclaration" /\ has o "kind" (J_String (lit kind)) /\
    has o "declarations" (J_Array js).
Proof.
  intros M. gv [ty "VariableDeclaration"; fld "kind" (J_String (lit kind)); fld "declarations" (J_Array js)].
  repeat split; hh.
Qed.
Lemma consts_list cs : Forall made (of_list N_cdtor cs) ->
  exists js ds, Forall mjson js /\ est_elems std js (map Some (map N_dtor ds)) /\ Forall2 const_of ds cs.
Proof.
  intros K. destruct (consts_make cs (made_list _ _ K)) as (ds & F & H).
  destruct (elems_make N_dtor ds H) as (js & Mj & Ej). eauto.
Qed.

Lemma make_stmt s : expressible_at (N_stmt s) -> Forall made (stmt_children s) -> made (N_stmt s).
Proof.
  intros (L & S & _) K. cbn in L, S |- *.
  destruct s; cbn in L, K, S; try (rewrite (S _ eq_refl)); subst; kids K.
  - gv [ty "EmptyStatement"]. apply Es_empty; hh.
  - destruct K as ((o & M & E) & _). exists o. split; [exact M|now apply Es_block].
  - destruct (elems_make N_dtor ds (made_list _ _ K)) as (js & Mj & Ej).
    destruct (decl_make "var" js Mj) as (o & M & T & Hk & Hd). exists o. split; [exact M|].
    apply Es_var; auto. now apply (list_make _ _ js).
  - destruct K as ((a & Ma & Ea) & _). gv [ty "ExpressionStatement"; fld "expression" (J_Object a)]. apply Es_expr; hh.
  - destruct K as ((a & Ma & Ea) & (b & Mb & Eb) & K).
    destruct (opt_make N_stmt alt (made_opt _ _ K)) as (v & Mv & Hv).
    gv [ty "IfStatement"; fld "test" (J_Object a); fld "consequent" (J_Object b); fld "alternate" v]. apply Es_if; hh.
  - destruct K as ((a & Ma & Ea) & (bb & Mb & Eb) & _).
    gv [ty "LabeledStatement"; fld "label" (J_Object a); fld "body" (J_Object bb)]. apply Es_label; hh.
  - destruct (id_opt_make i (made_opt _ _ K)) as (v & Mv & Hv).
    gv [ty "BreakStatement"; fld "label" v]. apply Es_break; hh.
  - destruct (id_opt_make i (made_opt _ _ K)) as (v & Mv & Hv).
    gv [ty "ContinueStatement"; fld "label" v]. apply Es_continue; hh.
  - destruct K as ((a & Ma & Ea) & (bb & Mb & Eb) & _).
    gv [ty "WithStatement"; fld "object" (J_Object a); fld "body" (J_Object bb)]. apply Es_with; hh.
  - destruct K as ((a & Ma & Ea) & K).
    destruct (elems_make N_case cs (made_list _ _ K)) as (js & Mj & Ej).
    gv [ty "SwitchStatement"; fld "discriminant" (J_Object a); fld "cases" (J_Array js)]. apply Es_switch; hh.
  - destruct (opt_make N_expr e (made_opt _ _ K)) as (v & Mv & Hv).
    gv [ty "ReturnStatement"; fld "argument" v]. apply Es_return; hh.
  - destruct K as ((a & Ma & Ea) & _). gv [ty "ThrowStatement"; fld "argument" (J_Object a)]. apply Es_throw; hh.
  - destruct K as ((a & Ma & Ea) & K1 & K2).
    destruct (opt_make N_catch c (made_opt _ _ K1)) as (v & Mv & Hv).
    destruct (opt_make N_block f (made_opt _ _ K2)) as (w & Mw & Hw).
    gv [ty "TryStatement"; fld "block" (J_Object a); fld "handler" v; fld "finalizer" w]. apply Es_try; hh.
  - destruct K as ((a & Ma & Ea) & (bb & Mb & Eb) & _).
    gv [ty "WhileStatement"; fld "test" (J_Object a); fld "body" (J_Object bb)]. apply Es_while; hh.
  - destruct K as ((bb & Mb & Eb) & (a & Ma & Ea) & _).
    gv [ty "DoWhileStatement"; fld "test" (J_Object a); fld "body" (J_Object bb)]. apply Es_dowhile; hh.
  - destruct K as (K1 & K2 & K3 & K4). rewrite Forall_cons_iff in K4. destruct K4 as ((bb & Mb & Eb) & _).
    destruct (opt_make N_fh h (made_opt _ _ K1)) as (v & Mv & Hv).
    destruct (opt_make N_expr test (made_opt _ _ K2)) as (w & Mw & Hw).
    destruct (opt_make N_expr update (made_opt _ _ K3)) as (u & Mu & Hu).
    gv [ty "ForStatement"; fld "init" v; fld "test" w; fld "update" u; fld "body" (J_Object bb)]. apply Es_for; hh.
  - destruct K as ((c & Mc & Ec) & (a & Ma & Ea) & (bb & Mb & Eb) & _).
    gv [ty "ForInStatement"; fld "left" (J_Object c); fld "right" (J_Object a); fld "body" (J_Object bb)].
    apply Es_forin; hh.
  - destruct K as ((c & Mc & Ec) & (a & Ma & Ea) & (bb & Mb & Eb) & _).
    gv [ty "ForOfStatement"; fld "left" (J_Object c); fld "right" (J_Object a); fld "body" (J_Object bb)].
    apply Es_forof; hh.
  - gv [ty "DebuggerStatement"]. apply Es_debugger; hh.
Qed.

Lemma key_at_make o x k : has o "key" (J_Object x) -> est_key std x k -> est_key_at std o k.
Proof. intros. now apply (EKA _ _ x). Qed.
Lemma init_make k e : made (N_pk k) -> (exists o, machine o /\ est std o (N_expr e)) ->
  exists o, machine o /\ est std o (N_prop (Pr_Regular None k (PV_Init e))).
Proof.
  intros (ko & Mk & Ek) (v & Mv & Ev).
  gv [ty "Property"; fld "key" (J_Object ko); fld "value" (J_Object v); fld "kind" (J_String (lit "init"));
      fld "computed" (J_Bool false); fld "method" (J_Bool false); fld "shorthand" (J_Bool false)].
  apply Es_init; try hh. eapply key_at_make; [apply has_lookup; reflexivity|exact Ek].
Qed.
Lemma short_make i o : machine o -> est_id o i ->
  exists o, machine o /\ est std o (N_prop (Pr_Shorthand i)).
Proof.
  intros M E.
  gv [ty "Property"; fld "key" (J_Object o); fld "value" (J_Object o); fld "kind" (J_String (lit "init"));
      fld "computed" (J_Bool false); fld "method" (J_Bool false); fld "shorthand" (J_Bool true)].
  apply (Es_shorthand _ _ _ o); try hh. intros _. exact E.
Qed.
Lemma spread_make e : (exists o, machine o /\ est std o (N_expr e)) ->
  exists o, machine o /\ est std o (N_eli (L_Spread None e)).
Proof.
  intros (v & Mv & Ev). gv [ty "SpreadElement"; fld "argument" (J_Object v)]. apply Es_spread; hh.
Qed.

Lemma make_prop p : expressible_at (N_prop p) -> Forall made (prop_children p) -> made (N_prop p).
Proof.
  intros (L & S & _) K. cbn in L, S |- *.
  destruct p as [l k v|f|i]; cbn in L, K; subst; kids K.
  - destruct K as (Kk & K & _). destruct v as [e|l b|l p b]; cbn [made] in K.
    + apply init_make; assumption.
    + destruct K as (-> & bo & Mb & Tb & Hb). destruct Kk as (ko & Mk & Ek).
      gv [ty "Property"; fld "key" (J_Object ko); fld "kind" (J_String (lit "get"));
          fld "value" (J_Object [ty "FunctionExpression"; fld "id" J_Null; fld "params" (J_Array []);
                                 fld "body" (J_Object bo); fld "generator" (J_Bool false)]);
          fld "computed" (J_Bool false); fld "method" (J_Bool false); fld "shorthand" (J_Bool false)].
      { constructor. }
      eapply Es_get; try hh.
      * eapply key_at_make; [apply has_lookup; reflexivity|exact Ek].
      * intros _. repeat split; apply has_lookup; reflexivity.
      * intros _; exact Tb.
    + destruct K as (-> & i & po & bo & -> & Mp & Hp & Mb & Tb & Hb). destruct Kk as (ko & Mk & Ek).
      gv [ty "Property"; fld "key" (J_Object ko); fld "kind" (J_String (lit "set"));
          fld "value" (J_Object [ty "FunctionExpression"; fld "id" J_Null; fld "params" (J_Array [J_Object po]);
                                 fld "body" (J_Object bo); fld "generator" (J_Bool false)]);
          fld "computed" (J_Bool false); fld "method" (J_Bool false); fld "shorthand" (J_Bool false)].
      { constructor; [exact Mp|constructor]. }
      eapply (Es_set _ _ _ _ _ _ None _ false); try hh.
      * eapply key_at_make; [apply has_lookup; reflexivity|exact Ek].
      * intros _. repeat split; apply has_lookup; reflexivity.
      * eapply (Es_fun _ _ _ _ _ _ (J_Bool false) [J_Object po] bo);
        first [hh | (left; reflexivity) | (intros _; reflexivity) | (intros _; exact Tb) | idtac].
        apply EPs. constructor; [|constructor]. now constructor.
  - destruct K as (K & _). destruct f as [l i ps b g]. destruct K as (-> & (ko & Mk & Ek) & js & bo & Mj & Hps & Mb & Tb & Hb).
    gv [ty "Property"; fld "key" (J_Object ko); fld "kind" (J_String (lit "init"));
          fld "value" (J_Object [ty "FunctionExpression"; fld "id" J_Null; fld "params" (J_Array js);
                                 fld "body" (J_Object bo); fld "generator" (J_Bool g)]);
          fld "computed" (J_Bool false); fld "method" (J_Bool true); fld "shorthand" (J_Bool false)].
    eapply Es_method; try hh.
    + eapply key_at_make; [apply has_lookup; reflexivity|exact Ek].
    + eapply (Es_fun _ _ _ _ _ _ (J_Bool g) js bo);
        first [hh | (left; reflexivity) | (intros _; reflexivity) | (intros _; exact Tb)].
  - destruct K as ((o & M & E) & _). now apply (short_make i o).
Qed.

Lemma make_target t : expressible_at (N_target t) -> Forall made (target_children t) -> made (N_target t).
Proof.
  intros (L & _) K. cbn in L. change (made (N_expr (target_expr t))). apply make_expr.
  - destruct t; cbn in L; subst; unfold expressible_at; cbn; repeat split; auto; intros; discriminate.
  - destruct t; exact K.
Qed.
Lemma at_untracked e : node_loc (N_expr e) = None ->
  match e with E_New _ _ _ | E_String _ _ | E_Number _ _ => False | _ => True end -> expressible_at (N_expr e).
Proof.
  intros H X. unfold expressible_at. split; [exact H|]. split; [intros s E; discriminate E|]. destruct e; tauto.
Qed.
Lemma make_tpatt p : expressible_at (N_tpatt p) -> also std (plain_patt p) ->
  Forall made (children (N_tpatt p)) -> made (N_tpatt p).
Proof.
  intros (L & _) PP K. cbn in L. destruct p as [t|[l es r|l ps]]; cbn [children patt_children] in K; cbn in L.
  - inversion K; subst. cbn [made]. split; [constructor|]. split; [exact PP|assumption].
  - subst. apply Forall_app in K as (K1 & K2). assert (J1 := made_holes _ _ K1). assert (J2 := made_opt _ _ K2).
    cbn [made]. split; [|split; [exact PP|]].
    + constructor; [intros p Hp; apply (J1 p Hp)|]. intros x ->. destruct (J2 x eq_refl) as (A & B & _). now split.
    + apply make_expr; [apply at_untracked; [reflexivity|exact Logic.I]|].
      cbn [expr_children cpatt_expr patt_expr patt_expr_of]. apply Forall_forall. intros c Hc.
      unfold of_holes in Hc. apply in_flat_map in Hc as (x & Hx & Hc). apply in_app_or in Hx as [Hx|Hx].
      * apply in_map_iff in Hx as (y & <- & Hy). destruct y as [y|]; [|destruct Hc]. destruct Hc as [<-|[]].
        destruct (J1 y Hy) as (_ & _ & o & M & E). exists o. split; [exact M|]. now apply Es_item.
      * destruct r as [r|]; [|destruct Hx]. destruct Hx as [<-|[]]. destruct Hc as [<-|[]].
        destruct (J2 r eq_refl) as (A & _ & B). destruct r as [rl rp]. cbn in A. subst rl. now apply spread_make.
  - subst. assert (J := made_list _ _ K). cbn [made]. split; [|split; [exact PP|]].
    + constructor. intros l' k q Hq. apply (J _ Hq).
    + apply make_expr; [apply at_untracked; [reflexivity|exact Logic.I]|].
      cbn [expr_children cpatt_expr patt_expr patt_expr_of]. apply Forall_forall. intros c Hc.
      unfold of_list in Hc. apply in_map_iff in Hc as (x & <- & Hx). apply in_map_iff in Hx as (y & <- & Hy).
      specialize (J y Hy). destruct y as [l' k q|i].
      * destruct J as (-> & _ & J). exact J.
      * exact J.
Qed.

Lemma body_make b : expressible_at (N_body b) -> Forall made (children (N_body b)) -> made (N_body b).
Proof.
  destruct b as [l ds is]. intros (L & _ & N) K t. cbn in L, N, K. subst.
  apply Forall_app in K as (K1 & K2). assert (J1 := made_list _ _ K1). assert (J2 := made_list _ _ K2).
  set (front := map (fun d => I_Stmt (S_Expr (dir_loc d) (E_String None (dir_string d)) (dir_semi d))) ds).
  destruct (elems_make N_item (front ++ is)) as (js & Mj & Ej).
  { intros i Hi. apply in_app_or in Hi as [Hi|Hi]; [|exact (J2 i Hi)].
    apply in_map_iff in Hi as (d & <- & Hd). exact (J1 d Hd). }
  gv [ty t; fld "body" (J_Array js)]. split; [hh|].
  eapply Es_body; [eapply list_make; [apply has_lookup; reflexivity|exact Ej]|].
  apply (SP _ front is); [reflexivity| |exact N]. unfold front.
  clear. induction ds as [|d ds IH]; cbn; constructor; auto. now exists None.
Qed.
Lemma params_make ps : expressible_at (N_params ps) -> Forall made (children (N_params ps)) -> made (N_params ps).
Proof.
  destruct ps as [l ps r]. intros (L & _) K. cbn in L, K. subst. apply Forall_app in K as (K1 & K2).
  assert (J1 := made_list _ _ K1). assert (J2 := made_opt _ _ K2).
  assert (X : exists js, Forall mjson js /\ Forall2 est_param js ps).
  { clear - J1. induction ps as [|p ps IH]; [exists []; split; constructor|].
    destruct IH as (js & Mj & F); [intros; apply J1; now right|].
    destruct (J1 p (or_introl eq_refl)) as (i & o & -> & M & E).
    exists (J_Object o :: js). split; constructor; auto. now constructor. }
  destruct X as (js & Mj & F). destruct r as [r|].
  - destruct (J2 r eq_refl) as (i & o & -> & M & E).
    exists (js ++ [J_Object [ty "RestElement"; fld "argument" (J_Object o)]]). split.
    + apply Forall_app. split; [exact Mj|]. constructor; [unfold ty, fld; mach|constructor].
    + apply EPs_rest; [exact F|hh|hh].
  - exists js. split; [exact Mj|now constructor].
Qed.

Definition ready (n : node) : Prop :=
  expressible_at n /\ forall p, n = N_tpatt p -> also std (plain_patt p).

Lemma make_step n : ready n -> Forall made (children n) -> made n.
Proof.
  intros [A PP] K. destruct n; try exact Logic.I.
  - now apply make_expr.
  - destruct A as (L & _). destruct e as [e|l e]; cbn in L, K; kids K; destruct K as (K & _).
    + destruct K as (o & M & E). exists o. split; [exact M|now apply Es_item].
    + subst. now apply spread_make.
  - now apply make_prop.
  - destruct A as (L & _). destruct v as [e|l b|l p b]; cbn in L, K; kids K.
    + now destruct K as (K & _).
    + destruct K as (K & _). split; [exact L|]. apply K.
    + destruct K as ((i & ob & -> & M & E) & Kb & _). split; [exact L|].
      destruct (Kb "BlockStatement"%string) as (o & Mo & To & Eo). exists i, ob, o. now repeat split.
  - now apply make_target.
  - now apply make_stmt.
  - destruct A as (L & _). destruct b as [l is]. cbn in L, K. subst.
    destruct (elems_make N_item is (made_list _ _ K)) as (js & Mj & Ej).
    gv [ty "BlockStatement"; fld "body" (J_Array js)]. apply Es_blk; hh.
  - (* for head *) destruct A as (L & _). destruct h as [l ds|l ds|l cs|l e]; cbn in L, K; subst.
    + destruct (elems_make N_dtor ds (made_list _ _ K)) as (js & Mj & Ej).
      destruct (decl_make "var" js Mj) as (o & M & T & Hk & Hd). exists o. split; [exact M|].
      apply Es_head_var; auto. now apply (list_make _ _ js).
    + destruct (elems_make N_dtor ds (made_list _ _ K)) as (js & Mj & Ej).
      destruct (decl_make "let" js Mj) as (o & M & T & Hk & Hd). exists o. split; [exact M|].
      apply Es_head_let; auto. now apply (list_make _ _ js).
    + destruct (consts_list cs K) as (js & ds & Mj & Ej & F).
      destruct (decl_make "const" js Mj) as (o & M & T & Hk & Hd). exists o. split; [exact M|].
      apply (Es_head_const _ _ ds); auto. now apply (list_make _ _ js).
    + kids K. destruct K as ((o & M & E) & _). exists o. split; [exact M|now apply Es_head_expr].
  - (* for in head *) destruct A as (L & _).
    assert (Simp : forall k hd i x, In (k, hd) [("var", FI_Var); ("let", FI_Let); ("const", FI_Const)]%string ->
      machine x -> est_id x i -> exists o, machine o /\ est std o (N_fi (hd None (Simple i)))).
    { intros k hd i x Hin M E.
      destruct (dtor_make i x J_Null None M E mj_null (fun o k Hk => EOpt_none _ _ _ Hk)) as (d & Md & Ed).
      destruct (decl_make k [J_Object d]) as (o & Mo & T & Hk & Hd); [constructor; [exact Md|constructor]|].
      exists o. split; [exact Mo|]. eapply Es_in; eauto. apply (list_make _ _ [J_Object d]); [exact Hd|].
      now apply elems_one. }
    destruct h as [l i e|l p|l p|l p|p]; cbn in L, K; subst; kids K.
    + destruct K as ((x & M & E) & (y & My & Ey) & _).
      destruct (opt_make N_expr (Some e)) as (v & Mv & Hv); [intros a X; injection X as <-; eauto|].
      destruct (dtor_make i x v (Some e) M E Mv Hv) as (d & Md & Ed).
      destruct (decl_make "var" [J_Object d]) as (o & Mo & T & Hk & Hd); [constructor; [exact Md|constructor]|].
      exists o. split; [exact Mo|]. eapply Es_in_var; eauto. apply (list_make _ _ [J_Object d]); [exact Hd|].
      now apply elems_one.
    + destruct K as ((i & x & -> & M & E) & _). apply (Simp "var"%string FI_Var i x); cbn; auto.
    + destruct K as ((i & x & -> & M & E) & _). apply (Simp "let"%string FI_Let i x); cbn; auto.
    + destruct K as ((i & x & -> & M & E) & _). apply (Simp "const"%string FI_Const i x); cbn; auto.
    + destruct K as ((U & PL & x & M & E) & _). exists x. split; [exact M|]. eapply Es_in_patt; eauto.
  - (* for of head *) destruct A as (L & _).
    assert (Simp : forall k hd i x, In (k, hd) [("var", FO_Var); ("let", FO_Let); ("const", FO_Const)]%string ->
      machine x -> est_id x i -> exists o, machine o /\ est std o (N_fo (hd None (Simple i)))).
    { intros k hd i x Hin M E.
      destruct (decl_make k [J_Object [ty "VariableDeclarator"; fld "id" (J_Object x); fld "init" J_Null]])
        as (o & Mo & T & Hk & Hd); [constructor; [unfold ty, fld; mach|constructor]|].
      exists o. split; [exact Mo|]. eapply Es_of; try eassumption; try hh. }
    destruct h as [l p|l p|l p|p]; cbn in L, K; subst; kids K.
    + destruct K as ((i & x & -> & M & E) & _). apply (Simp "var"%string FO_Var i x); cbn; auto.
    + destruct K as ((i & x & -> & M & E) & _). apply (Simp "let"%string FO_Let i x); cbn; auto.
    + destruct K as ((i & x & -> & M & E) & _). apply (Simp "const"%string FO_Const i x); cbn; auto.
    + destruct K as ((U & PL & x & M & E) & _). exists x. split; [exact M|]. eapply Es_of_patt; eauto.
  - (* catch *) destruct A as (L & _). destruct c as [l p b]. cbn in L, K. subst. kids K.
    destruct K as ((i & x & -> & M & E) & (bb & Mb & Eb) & _).
    gv [ty "CatchClause"; fld "param" (J_Object x); fld "body" (J_Object bb)]. apply Es_catch; hh.
  - (* case *) destruct A as (L & _). destruct c as [l e b]. cbn in L, K. subst. apply Forall_app in K as (K1 & K2).
    destruct (opt_make N_expr e (made_opt _ _ K1)) as (v & Mv & Hv).
    destruct (elems_make N_item b (made_list _ _ K2)) as (js & Mj & Ej).
    gv [ty "SwitchCase"; fld "test" v; fld "consequent" (J_Array js)]. apply Es_case; hh.
  - destruct i as [d|s]; cbn in K; kids K; destruct K as ((o & M & E) & _); exists o; (split; [exact M|]).
    + now apply Es_decl_item.
    + now apply Es_stmt_item.
  - (* decl *) destruct A as (L & S & _). destruct d as [f|l ds s|l cs s]; cbn in L, K, S.
    + kids K. destruct K as (K & _). destruct f as [l i ps b g].
      destruct K as (-> & (x & M & E) & js & bo & Mj & Hps & Mb & Tb & Hb).
      gv [ty "FunctionDeclaration"; fld "id" (J_Object x); fld "params" (J_Array js);
          fld "body" (J_Object bo); fld "generator" (J_Bool g)].
      eapply Es_fundecl; try hh.
      eapply (Es_fun _ _ _ _ _ _ (J_Bool g) js bo);
        first [hh | (left; reflexivity) | (intros _; reflexivity) | (intros _; exact Tb)].
    + rewrite (S _ eq_refl). subst. destruct (elems_make N_dtor ds (made_list _ _ K)) as (js & Mj & Ej).
      destruct (decl_make "let" js Mj) as (o & M & T & Hk & Hd). exists o. split; [exact M|].
      apply Es_let; auto. now apply (list_make _ _ js).
    + rewrite (S _ eq_refl). subst. destruct (consts_list cs K) as (js & ds & Mj & Ej & F).
      destruct (decl_make "const" js Mj) as (o & M & T & Hk & Hd). exists o. split; [exact M|].
      apply (Es_const _ _ ds); auto. now apply (list_make _ _ js).
  - (* dtor *) destruct A as (L & _ & X). destruct d as [l i e|l p e]; [|destruct X]. cbn in L, K. subst. kids K.
    destruct K as ((x & M & E) & K). destruct (opt_make N_expr e (made_opt _ _ K)) as (v & Mv & Hv).
    now apply (dtor_make i x v).
  - (* const *) destruct A as (L & _). destruct d as [l p e]. cbn in L, K. subst. kids K.
    destruct K as ((i & x & -> & M & E) & (y & My & Ey) & _). split; [reflexivity|].
    destruct (opt_make N_expr (Some e)) as (v & Mv & Hv); [intros a X; injection X as <-; eauto|].
    destruct (dtor_make i x v (Some e) M E Mv Hv) as (d & Md & Ed). exists i, d. now repeat split.
  - destruct A as (L & _). destruct f as [l i ps b g]. cbn in L, K. unfold func_children in K. cbn in K.
    apply Forall_app in K as (K1 & K2). rewrite !Forall_cons_iff in K2. destruct K2 as ((js & Mj & Ej) & Kb & _).
    destruct (Kb "BlockStatement"%string) as (o & Mo & To & Eo). split; [exact L|].
    split; [apply id_opt_make; exact (made_opt _ _ K1)|]. exists js, o. now repeat split.
  - destruct A as (L & _). destruct f as [l i ps b g]. cbn in L, K. kids K.
    destruct K as (Kk & (js & Mj & Ej) & Kb & _).
    destruct (Kb "BlockStatement"%string) as (o & Mo & To & Eo). split; [exact L|].
    split; [exact Kk|]. exists js, o. now repeat split.
  - destruct A as (L & _). destruct f as [l i ps b g]. cbn in L, K. kids K.
    destruct K as (Kk & (js & Mj & Ej) & Kb & _).
    destruct (Kb "BlockStatement"%string) as (o & Mo & To & Eo). split; [exact L|].
    split; [exact Kk|]. exists js, o. now repeat split.
  - now apply body_make.
  - apply make_tpatt; auto.
  - destruct A as (L & _). cbn in L, K. kids K. destruct K as ((U & _ & K) & _). now repeat split.
  - destruct A as (L & _). destruct p as [l k q|i]; cbn in L, K; kids K.
    + destruct K as (Kk & (U & _ & K) & _). split; [exact L|]. split; [exact U|]. now apply init_make.
    + destruct K as ((o & M & E) & _). now apply (short_make i o).
  - destruct A as (_ & _ & X). destruct p as [i|c]; [|destruct X]. cbn in K. kids K.
    destruct K as ((o & M & E) & _). exists i, o. now repeat split.
  - destruct A as (L & _). destruct r as [l p]. cbn in L, K. subst. kids K.
    destruct K as ((i & o & -> & M & E) & _). exists i, o. now repeat split.
  - now apply params_make.
  - (* directive *) destruct A as (L & S & X). cbn in L, S, X. destruct d as [l [src v] sm]. cbn in *. subst.
    rewrite (S _ eq_refl). cbn [made dir_loc dir_string dir_semi].
    gv [ty "ExpressionStatement"; fld "expression" (J_Object [ty "Literal"; fld "value" (J_String v)])].
    apply Es_stmt_item, Es_expr; [hh|]. eapply at_make; [apply has_lookup; reflexivity|].
    apply Es_literal; [hh|]. apply EV_string. hh.
  - (* id *) destruct A as (L & _ & X). destruct i as [l nm]. cbn in L, X. subst.
    gv [ty "Identifier"; fld "name" (J_String (name_string nm))]. rewrite X. constructor; [hh|].
    rewrite <- X. hh.
  - now destruct A as (L & _).
  - (* key *) destruct A as (L & _ & X). destruct k as [l s|l s|l nb]; cbn in L, X; subst.
    + gv [ty "Identifier"; fld "name" (J_String s)]. constructor; hh.
    + destruct s as [src v]. cbn in X. subst. gv [ty "Literal"; fld "value" (J_String v)].
      eapply (EK_string _ _ "Literal"); try hh; [cbn; tauto|discriminate|]. apply EV_string. hh.
    + destruct (number_make nb X) as (v & Mv & Hv). gv [ty "Literal"; fld "value" v].
      eapply (EK_number _ _ "Literal"); try hh; [cbn; tauto|discriminate|]. apply Hv. hh.
  - now destruct A as (L & _).
  - now destruct A as (L & _).
  - now destruct A as (L & _).
  - now destruct A as (L & _).
Qed.

Theorem make n : expressible n -> also std (plain_assignments n) -> made n.
Proof.
  induction n as [n IH] using node_ind'. intros E PA. apply make_step.
  - split; [apply E; constructor|]. intros p -> H. apply (PA H). constructor.
  - apply Forall_forall. intros c Hc. apply expressible_iff in E as [_ E]. rewrite Forall_forall in E.
    apply (IH c Hc (E c Hc)). intros H p Hp. apply (PA H).
    clear - Hc Hp. induction Hp as [|m d Hm IHm Hd]; [apply (wi_step _ n); [constructor|exact Hc]|].
    apply (wi_step _ m); assumption.
Qed.
End Make.

Theorem has_encoding s : expressible (N_body s) -> plain_assignments (N_body s) ->
  exists o, machine o /\ encodes o s.
Proof.
  intros E PA. destruct (make true (N_body s) E (fun _ => PA) "Program"%string) as (o & M & T & H).
  exists o. now repeat split.
Qed.
Theorem has_accepted s : expressible (N_body s) -> exists o, machine o /\ taken_for o s.
Proof.
  intros E. destruct (make false (N_body s) E ltac:(intros X; discriminate X) "Program"%string) as (o & M & _ & H).
  exists o. now split.
Qed.
