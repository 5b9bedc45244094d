(** Completeness of the parser, part 2: what every derivation says about its tokens
    and its tree. *)
From Coq Require Import String Ascii List NArith Arith Bool Lia.
From Verif Require Import Base Word Token Punc Ast Track Cover Stack PState Parser SpecLexer SpecStack SpecTree
  CoverProofs SpecGrammar ParserWp ParserOps.
Import ListNotations.
Local Open Scope nat_scope.

(** ** Operators *)

Lemma unop_spelled t u : spelled t (unop_text u) -> token_unop t = Some u.
Proof.
  intros [(p & Hv & Hp & _)|(r & Hv & Hr)]; unfold token_unop; rewrite Hv.
  - destruct u; destruct p; try reflexivity; vm_compute in Hp; discriminate Hp.
  - destruct u; destruct r; try reflexivity; vm_compute in Hr; discriminate Hr.
Qed.
Lemma binop_spelled t u b : spelled t (binop_tag_text u) -> (binop_tag_text u = lit "in" -> b = true) ->
  td_binop (tk_value t) b = Some u.
Proof.
  intros [(p & Hv & Hp & _)|(r & Hv & Hr)] Hb; rewrite Hv.
  - destruct u; destruct p; try reflexivity; vm_compute in Hp; discriminate Hp.
  - destruct u; destruct r; try reflexivity; try (vm_compute in Hr; discriminate Hr).
    cbn. rewrite (Hb eq_refl). reflexivity.
Qed.
Lemma logop_spelled t u b : spelled t (logop_tag_text u) ->
  td_binop (tk_value t) b = None /\ td_logop (tk_value t) = Some u.
Proof.
  intros [(p & Hv & Hp & _)|(r & Hv & Hr)]; rewrite Hv.
  - destruct u; destruct p; try (split; reflexivity); vm_compute in Hp; discriminate Hp.
  - destruct u; destruct r; vm_compute in Hr; discriminate Hr.
Qed.
Lemma assop_spelled t u : spelled t (assop_tag_text u) ->
  td_assop (tk_value t) = Some u /\ tk_value t <> TPunc T_Assign.
Proof.
  intros [(p & Hv & Hp & _)|(r & Hv & Hr)]; rewrite Hv.
  - destruct u; destruct p; try (split; [reflexivity|discriminate]); vm_compute in Hp; discriminate Hp.
  - destruct u; destruct r; vm_compute in Hr; discriminate Hr.
Qed.
Lemma infix_spelled b t op : infix_tok b t op -> token_infix t b = Some op.
Proof.
  intros (Hs & Hb & Hl). unfold token_infix, to_binop, to_logop, mk_op.
  destruct op as [[l tag]|[l tag]]; cbn in *.
  - rewrite (binop_spelled t tag b Hs Hb). subst l. reflexivity.
  - destruct (logop_spelled t tag b Hs) as [-> ->]. subst l. reflexivity.
Qed.
Lemma infix_none b t : (forall op, ~ infix_tok b t op) -> token_infix t b = None.
Proof.
  intros H. destruct (token_infix t b) as [o|] eqn:E; [|reflexivity].
  exfalso. exact (H o (token_infix_some _ _ _ E)).
Qed.
Lemma assop_some t a : spelled t (assop_tag_text a) ->
  is_t t (TPunc T_Assign) = false /\ to_assop t = Some (Op (Some (tk_loc t)) a).
Proof.
  intros H. destruct (assop_spelled t a H) as [H1 H2]. split.
  - destruct (is_t t (TPunc T_Assign)) eqn:E; [|reflexivity]. apply is_t_true in E; [contradiction|exact I].
  - unfold to_assop, mk_op. rewrite H1. reflexivity.
Qed.
Lemma assop_none t : ~ assign_op t -> is_t t (TPunc T_Assign) = false /\ to_assop t = None.
Proof.
  intros H. split.
  - destruct (is_t t (TPunc T_Assign)) eqn:E; [|reflexivity]. apply is_t_true in E; [|exact I].
    exfalso. apply H. left. exact E.
  - destruct (to_assop t) as [o|] eqn:E; [|reflexivity]. exfalso. apply H. right.
    exists (op_tag o). apply (to_assop_some _ _ E).
Qed.

(** ** First tokens *)

Definition lhs_first (v : token_data) : bool :=
  match v with
  | TIdent _ | TNumber _ | TString _ | TRegExp _ => true
  | TReserved (R_Null | R_This | R_True | R_False | R_Function | R_New) => true
  | TPunc (T_LBrack | T_LBrace | T_LParen) => true
  | _ => false
  end.
Definition prim_first (v : token_data) : bool := lhs_first v && negb (td_eqb v (TReserved R_New)).
Definition expr_first (v : token_data) : bool :=
  lhs_first v
  || match v with
     | TReserved (R_Delete | R_Void | R_Typeof) => true
     | TPunc (T_Plus | T_Minus | T_Tilde | T_Bang | T_Inc | T_Dec) => true
     | _ => false
     end.
Definition item_first (v : token_data) : bool :=
  expr_first v
  || match v with
     | TReserved (R_Var | R_Const | R_If | R_Continue | R_Break | R_Return | R_With | R_Switch | R_Throw
                 | R_Try | R_While | R_Do | R_For | R_Debugger) => true
     | TPunc T_Semi => true
     | _ => false
     end.
Definition is_ident_td (v : token_data) : bool := match v with TIdent _ => true | _ => false end.
Definition key_first (v : token_data) : bool :=
  match v with TIdent _ | TReserved _ | TString _ | TNumber _ => true | _ => false end.

(** What the first token of a derivation can be; [None] when it may be empty. *)
Fixpoint fst_ok {A} (n : nt A) : option (token_data -> bool) :=
  match n with
  | Commas n' => fst_ok n'
  | CommaList _ | ParamList | Directives | Items | Script | Elements | Cases => None
  | Name_ _ | Pattern | Declarator | ConstDeclarator => Some is_ident_td
  | Parameters | FunctionRest | Arguments => Some (fun v => td_eqb v (TPunc T_LParen))
  | Directive => Some (fun v => match v with TString _ => true | _ => false end)
  | FunctionBody | BlockOf => Some (fun v => td_eqb v (TPunc T_LBrace))
  | FunctionExpr | FunctionDecl => Some (fun v => td_eqb v (TReserved R_Function))
  | ListItem => Some (fun v => expr_first v || td_eqb v (TPunc T_Ellipsis))
  | Key => Some key_first
  | DotName => Some key_first
  | Property => Some (fun v => key_first v || td_eqb v (TPunc T_Star))
  | Primary => Some prim_first
  | Base_ | Member | NewArgs | NewBare | Lhs | Postfix => Some lhs_first
  | Unary | Infix _ | Conditional | Assignment | Expression => Some expr_first
  | ForRest => Some (fun v => expr_first v || td_eqb v (TPunc T_Semi))
  | Catch_ => Some (fun v => td_eqb v (TReserved R_Catch))
  | Case_ => Some (fun v => td_eqb v (TReserved R_Case) || td_eqb v (TReserved R_Default))
  | Statement | Declaration | Item _ => Some item_first
  end.

Definition begins (f : option (token_data -> bool)) (i : tokens) : Prop :=
  match f with None => True | Some p => next (fun t => p (tk_value t) = true) i end.

Lemma lhs_expr v : lhs_first v = true -> expr_first v = true.
Proof. unfold expr_first. intros ->. reflexivity. Qed.
Lemma prim_lhs v : prim_first v = true -> lhs_first v = true.
Proof. unfold prim_first. destruct (lhs_first v); [reflexivity|discriminate]. Qed.
Lemma expr_item v : expr_first v = true -> item_first v = true.
Proof. unfold item_first. intros ->. reflexivity. Qed.
Lemma begins_imp (p q : token_data -> bool) i : (forall v, p v = true -> q v = true) ->
  begins (Some p) i -> begins (Some q) i.
Proof. intros H (t & o & -> & E). exists t, o. split; [reflexivity|apply H, E]. Qed.
Lemma begins_eat p d i o : eat d i o -> p d = true -> begins (Some p) i.
Proof. intros (t & -> & E) H. exists t, o. split; [reflexivity|]. rewrite E. exact H. Qed.

Lemma unop_first t u : spelled t (unop_text u) -> expr_first (tk_value t) = true.
Proof.
  intros H. apply unop_spelled in H. unfold token_unop in H.
  destruct (tk_value t) as [r|p| | | |]; try discriminate; [destruct r|destruct p]; try discriminate; reflexivity.
Qed.

Ltac nxt t := exists t; eexists; split; [reflexivity|].
Lemma G_first x A g (n : nt A) i o a : GX x g n i o a -> begins (fst_ok n) i.
Proof.
  induction 1; cbn [fst_ok begins] in *; try exact I; try assumption;
    repeat match goal with
           | H : op_ _ _ _ |- _ => unfold op_ in H
           | H : kw _ _ _ |- _ => unfold kw in H
           end;
    try solve [ eapply begins_imp; [|eassumption]; first [exact prim_lhs|exact lhs_expr|exact expr_item] ];
    try solve [ match goal with |- next _ ?i => match goal with H : eat ?d i ?o |- _ =>
        let t := fresh in let E := fresh in destruct H as (t & -> & E); nxt t; cbn beta; rewrite E; reflexivity end end ];
    try solve [ match goal with E : tk_value ?t = _ |- next _ (?t :: _) => nxt t; cbn beta; rewrite E; reflexivity end ];
    try solve [ match goal with H : next ?p ?i |- next ?q ?i =>
        let t := fresh in let E := fresh in
        destruct H as (t & ? & -> & E); nxt t; cbn beta in *;
        destruct (tk_value t) as [[]|[]| | | |]; try discriminate E; reflexivity end ].
  - match goal with H : spelled ?t _ |- _ => nxt t; eapply unop_first, H end.
Qed.

(** ** Length *)

Definition solid {A} (n : nt A) : nat := match fst_ok n with Some _ => 1 | None => 0 end.
Lemma W_eat d i o : eat d i o -> d <> TPunc T_EOF -> W i = S (W o).
Proof. intros (t & -> & E) H. cbn [W]. rewrite not_eof; [lia|congruence]. Qed.
Lemma W_cons t o : W o <= W (t :: o).
Proof. cbn [W]. lia. Qed.
Lemma W_cons1 t o : tk_value t <> TPunc T_EOF -> W (t :: o) = S (W o).
Proof. intros H. cbn [W]. rewrite not_eof; [lia|exact H]. Qed.
Lemma W_ends lax i o sm : ends lax i o sm -> W o <= W i.
Proof. intros []; [apply W_cons|lia]. Qed.
Lemma spelled_not_eof t w : spelled t w -> w <> [] -> tk_value t <> TPunc T_EOF.
Proof.
  intros [(p & E & Hp & Hw)|(r & E & Hr)] Hn; rewrite E; [|discriminate].
  intros H. injection H as ->. apply Hw. subst w. reflexivity.
Qed.
Lemma unop_text_ne u : unop_text u <> [].
Proof. destruct u; discriminate. Qed.
Lemma infix_text_ne u : infix_text u <> [].
Proof. destruct u as [[l []]|[l []]]; discriminate. Qed.

Lemma G_W x A g (n : nt A) i o a : GX x g n i o a -> solid n + W o <= W i.
Proof.
  induction 1; unfold solid in *; cbn [fst_ok] in *;
    repeat match goal with
           | H : op_ _ _ _ |- _ => apply W_eat in H; [|discriminate]
           | H : kw _ _ _ |- _ => apply W_eat in H; [|discriminate]
           | H : eat (TIdent _) _ _ |- _ => apply W_eat in H; [|discriminate]
           | H : eat (TString _) _ _ |- _ => apply W_eat in H; [|discriminate]
           | H : ends _ _ _ _ |- _ => apply W_ends in H
           | H : tk_value ?t = ?v |- context [W (?t :: ?o)] =>
               lazymatch goal with
               | _ : W (t :: o) = _ |- _ => fail
               | _ => let E := fresh in assert (E : W (t :: o) = S (W o)) by (apply W_cons1; rewrite H; discriminate)
               end
           | H : spelled ?t ?w |- context [W (?t :: ?o)] =>
               lazymatch goal with
               | _ : W (t :: o) = _ |- _ => fail
               | _ => let E := fresh in assert (E : W (t :: o) = S (W o))
                        by (apply W_cons1; eapply spelled_not_eof; [exact H|first [apply unop_text_ne|apply assop_text_ne]])
               end
           end; try lia.
  all: repeat match goal with
       | H : context [W (?t :: ?o)] |- _ =>
           lazymatch goal with
           | _ : W o <= W (t :: o) |- _ => fail
           | _ => pose proof (W_cons t o)
           end
       end.
  all: try lia.
  all: match goal with H : eat _ _ _ |- _ => destruct H as (? & -> & _) end.
  all: match goal with H : context [W (?t :: ?o)] |- _ => pose proof (W_cons t o); lia end.
Qed.

(** ** The token after an identifier that begins an expression *)

Definition identt (t : token) : Prop := exists n, tk_value t = TIdent n.
Definition calm (x : bool) (t : token) : Prop := (x = true -> ~ regexp t) /\ tk_value t <> TPunc T_Colon.

Definition second1 (x : bool) (i o : tokens) : Prop :=
  forall t i', i = t :: i' -> identt t -> i' = o \/ next (calm x) i'.
Definition second2 (x : bool) (i o : tokens) : Prop :=
  second1 x i o /\ (x = true -> forall t i', i = t :: i' -> identt t -> next (fun t' => ~ regexp t') i').
Definition second_ok (x : bool) {A} (n : nt A) (i o : tokens) : Prop :=
  match n with
  | Primary | Base_ | Member | NewArgs | NewBare | Lhs => second1 x i o
  | Postfix | Unary | Infix _ | Conditional | Assignment | Expression => second2 x i o
  | _ => True
  end.

Lemma second_not x p i o : next (fun t => p (tk_value t) = true) i -> (forall n, p (TIdent n) = false) -> second1 x i o.
Proof.
  intros (t & i' & -> & H) Hp t0 i0 E (n & Hn). assert (t0 = t) by congruence. subst t0.
  rewrite Hn, Hp in H. discriminate.
Qed.
Lemma second_eat x d i i1 o : eat d i i1 -> (forall n, d <> TIdent n) -> second1 x i o.
Proof.
  intros (t & -> & H) Hp t0 i0 E (n & Hn). assert (t0 = t) by congruence. subst t0.
  exfalso. apply (Hp n). congruence.
Qed.
Lemma second_step x i i1 o d i2 : second1 x i i1 -> eat d i1 i2 -> d <> TPunc T_Colon -> (forall r, d <> TRegExp r) ->
  second1 x i o.
Proof.
  intros H (t & -> & E) H1 H2 t0 i0 Ei Hi. right. destruct (H t0 i0 Ei Hi) as [->|H3]; [|exact H3].
  exists t, i2. split; [reflexivity|]. split; [|congruence]. intros _ (r & Hr). apply (H2 r). congruence.
Qed.
Lemma second_next x i o (P : token -> Prop) : second1 x i o -> next P o -> (forall t, P t -> calm x t) -> forall o', second1 x i o'.
Proof.
  intros H (t & i2 & -> & Ht) HP o' t0 i0 Ei Hi. right. destruct (H t0 i0 Ei Hi) as [->|H3]; [|exact H3].
  exists t, i2. split; [reflexivity|]. apply HP, Ht.
Qed.
Lemma second_here x t o : second1 x (t :: o) o.
Proof. intros t0 i' E _. left. congruence. Qed.
Lemma second_vac x i o : (forall t i', i = t :: i' -> ~ identt t) -> second1 x i o /\ second2 x i o.
Proof.
  intros H. split; [|split]; intros; try (intros ? ? ? ?); exfalso; eapply H; eassumption.
Qed.
Lemma spelled_calm x t w : spelled t w -> w <> lit ":" -> calm x t /\ ~ identt t /\ ~ regexp t.
Proof.
  unfold calm, identt, regexp.
  intros [(p & E & Hp & _)|(r & E & Hr)] Hw; rewrite E;
    (split; [split; [intros _ (? & Hx); discriminate|]|split; intros (? & Hx); discriminate]); [|discriminate].
  intros H. injection H as ->. apply Hw. symmetry. exact Hp.
Qed.
Lemma unop_text_colon u : unop_text u <> lit ":".
Proof. destruct u; discriminate. Qed.
Lemma infix_text_colon u : infix_text u <> lit ":".
Proof. destruct u as [[l []]|[l []]]; discriminate. Qed.
Lemma assop_text_colon u : assop_tag_text u <> lit ":".
Proof. destruct u; discriminate. Qed.

Lemma second2_up x i o i1 : second2 x i o -> second1 x i i1 -> second2 x i i1.
Proof. intros [_ H] H1. split; assumption. Qed.

Lemma G_second x A g (n : nt A) i o a : GX x g n i o a -> second_ok x n i o.
Proof.
  induction 1; cbn [second_ok] in *; try exact I; try assumption;
    try (match goal with H : GX _ _ (Name_ _) _ _ _ |- _ => idtac end);
    try solve [apply second_here];
    try solve [eapply second_eat; [eassumption|discriminate]];
    try solve [eapply second_step; [eassumption|eassumption|discriminate|discriminate]];
    try solve [eapply second2_up; [eassumption|eapply second_step; [match goal with H : second2 _ _ _ |- _ => apply H end|eassumption|discriminate|discriminate]]];
    try solve [match goal with H : tk_value ?t = _ |- second_ok _ _ (?t :: _) _ =>
                 apply second_vac; intros ? ? E (? & Hx); congruence end].
  - (* id *) match goal with H : GX _ _ (Name_ _) _ _ _ |- _ => apply G_first in H as G1 end.
    match goal with H : GX ?x ?g (Name_ ?b) ?i ?o ?a |- _ =>
      enough (Hq : exists t, i = t :: o) by (destruct Hq as (? & ->); apply second_here);
      change (match Name_ b in nt T return T -> Prop with Name_ _ => fun _ => exists t, i = t :: o | _ => fun _ => True end a);
      destruct H; try exact Logic.I
    end.
    eexists. reflexivity.
  - (* function *) match goal with H : GX _ _ FunctionExpr _ _ _ |- _ => apply G_first in H as G1 end.
    exact (second_not x (fun v => td_eqb v (TReserved R_Function)) i o G1 (fun _ => eq_refl)).
  - (* call *) match goal with H : GX _ _ Arguments _ _ _ |- _ => apply G_first in H as G1 end.
    eapply second_next; [eassumption|exact G1|]. intros t Ht. unfold calm, regexp.
    apply (is_t_true t (TPunc T_LParen) Logic.I) in Ht. rewrite Ht.
    split; [intros _ (? & ?)|]; discriminate.
  - (* postfix *) split; [assumption|]. intros Hx t i' E Hi.
    match goal with H : second1 _ _ _ |- _ => destruct (H t i' E Hi) as [->|(t' & i2 & -> & Hc & _)] end; [auto|].
    exists t', i2. split; [reflexivity|]. exact (Hc Hx).
  - assert (Hs : forall o', second1 x i o').
    { eapply (second_next x i (t :: o) (fun t' => t' = t)); [eassumption|exists t, o; auto|].
      intros t0 ->. split; [intros _ (r & Hr)|]; congruence. }
    split; [apply Hs|]. intros Hx t0 i' E Hi. destruct (IHGX t0 i' E Hi) as [->|(t' & i2 & -> & Hc & _)].
    + exists t, o. split; [reflexivity|]. intros (r & Hr). congruence.
    + exists t', i2. split; [reflexivity|]. exact (Hc Hx).
  - assert (Hs : forall o', second1 x i o').
    { eapply (second_next x i (t :: o) (fun t' => t' = t)); [eassumption|exists t, o; auto|].
      intros t0 ->. split; [intros _ (r & Hr)|]; congruence. }
    split; [apply Hs|]. intros Hx t0 i' E Hi. destruct (IHGX t0 i' E Hi) as [->|(t' & i2 & -> & Hc & _)].
    + exists t, o. split; [reflexivity|]. intros (r & Hr). congruence.
    + exists t', i2. split; [reflexivity|]. exact (Hc Hx).
  - (* unary op *) apply second_vac. intros t0 i' E Hi. assert (t0 = t) by congruence. subst t0.
    destruct (spelled_calm x t _ H (unop_text_colon u)) as (_ & Hni & _). exact (Hni Hi).
  - apply second_vac. intros t0 i' E (? & Hi). congruence.
  - apply second_vac. intros t0 i' E (? & Hi). congruence.
  - (* infix *) eapply second2_up; [eassumption|]. destruct IHGX1 as [IH _].
    eapply (second_next x i (t :: i1) (fun t' => t' = t)); [exact IH|exists t, i1; auto|]. intros ? ->.
    destruct H0 as [Hs _]. apply (spelled_calm x t _ Hs (infix_text_colon op)).
  - (* assign op *) eapply second2_up; [eassumption|]. destruct IHGX1 as [IH _].
    eapply (second_next x i (t :: i1) (fun t' => t' = t)); [exact IH|exists t, i1; auto|]. intros ? ->.
    apply (spelled_calm x t _ H0 (assop_text_colon a)).
Qed.

(** ** Statements *)

(** How a statement without label starts: what decides the kind of its labels, and
    what keeps its first token from being read as a label. *)
Definition head_ok (i : tokens) (b : stmt) : Prop :=
  match b with
  | S_Label _ _ _ => True
  | _ => exists t i', i = t :: i'
           /\ token_label_type t = (if is_loop b then LT_Iteration else LT_Statement)
           /\ (forall n, tk_value t = TIdent n -> next (fun t' => ~ regexp t' /\ tk_value t' <> TPunc T_Colon) i')
  end.
Lemma head_eat d i i1 b : eat d i i1 -> (forall n, d <> TIdent n) ->
  match d with TReserved R_Do | TReserved R_While | TReserved R_For => is_loop b = true | _ => is_loop b = false end ->
  head_ok i b.
Proof.
  intros (t & -> & E) H1 H2.
  assert (Hx : exists t0 i', t :: i1 = t0 :: i' /\ token_label_type t0 = (if is_loop b then LT_Iteration else LT_Statement)
     /\ (forall n, tk_value t0 = TIdent n -> next (fun t' => ~ regexp t' /\ tk_value t' <> TPunc T_Colon) i')).
  { exists t, i1. split; [reflexivity|]. split.
    - unfold token_label_type. rewrite E. destruct d as [[]|[]| | | |]; rewrite H2; reflexivity.
    - intros n Hn. exfalso. apply (H1 n). congruence. }
  destruct b; try exact Hx; exact Logic.I.
Qed.
Lemma ends_colon lax i o sm : ends lax i o sm -> next (fun t => tk_value t <> TPunc T_Colon) o ->
  next (fun t => tk_value t <> TPunc T_Colon) i.
Proof.
  intros [t o' E|t o' _ _]; [|auto]. intros _. exists t, o'. split; [reflexivity|]. congruence.
Qed.
Lemma head_expr g i i1 o e sm l : GX true (with_in true g) Expression i i1 e -> ends false i1 o sm ->
  next (fun t => tk_value t <> TPunc T_Colon) o -> head_ok i (S_Expr l e sm).
Proof.
  intros H He Ho. pose proof (G_first _ _ _ _ _ _ _ H) as (t & i' & Ei & Ht). cbn beta in Ht.
  destruct (G_second _ _ _ _ _ _ _ H) as [H1 H2]. exists t, i'. split; [exact Ei|]. split.
  - unfold token_label_type. destruct (tk_value t) as [[]| | | | |]; try reflexivity; discriminate Ht.
  - intros n Hn. specialize (H2 eq_refl t i' Ei (ex_intro _ n Hn)) as (t' & i2 & E2 & Hr).
    exists t', i2. split; [exact E2|]. split; [exact Hr|].
    destruct (H1 t i' Ei (ex_intro _ n Hn)) as [Hx|(t2 & i3 & E3 & _ & Hc)]; [|congruence].
    apply (ends_colon _ _ _ _ He) in Ho as (t2 & i3 & E3 & Hc). congruence.
Qed.
Lemma stmt_head g i o b : GX true g Statement i o b -> next (fun t => tk_value t <> TPunc T_Colon) o -> head_ok i b.
Proof.
  intros D. change (match Statement in nt T return T -> Prop with
    | Statement => fun b => next (fun t => tk_value t <> TPunc T_Colon) o -> head_ok i b
    | _ => fun _ => True end b).
  destruct D; try exact Logic.I; intros Ho; unfold op_, kw in *;
    try solve [eapply head_eat; [eassumption|discriminate|reflexivity]].
  - match goal with H : GX _ _ BlockOf _ _ _ |- _ => apply G_first in H as (t & i' & -> & Ht) end.
    apply (is_t_true t (TPunc T_LBrace) Logic.I) in Ht. eapply head_eat; [exists t; eauto|discriminate|reflexivity].
  - eapply head_expr; eassumption.
  - exact Logic.I.
Qed.

(** ** Patterns *)

Inductive rest_free : patt target -> Prop :=
| rf_simple : forall t, rest_free (Simple t)
| rf_arr : forall l es, (forall p, In (Some p) es -> rest_free p) -> rest_free (Compound (C_Arr l es None))
| rf_obj : forall l ps, (forall l' k q, In (PP_Regular l' k q) ps -> rest_free q) -> rest_free (Compound (C_Obj l ps)).

(** No spread without location where a pattern could have a rest. *)
Inductive nb : expr -> Prop :=
| nb_arr : forall l es, (forall e, In (Some (L_Expr e)) es -> nb e) ->
    (forall l' e, In (Some (L_Spread l' e)) es -> l' <> None) -> nb (E_Arr l es)
| nb_obj : forall l ps, (forall l' k e, In (Pr_Regular l' k (PV_Init e)) ps -> nb e) -> nb (E_Obj l ps)
| nb_other : forall e, match e with E_Arr _ _ | E_Obj _ _ => False | _ => True end -> nb e.

Definition nb_eli (e : eli) : Prop := match e with L_Expr e => nb e | L_Spread l _ => l <> None end.
Definition nb_prop (p : prop) : Prop := match p with Pr_Regular _ _ (PV_Init e) => nb e | _ => True end.
Fixpoint nb_nt {A} (n : nt A) : A -> Prop :=
  match n in nt T return T -> Prop with
  | CommaList n' => Forall (nb_nt n')
  | ListItem => nb_eli
  | Elements => Forall (fun oe => match oe with Some e => nb_eli e | None => True end)
  | Property => nb_prop
  | Primary | Base_ | Member | NewArgs | NewBare | Lhs | Postfix | Unary | Infix _ | Conditional | Assignment
  | Expression => nb
  | _ => fun _ => True
  end.

Lemma G_nb x A g (n : nt A) i o a : GX x g n i o a -> nb_nt n a.
Proof.
  induction 1; cbn [nb_nt nb_eli nb_prop] in *; try exact Logic.I; try assumption;
    try solve [apply nb_other; exact Logic.I]; try solve [repeat constructor; assumption].
  - discriminate.
  - apply nb_arr.
    + intros e He. rewrite Forall_forall in IHGX. exact (IHGX _ He).
    + intros l' e He. rewrite Forall_forall in IHGX. exact (IHGX _ He).
  - apply nb_obj. intros l' k e He. rewrite Forall_forall in IHGX. exact (IHGX _ He).
  - apply nb_other. destruct op; exact Logic.I.
Qed.

Lemma nb_rest_free p : rests_unlocated p -> nb (patt_expr p) -> rest_free p.
Proof.
  induction 1 as [t|l es r H IH H2 _|l ps H IH]; intros Hn.
  - constructor.
  - cbn [patt_expr patt_expr_of cpatt_expr] in Hn. inversion Hn as [? ? Ha Hb| |? Hc]; subst; [|contradiction].
    destruct r as [r|].
    + exfalso. destruct (H2 r eq_refl) as [Hl _]. eapply (Hb (rp_loc r)); [|exact Hl].
      apply in_or_app. right. left. reflexivity.
    + constructor. intros p Hp. apply IH; [exact Hp|]. apply Ha. rewrite app_nil_r.
      exact (in_map (option_map (fun p => L_Expr (patt_expr_of cpatt_expr p))) es (Some p) Hp).
  - cbn [patt_expr patt_expr_of cpatt_expr] in Hn. inversion Hn as [|? ? Ha|? Hc]; subst; [|contradiction].
    constructor. intros l' k q Hq. eapply IH; [exact Hq|]. eapply Ha.
    exact (in_map (fun p => match p with
                             | PP_Regular l k q => Pr_Regular l k (PV_Init (patt_expr_of cpatt_expr q))
                             | PP_Shorthand i => Pr_Shorthand i
                             end) ps _ Hq).
Qed.

Notation putrack := (patt_untrack target_untrack).

Lemma target_transfer t e' : expr_untrack e' = expr_untrack (target_expr t) ->
  exists t', into_assign_target e' = inr t' /\ target_untrack t' = target_untrack t.
Proof.
  intros H. destruct t; destruct e'; try discriminate H; cbn in H |- *; (eexists; split; [reflexivity|]); cbn; congruence.
Qed.

Lemma elts_transfer es :
  (forall p, In (Some p) es -> forall e', expr_untrack e' = expr_untrack (patt_expr p) ->
     exists p', e' = patt_expr p' /\ rests_unlocated p' /\ putrack p' = putrack p) ->
  forall es', map (option_map eli_untrack) es' = map (option_map eli_untrack) (map as_elt es) ->
  exists ps, es' = map as_elt ps /\ (forall p, In (Some p) ps -> rests_unlocated p)
    /\ map (option_map putrack) ps = map (option_map putrack) es.
Proof.
  induction es as [|oe es IH]; intros Hp es' H.
  - destruct es'; [|discriminate]. exists []. repeat split; auto. intros p [].
  - destruct es' as [|oe' es']; [discriminate|]. cbn [map] in H.
    assert (H1 : option_map eli_untrack oe' = option_map eli_untrack (as_elt oe)) by congruence.
    assert (H2 : map (option_map eli_untrack) es' = map (option_map eli_untrack) (map as_elt es)) by congruence.
    destruct (IH (fun p Hi => Hp p (or_intror Hi)) es' H2) as (ps & -> & Hr & Hu).
    destruct oe as [p|]; destruct oe' as [[e'|l e']|]; cbn in H1; try discriminate.
    + assert (H3 : expr_untrack e' = expr_untrack (patt_expr p)) by congruence.
      destruct (Hp p (or_introl eq_refl) e' H3) as (p' & -> & Hr' & Hu').
      exists (Some p' :: ps). split; [reflexivity|]. split.
      * intros q [Hq|Hq]; [congruence|auto].
      * cbn [map option_map]. rewrite Hu', Hu. reflexivity.
    + exists (None :: ps). split; [reflexivity|]. split.
      * intros q [Hq|Hq]; [discriminate|auto].
      * cbn [map option_map]. rewrite Hu. reflexivity.
Qed.
Lemma props_transfer ps :
  (forall l k p, In (PP_Regular l k p) ps -> forall e', expr_untrack e' = expr_untrack (patt_expr p) ->
     exists p', e' = patt_expr p' /\ rests_unlocated p' /\ putrack p' = putrack p) ->
  forall es', map prop_untrack es' = map prop_untrack (map as_prop ps) ->
  exists qs, es' = map as_prop qs /\ (forall l k p, In (PP_Regular l k p) qs -> rests_unlocated p)
    /\ map (prop_patt_untrack putrack) qs = map (prop_patt_untrack putrack) ps.
Proof.
  induction ps as [|q ps IH]; intros Hp es' H.
  - destruct es'; [|discriminate]. exists []. repeat split; auto. intros ? ? ? [].
  - destruct es' as [|e' es']; [discriminate|]. cbn [map] in H.
    assert (H1 : prop_untrack e' = prop_untrack (as_prop q)) by congruence.
    assert (H2 : map prop_untrack es' = map prop_untrack (map as_prop ps)) by congruence.
    destruct (IH (fun l k p Hi => Hp l k p (or_intror Hi)) es' H2) as (qs & -> & Hr & Hu).
    destruct q as [l k p|i]; destruct e' as [l' k' v|f|i']; cbn in H1; try discriminate.
    + destruct v as [e'| |]; cbn in H1; try discriminate.
      assert (H3 : expr_untrack e' = expr_untrack (patt_expr p)) by congruence.
      destruct (Hp l k p (or_introl eq_refl) e' H3) as (p' & -> & Hr' & Hu').
      exists (PP_Regular l' k' p' :: qs). split; [reflexivity|]. split.
      * intros ? ? ? [Hq|Hq]; [congruence|eauto].
      * cbn [map prop_patt_untrack]. rewrite Hu', Hu. congruence.
    + exists (PP_Shorthand i' :: qs). split; [reflexivity|]. split.
      * intros ? ? ? [Hq|Hq]; [discriminate|eauto].
      * cbn [map prop_patt_untrack]. rewrite Hu. congruence.
Qed.
Lemma patt_transfer p : rest_free p -> forall e', expr_untrack e' = expr_untrack (patt_expr p) ->
  exists p', e' = patt_expr p' /\ rests_unlocated p' /\ putrack p' = putrack p.
Proof.
  induction 1 as [t|l es H IH|l ps H IH]; intros e' He.
  - destruct (target_transfer t e' He) as (t' & Ht & Hu). apply target_iff in Ht. subst e'.
    exists (Simple t'). split; [reflexivity|]. split; [constructor|]. unfold patt_untrack. cbn [patt_of_untrack]. rewrite Hu. reflexivity.
  - destruct e' as [ | |l' es'| | | | | | | | | | | | | | | | | | | | | | | | ]; try discriminate He.
    cbn [patt_expr patt_expr_of cpatt_expr] in He. rewrite app_nil_r in He.
    assert (H1 : map (option_map eli_untrack) es' = map (option_map eli_untrack) (map as_elt es))
      by exact (f_equal (fun e => match e with E_Arr _ x => x | _ => [] end) He).
    destruct (elts_transfer es IH es' H1) as (qs & -> & Hr & Hu).
    exists (Compound (C_Arr l' qs None)). split.
    + cbn [patt_expr patt_expr_of cpatt_expr]. rewrite app_nil_r. reflexivity.
    + split; [constructor; [exact Hr|discriminate]|]. unfold patt_untrack in *. cbn [patt_of_untrack cpatt_untrack]. cbn.
      unfold loc_untrack. do 2 f_equal. exact Hu.
  - destruct e' as [ | | |l' es'| | | | | | | | | | | | | | | | | | | | | | | ]; try discriminate He.
    cbn [patt_expr patt_expr_of cpatt_expr] in He.
    assert (H1 : map prop_untrack es' = map prop_untrack (map as_prop ps))
      by exact (f_equal (fun e => match e with E_Obj _ x => x | _ => [] end) He).
    destruct (props_transfer ps IH es' H1) as (qs & -> & Hr & Hu).
    exists (Compound (C_Obj l' qs)). split; [reflexivity|]. split; [constructor; exact Hr|].
    unfold patt_untrack in *. cbn. unfold loc_untrack. do 2 f_equal. exact Hu.
Qed.

Theorem cover_patt x g A (n : nt A) i o p e' (a : A) : GX x g n i o a ->
  match n in nt T return T -> Prop with Conditional | Expression => fun a => a = patt_expr p | _ => fun _ => False end a ->
  rests_unlocated p -> expr_untrack e' = expr_untrack (patt_expr p) ->
  exists p', into_assign_patt e' = inr p' /\ putrack p' = putrack p.
Proof.
  intros D Hn Hr He. assert (Hb : nb (patt_expr p)).
  { apply G_nb in D. destruct n; try contradiction; subst a; exact D. }
  destruct (patt_transfer p (nb_rest_free p Hr Hb) e' He) as (p' & E & Hr' & Hu).
  exists p'. split; [apply patt_iff; auto|exact Hu].
Qed.
