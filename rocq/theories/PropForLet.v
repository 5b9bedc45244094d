(** C68: what happens to a text that begins with [for (let] and a division operator.
    No entry point returns a tree for it. *)
From Coq Require Import String Ascii List NArith Arith Bool Lia.
From Verif Require Import Base Chars F64 Word Token Reader Lexer LexClient Punc Ast Track Cover Stack PState Parser Api Wp
  SpecReader SpecLexer SpecStack SpecTree SpecGrammar SpecParser LexWp LexerProofs LexTheorems LexLayout
  ParserWp ParserExpr ParserStmt ParserTop GrammarProps CompTok PropDivision.
Import ListNotations.
Local Open Scope nat_scope.

(** ** The token behind an identifier that begins an expression *)

Definition then_ (i o : tokens) : Prop :=
  forall t i', i = t :: i' -> identt t -> i' = o \/ next (fun t' => ~ regexp t') i'.
Definition then_ok {A} (n : nt A) (i o : tokens) : Prop :=
  match n with
  | Primary | Base_ | Member | NewArgs | NewBare | Lhs | Postfix | Unary | Infix _ | Conditional | Assignment
  | Expression => then_ i o
  | _ => True
  end.
Lemma then_not p i o : next (fun t => p (tk_value t) = true) i -> (forall n, p (TIdent n) = false) -> then_ i o.
Proof.
  intros (t & i' & -> & H) Hp t0 i0 E (n & Hn). assert (t0 = t) by congruence. subst t0.
  rewrite Hn, Hp in H. discriminate.
Qed.
Lemma then_eat d i i1 o : eat d i i1 -> (forall n, d <> TIdent n) -> then_ i o.
Proof.
  intros (t & -> & H) Hp t0 i0 E (n & Hn). assert (t0 = t) by congruence. subst t0.
  exfalso. apply (Hp n). congruence.
Qed.
Lemma then_step i i1 o d i2 : then_ i i1 -> eat d i1 i2 -> (forall r, d <> TRegExp r) -> then_ i o.
Proof.
  intros H (t & -> & E) H2 t0 i0 Ei Hi. right. destruct (H t0 i0 Ei Hi) as [->|H3]; [|exact H3].
  exists t, i2. split; [reflexivity|]. intros (r & Hr). apply (H2 r). congruence.
Qed.
Lemma then_next i o (P : token -> Prop) : then_ i o -> next P o -> (forall t, P t -> ~ regexp t) -> forall o', then_ i o'.
Proof.
  intros H (t & i2 & -> & Ht) HP o' t0 i0 Ei Hi. right. destruct (H t0 i0 Ei Hi) as [->|H3]; [|exact H3].
  exists t, i2. split; [reflexivity|]. apply HP, Ht.
Qed.
Lemma then_here t o : then_ (t :: o) o.
Proof. intros t0 i' E _. left. congruence. Qed.
Lemma then_vac i o : (forall t i', i = t :: i' -> ~ identt t) -> then_ i o.
Proof. intros H t i' E Hi. exfalso. eapply H; eassumption. Qed.

Lemma G_then x A g (n : nt A) i o a : GX x g n i o a -> then_ok n i o.
Proof.
  induction 1; cbn [then_ok] in *; try exact I; try assumption;
    try solve [apply then_here];
    try solve [eapply then_eat; [eassumption|discriminate]];
    try solve [eapply then_step; [eassumption|eassumption|discriminate]];
    try solve [match goal with H : tk_value ?t = _ |- then_ (?t :: _) _ =>
                 apply then_vac; intros ? ? E (? & Hx); congruence end];
    try solve [match goal with H : then_ ?i (?t :: ?o), E : tk_value ?t = _ |- _ =>
                 eapply (then_next i (t :: o) (fun t' => t' = t)); [exact H|exists t, o; auto|];
                 intros ? -> (r & Hr); congruence end].
  - match goal with H : GX ?x ?g (Name_ ?b) ?i ?o ?a |- _ =>
      enough (Hq : exists t, i = t :: o) by (destruct Hq as (? & ->); apply then_here);
      change (match Name_ b in nt T return T -> Prop with Name_ _ => fun _ => exists t, i = t :: o | _ => fun _ => True end a);
      destruct H; try exact Logic.I
    end.
    eexists. reflexivity.
  - match goal with H : GX _ _ FunctionExpr _ _ _ |- _ => apply G_first in H as G1 end.
    exact (then_not (fun v => td_eqb v (TReserved R_Function)) i o G1 (fun _ => eq_refl)).
  - match goal with H : GX _ _ Arguments _ _ _ |- _ => apply G_first in H as G1 end.
    eapply then_next; [eassumption|exact G1|]. intros t Ht (r & Hr).
    apply (is_t_true t (TPunc T_LParen) Logic.I) in Ht. congruence.
  - (* unary op *) apply then_vac. intros t0 i' E Hi. assert (t0 = t) by congruence. subst t0.
    destruct (spelled_calm true t _ H (unop_text_colon u)) as (_ & Hni & _). exact (Hni Hi).
  - (* infix *) eapply (then_next i (t :: i1) (fun t' => t' = t)); [exact IHGX1|exists t, i1; auto|]. intros ? ->.
    destruct H0 as [Hs _]. apply (spelled_calm true t _ Hs (infix_text_colon op)).
  - (* assign op *) eapply (then_next i (t :: i1) (fun t' => t' = t)); [exact IHGX1|exists t, i1; auto|]. intros ? ->.
    apply (spelled_calm true t _ H0 (assop_text_colon a)).
Qed.

(** ** Computations that return nothing *)

Definition never {A} (m : P A) (s : pst) : Prop := forall a s', m s <> Ok (a, s').
Lemma nv_run {A B} (m : P A) (k : A -> P B) s a s1 : m s = Ok (a, s1) -> never (k a) s1 -> never (bind m k) s.
Proof. intros E H b s'. unfold bind. rewrite E. apply H. Qed.
Lemma nv_left {A B} (m : P A) (k : A -> P B) s : never m s -> never (bind m k) s.
Proof. intros H b s'. unfold bind. destruct (m s) as [[a s1]| | |] eqn:E; try discriminate. destruct (H a s1 E). Qed.
Lemma nv_bind {A B} (m : P A) (k : A -> P B) s : (forall a s1, m s = Ok (a, s1) -> never (k a) s1) -> never (bind m k) s.
Proof. intros H b s'. unfold bind. destruct (m s) as [[a s1]| | |] eqn:E; try discriminate. exact (H a s1 eq_refl b s'). Qed.
Lemma nv_err {A} e s : never (@err pst perror A e) s.
Proof. intros a s'. discriminate. Qed.
Lemma nv_span {A} set (m : P A) s : never m s -> never (p_span set m) s.
Proof. intros H. unfold p_span. eapply nv_run; [reflexivity|]. apply nv_left, H. Qed.
Lemma nv_loop {A B} n (body : A -> P (A + B)) a s : never (body a) s -> never (loopM n body a) s.
Proof. intros H. destruct n as [|n]; cbn [loopM]; [discriminate|]. apply nv_left, H. Qed.

Section Run.
Context (V : env) (src : str) (HV : ucd_ok V).

Lemma is_t_false t d d' : tk_value t = d -> td_eqb d d' = false -> is_t t d' = false.
Proof. unfold is_t. intros -> H. exact H. Qed.

Lemma peek_here s t la : ahead s = t :: la -> p_peek V s = Ok (t, s).
Proof.
  destruct s as [g d [r a e] c]. unfold ahead. cbn. intros ->. reflexivity.
Qed.
Lemma reread_here g d r t la e c v : td_eqb (tk_value t) v = true ->
  p_reread v (PSt g d (Lexer r (t :: la) e) c) = Ok (t, PSt g d (Lexer r la e) c).
Proof.
  intros H. unfold p_reread, bind, lex, repeek_token, reread_token, gets, modify, ret.
  cbn [p_lexer lx_ahead lx_rd lx_empty_line set_lexer bind ret]. unfold is_t. cbn. rewrite H. reflexivity.
Qed.


Lemma lexer_eta x : lx_ahead x = [] -> Lexer (lx_rd x) [] (lx_empty_line x) = x.
Proof. destruct x. cbn. intros ->. reflexivity. Qed.
Lemma At_back h t r la e g d c : At V src (h ++ [t]) (PSt g d (Lexer r la e) c) -> length la <= 1 ->
  At V src h (PSt g d (Lexer r (t :: la) e) c).
Proof.
  intros ((ops & k & Ht & Hr & He) & _) Hla. unfold ahead in *. cbn [p_lexer lx_ahead lx_rd lx_empty_line] in *.
  rewrite <- app_assoc in Ht, He. split; [|unfold ahead; cbn; lia]. exists ops, k. auto.
Qed.
Lemma At_on h t r la e g d c : At V src h (PSt g d (Lexer r (t :: la) e) c) ->
  At V src (h ++ [t]) (PSt g d (Lexer r la e) c).
Proof.
  intros ((ops & k & Ht & Hr & He) & Hla). unfold ahead in *. cbn [p_lexer lx_ahead lx_rd lx_empty_line length] in *.
  split; [|unfold ahead; cbn; lia]. exists ops, k. unfold ahead. cbn [p_lexer lx_ahead lx_rd lx_empty_line].
  rewrite <- app_assoc. auto.
Qed.
Lemma At_read h g d x c op t x' : At V src h (PSt g d x c) -> lx_ahead x = [] -> read_next_token V op x = Ok (t, x') ->
  lx_ahead x' = [] /\ At V src (h ++ [t]) (PSt g d x' c).
Proof.
  intros HA Hx H. destruct (wp_ok _ _ _ _ _ _ _ (read_next_ok V src HV op h _ HA Hx) H) as (Ha & HA' & _).
  split; [exact Ha|]. rewrite (lexer_eta _ Ha) in HA'. exact HA'.
Qed.
Lemma peek_new g d x c t x' : lx_ahead x = [] -> read_next_token V false x = Ok (t, x') ->
  p_peek V (PSt g d x c) = Ok (t, PSt g d (Lexer (lx_rd x') [t] (lx_empty_line x')) c).
Proof.
  intros Hx H. unfold p_peek, lex, peek_token, bind, gets, modify, ret. cbn [p_lexer]. rewrite Hx, H. reflexivity.
Qed.

Lemma not_for (v w : token_data) (A : Type) (m m' : P A) s t : tk_value t = v -> td_eqb v w = false ->
  never m' s -> never (if is_t t w then m else m') s.
Proof. unfold is_t. intros -> ->. auto. Qed.

(** A [for] statement anywhere: when its head begins with [let] and what would be a
    division operator, nothing is returned. *)
Lemma for_never R a b g h gl d r e c tf tp tl td x2 x3 x4 :
  rec_ok V src a b R -> At V src h (PSt gl d (Lexer r [tf] e) c) -> at_place g (PSt gl d (Lexer r [tf] e) c) ->
  length src < W h + a ->
  tk_value tf = TReserved R_For -> tk_value tp = TPunc T_LParen -> tk_value tl = TIdent (NAtom A_Let) ->
  read_next_token V false (Lexer r [] e) = Ok (tp, x2) -> read_next_token V false x2 = Ok (tl, x3) ->
  read_next_token V true x3 = Ok (td, x4) -> division td ->
  never (for_statement V R) (PSt gl d (Lexer r [tf] e) c).
Proof.
  intros HR HA Hg Ha Hf Hp Hl E2 E3 E4 Hd.
  apply At_on in HA. destruct (At_read _ _ _ _ _ _ _ _ HA eq_refl E2) as (A2 & HA2).
  destruct (At_read _ _ _ _ _ _ _ _ HA2 A2 E3) as (A3 & HA3).
  unfold for_statement. apply nv_span.
  eapply nv_run; [apply reread_here; rewrite Hf; reflexivity|].
  eapply nv_run.
  { unfold p_expect, bind, p_read, lex, read_token, bind, gets. cbn [p_lexer lx_ahead]. rewrite E2.
    unfold is_t. rewrite Hp. cbn [td_eqb]. reflexivity. }
  cbn [set_lexer p_goal p_deferred p_context]. eapply nv_run; [exact (peek_new _ _ _ _ _ _ A2 E3)|].
  unfold is_t. rewrite Hl. cbn [td_eqb name_eqb atom_eqb]. 
  unfold for_let. eapply nv_run; [apply reread_here; rewrite Hl; reflexivity|].
  rewrite (lexer_eta _ A3).
  apply nv_bind. intros tr s4 E. unfold p_peek, lex, peek_token, bind at 1, gets in E. cbn [p_lexer] in E. rewrite A3 in E.
  unfold bind at 1 in E. destruct (read_next_token V false x3) as [[t' x5]| | |] eqn:E5; try discriminate.
  unfold bind, modify, ret in E. injection E as <- <-.
  destruct (slash_regexp V x3 td x4 HV E4 Hd t' x5 E5) as (_ & (re & Hre) & A5). rewrite A3 in A5.
  destruct (At_read _ _ _ _ _ _ _ _ HA3 A3 E5) as (_ & HA5).
  assert (HA6 : At V src ((h ++ [tf]) ++ [tp]) (PSt gl d (Lexer (lx_rd x5) [tl; t'] (lx_empty_line x5)) c)).
  { rewrite <- (lexer_eta _ A5) in HA5. apply At_back; [|cbn; lia].
    apply At_back; [exact HA5|cbn; lia]. }
  cbn [set_lexer p_goal p_deferred p_context p_lexer].
  replace (first_binding t') with false by (unfold first_binding, is_t, as_ident; rewrite Hre; reflexivity).
  cbn [negb]. eapply nv_run; [reflexivity|].
  cbn [set_lexer p_goal p_deferred p_context p_lexer lx_rd lx_empty_line lx_ahead].
  unfold for_expr. apply nv_bind. intros lhs s7 E7.
  assert (Hw : wpP V src (p_allow_in false (expression V R)) (PSt gl d (Lexer (lx_rd x5) [tl; t'] (lx_empty_line x5)) c)
                 (post1 V src ((h ++ [tf]) ++ [tp]) (PSt gl d (Lexer (lx_rd x5) [tl; t'] (lx_empty_line x5)) c)
                    (fun e i o => G (with_in false g) Expression i o e))).
  { apply allow_in1. eapply expression_ok; [exact HV|exact HR|exact HA6| |rewrite !W_app; lia].
    exact (at_place_in g (PSt gl d (Lexer (lx_rd x5) [tl; t'] (lx_empty_line x5)) c) false Hg). }
  destruct (wp_ok _ _ _ _ _ _ _ Hw E7) as (h' & ((_ & _ & _ & ts & _ & Ho) & _)).
  destruct (Ho (ahead s7) (pre_refl _)) as ((rest & Er) & D). apply G_then in D. cbn [then_ok] in D.
  unfold ahead at 1 in Er. cbn [p_lexer lx_ahead app] in Er.
  destruct (D _ _ Er (ex_intro _ _ Hl)) as [Eo|(t2 & i2 & Et & Hn)].
  2:{ exfalso. apply Hn. exists re. congruence. }
  symmetry in Eo. eapply nv_run; [exact (peek_here _ _ _ Eo)|].
  unfold is_t. rewrite Hre. cbn [td_eqb].
  destruct s7 as [g7 d7 [r7 la7 e7] c7]. cbn in Eo. subst la7.
  intros ? ?. discriminate.
Qed.

(** ** Entry points *)

(** The text begins with [for (let] and a division operator. *)
Definition for_let_division (tf tp tl td : token) : Prop :=
  (exists k, tiles V src [false; false; false; true] true 0 [tf; tp; tl; td] k)
  /\ tk_value tf = TReserved R_For /\ tk_value tp = TPunc T_LParen /\ tk_value tl = TIdent (NAtom A_Let)
  /\ division td.

Context (tf tp tl td : token) (H : for_let_division tf tp tl td).

Lemma starts_for : exists x1 x2 x3 x4, read_token V false (lexer_new src) = Ok (tf, x1)
  /\ lx_ahead x1 = [] /\ read_next_token V false x1 = Ok (tp, x2) /\ read_next_token V false x2 = Ok (tl, x3)
  /\ read_next_token V true x3 = Ok (td, x4).
Proof.
  destruct H as ((k & Ht) & _).
  inversion Ht as [|? ? ? ? ? k1 ? ? N1 Ht1]; subst. inversion Ht1 as [|? ? ? ? ? k2 ? ? N2 Ht2]; subst.
  inversion Ht2 as [|? ? ? ? ? k3 ? ? N3 Ht3]; subst. inversion Ht3 as [|? ? ? ? ? k4 ? ? N4 Ht4]; subst.
  destruct (next_token_read V src false (lexer_new src) 0 tf k1 HV (rd_at_new src) eq_refl N1) as (x1 & R1 & A1 & L1 & E1).
  assert (N2' : next_token V src false (lx_empty_line x1) k1 tp k2) by (rewrite E1; exact N2).
  destruct (next_token_read V src false x1 k1 tp k2 HV A1 L1 N2') as (x2 & R2 & A2 & L2 & E2).
  assert (N3' : next_token V src false (lx_empty_line x2) k2 tl k3) by (rewrite E2; exact N3).
  destruct (next_token_read V src false x2 k2 tl k3 HV A2 L2 N3') as (x3 & R3 & A3 & L3 & E3).
  rewrite <- E3 in N4. destruct (next_token_read V src true x3 k3 td k4 HV A3 L3 N4) as (x4 & R4 & _).
  rewrite (read_token_empty V _ _ L1) in R2. rewrite (read_token_empty V _ _ L2) in R3.
  rewrite (read_token_empty V _ _ L3) in R4. eauto 12.
Qed.

(** No directive is found, and the next token is [tf]. *)
Lemma directives_none R n gl st x1 : r_fuel R = S n -> read_token V false (lexer_new src) = Ok (tf, x1) -> lx_ahead x1 = [] ->
  body_directives V R (start src gl st) = Ok ([], set_lexer (Lexer (lx_rd x1) [tf] (lx_empty_line x1)) (start src gl st)).
Proof.
  intros HR R1 A1. unfold body_directives. rewrite HR. cbn [loopM].
  unfold bind at 1. unfold bind at 1. unfold match_directive_opt, bind at 1. unfold p_posn at 1. unfold gets at 1.
  unfold bind at 1. unfold p_read at 1. unfold lex at 1. cbn [p_lexer start set_context set_goal parser_new]. rewrite R1.
  destruct H as (_ & Hf & _). rewrite Hf.
  unfold bind at 1, p_unread, lex, unread_token, bind at 1, gets at 1. cbn [p_lexer set_lexer]. rewrite A1. reflexivity.
Qed.

Lemma item_never gl st x1 x2 x3 x4 d : 
  read_token V false (lexer_new src) = Ok (tf, x1) -> lx_ahead x1 = [] ->
  read_next_token V false x1 = Ok (tp, x2) -> read_next_token V false x2 = Ok (tl, x3) ->
  read_next_token V true x3 = Ok (td, x4) ->
  never (r_item (parse_rec V (fuel_for src)) d)
        (set_lexer (Lexer (lx_rd x1) [tf] (lx_empty_line x1)) (start src gl st)).
Proof.
  intros R1 A1 R2 R3 R4. destruct H as (_ & Hf & Hp & Hl & Hd).
  destruct (recs_ok V src HV (2 * length src + 7)) as (a & b & HR & Eab).
  replace (fuel_for src) with (S (2 + (2 * length src + 7))) by (unfold fuel_for; lia).
  cbn [parse_rec r_item]. set (R := parse_rec V (2 + (2 * length src + 7))) in *.
  unfold stmt_list_item. eapply nv_run; [eapply peek_here; reflexivity|].
  unfold is_t. rewrite Hf. cbn [td_eqb reserved_eqb]. apply nv_left.
  destruct (start src gl st) as [g0 d0 x0 c0] eqn:Es. cbn [set_lexer p_goal p_deferred p_context].
  assert (HA : At V src [] (PSt g0 d0 (Lexer (lx_rd x1) [tf] (lx_empty_line x1)) c0)).
  { pose proof (start_At V src gl st) as HA. rewrite Es in HA.
    rewrite (read_token_empty V false (lexer_new src) eq_refl) in R1.
    assert (x0 = lexer_new src) by (revert Es; intros [= <- <- <- <-]; reflexivity). subst x0.
    destruct (At_read [] _ _ _ _ _ _ _ HA eq_refl R1) as (_ & HA1). rewrite <- (lexer_eta _ A1) in HA1.
    apply At_back; [exact HA1|cbn; lia]. }
  eapply (for_never R a b (top (mode_of (start src gl st))));
    [exact HR|exact HA| |destruct (rk_le _ _ _ _ _ HR); cbn; lia|eassumption..| |exact R3|exact R4|exact Hd].
  - pose proof (start_place src gl st) as HP. rewrite Es in HP |- *. exact HP.
  - rewrite (lexer_eta _ A1). exact R2.
Qed.
End Run.

(** A text that begins with [for (let] and a division operator has no tree. *)
Theorem C68_for_let_division_never : forall V src tf tp tl td, ucd_ok V ->
  for_let_division V src tf tp tl td ->
  (forall u, script_of V src <> Ok u) /\ (forall u, strict_of V src <> Ok u)
  /\ (forall m, module_of V src <> Ok m) /\ (forall p, program_of V src <> Ok p).
Proof.
  intros V src tf tp tl td HV H.
  destruct (starts_for V src HV tf tp tl td H) as (x1 & x2 & x3 & x4 & R1 & A1 & R2 & R3 & R4).
  assert (Hi : forall gl st d, never (r_item (parse_rec V (fuel_for src)) d)
                 (set_lexer (Lexer (lx_rd x1) [tf] (lx_empty_line x1)) (start src gl st))).
  { intros. eapply item_never; eassumption. }
  assert (Hn : exists n, r_fuel (parse_rec V (fuel_for src)) = S n).
  { unfold fuel_for. replace (2 * length src + 10) with (S (S (2 * length src + 8))) by lia. cbn [parse_rec r_fuel]. eauto. }
  destruct Hn as (n & Hn). assert (Hf : tk_value tf = TReserved R_For) by apply H.
  assert (Hdir : forall gl st, body_directives V (parse_rec V (fuel_for src)) (start src gl st) = Ok ([], _))
    by (intros; eapply directives_none; eassumption).
  assert (Hs : forall b, never (script_ V (parse_rec V (fuel_for src)) b) (parser_new src)).
  { intros b. unfold script_. eapply nv_run; [reflexivity|]. eapply nv_run; [reflexivity|]. eapply nv_run; [reflexivity|].
    unfold script_body. apply nv_span.
    eapply nv_run; [exact (Hdir G_Script (tri_of_bool b))|]. apply nv_left. unfold statement_list. apply nv_loop.
    eapply nv_run; [eapply peek_here; reflexivity|]. unfold follow_statement_list. rewrite Hf. apply nv_left, Hi. }
  assert (Hm : never (module_ V (parse_rec V (fuel_for src))) (parser_new src)).
  { unfold module_. eapply nv_run; [reflexivity|]. eapply nv_run; [reflexivity|]. apply nv_span.
    eapply nv_run; [exact (Hdir G_Module Yes)|]. apply nv_left. unfold module_items, more_module_items. apply nv_loop.
    eapply nv_run; [eapply peek_here; reflexivity|]. unfold is_t. rewrite Hf. apply nv_left, Hi. }
  assert (Hp : never (program_ V (parse_rec V (fuel_for src))) (parser_new src)).
  { unfold program_. eapply nv_run; [reflexivity|]. apply nv_span.
    eapply nv_run; [exact (Hdir G_Unknown Unknown)|]. apply nv_left. unfold program_items_. apply nv_loop.
    eapply nv_run; [eapply peek_here; reflexivity|]. unfold is_t. rewrite Hf. apply nv_left, Hi. }
  assert (Hr : forall A (m : P A), never m (parser_new src) -> forall u, run m (parser_new src) <> Ok u).
  { intros A m Hx u. unfold run. destruct (m (parser_new src)) as [[v s1]| | |] eqn:E; try discriminate.
    destruct (Hx _ _ E). }
  split; [apply (Hr _ _ (Hs false))|]. split; [apply (Hr _ _ (Hs true))|]. split; [apply (Hr _ _ Hm)|apply (Hr _ _ Hp)].
Qed.
Print Assumptions C68_for_let_division_never.

(** Such texts exist, and the same loop over another variable is parsed. *)
Example C68_example :
  (exists tf tp tl td, for_let_division env_ascii (lit "for (let / 2 / 2; ; ) break;") tf tp tl td)
  /\ (exists u, script_of env_ascii (lit "for (led / 2 / 2; ; ) break;") = Ok u).
Proof.
  split.
  - eexists _, _, _, _. split; [apply (read_exact env_ascii _ _ _ ucd_ok_ascii); eexists; vm_compute; reflexivity|].
    split; [reflexivity|]. split; [reflexivity|]. split; [reflexivity|]. left. reflexivity.
  - eexists. vm_compute. reflexivity.
Qed.
