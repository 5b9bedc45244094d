(** A bound on the number of steps the parser takes (Cost.v): every step is paid for by the
    tokens consumed, at a fixed price per token, and by the characters they consist of. *)
From Coq Require Import String Ascii List NArith ZArith Arith Bool Lia.
From Verif Require Import Base Chars F64 Word Token Reader Lexer Punc Ast Track Cover Stack PState Parser Api Wp
  SpecReader ReaderProofs SpecLexer SpecClient LexWp LexLit LexerProofs LexTheorems SpecStack SpecTree
  SpecGrammar ParserWp Cost.
Import ListNotations.
Local Open Scope Z_scope.

(** The price of a token. *)
Notation K := 200.

(** The price of an expression and of a statement, apart from its tokens. *)
Notation CA := 110.
Notation CI := 160.

Section Cost.
Context (V : env) (src : str).
Context (HV : ucd_ok V).

(** The reader is somewhere in the input. *)
Definition inv (s : pst) : Prop := exists k, rd_at src k (lx_rd (p_lexer s)).
(** The price of what is still to be consumed: the characters not read, and the tokens
    pushed back. *)
Definition phi (s : pst) : Z :=
  (K + 1) * Z.of_nat (length (rest (lx_rd (p_lexer s)))) + K * Z.of_nat (W (lx_ahead (p_lexer s))).
Lemma phi_pos s : 0 <= phi s. Proof. unfold phi. lia. Qed.

(** With [b] steps in hand, and the price of everything still to be consumed, [m] can be run
    to its end; on success [Q] holds of the result and of the steps left. *)
Definition cwp {A} (m : C A) (b : Z) (Q : A -> Z -> Prop) : Prop :=
  forall s, inv s ->
  match m s with
  | (k, Ok (a, s')) => exists b', inv s' /\ Z.of_nat (steps k) + phi s' + b' <= phi s + b /\ Q a b'
  | (k, _) => Z.of_nat (steps k) <= phi s + b
  end.
(** [m] costs at most [c], and leaves [g a] when it produces [a]. *)
Definition costs {A} (m : C A) (c : Z) (g : A -> Z) : Prop := cwp m c (fun a b' => g a <= b').

Lemma cw_bind {A B} (m : C A) (f : A -> C B) b Q :
  cwp m b (fun a b' => cwp (f a) b' Q) -> cwp (cbind m f) b Q.
Proof.
  intros H s Hi. specialize (H s Hi). unfold cbind. destruct (m s) as [k [[a s1]|e|p|]]; try exact H.
  destruct H as (b' & Hi' & Hb & H). specialize (H s1 Hi').
  destruct (f a s1) as [k2 [[a2 s2]|e|p|]]; cbn [steps log_app]; try lia.
  destruct H as (b2 & Hi2 & Hb2 & H). exists b2. split; [exact Hi2|]. split; [lia|exact H].
Qed.
Lemma cw_ret {A} (a : A) b (Q : A -> Z -> Prop) : Q a (b - 1) -> cwp (cret a) b Q.
Proof. intros H s Hi. unfold cret, cerr, cpanic, cnofuel, cgets, cmodify, step1. cbn [steps]. exists (b - 1). split; [exact Hi|]. split; [lia|exact H]. Qed.
Lemma cw_err {A} e b Q : 1 <= b -> cwp (@cerr A e) b Q.
Proof. intros H s Hi. unfold cret, cerr, cpanic, cnofuel, cgets, cmodify, step1. cbn [steps]. pose proof (phi_pos s). lia. Qed.
Lemma cw_panic {A} k b Q : 1 <= b -> cwp (@cpanic A k) b Q.
Proof. intros H s Hi. unfold cret, cerr, cpanic, cnofuel, cgets, cmodify, step1. cbn [steps]. pose proof (phi_pos s). lia. Qed.
Lemma cw_nofuel {A} b Q : 1 <= b -> cwp (@cnofuel A) b Q.
Proof. intros H s Hi. unfold cret, cerr, cpanic, cnofuel, cgets, cmodify, step1. cbn [steps]. pose proof (phi_pos s). lia. Qed.
Lemma cw_gets {A} (f : pst -> A) b (Q : A -> Z -> Prop) : (forall a, Q a (b - 1)) -> cwp (cgets f) b Q.
Proof. intros H s Hi. unfold cret, cerr, cpanic, cnofuel, cgets, cmodify, step1. cbn [steps]. exists (b - 1). split; [exact Hi|]. split; [lia|apply H]. Qed.
Lemma cw_modify f b (Q : unit -> Z -> Prop) : (forall s, p_lexer (f s) = p_lexer s) -> Q tt (b - 1) ->
  cwp (cmodify f) b Q.
Proof.
  intros Hf H s Hi. unfold cret, cerr, cpanic, cnofuel, cgets, cmodify, step1. cbn [steps]. exists (b - 1). split; [unfold inv; rewrite Hf; exact Hi|].
  split; [unfold phi; rewrite Hf; lia|exact H].
Qed.
Lemma cw_weaken {A} (m : C A) b b2 (Q : A -> Z -> Prop) : cwp m b Q -> b <= b2 -> cwp m b2 Q.
Proof.
  intros H Hb s Hi. specialize (H s Hi). destruct (m s) as [k [[a s1]|e|p|]]; try lia.
  destruct H as (b' & Hi' & Hb' & H). exists b'. split; [exact Hi'|]. split; [lia|exact H].
Qed.
Lemma cw_costs {A} (m : C A) c g b (Q : A -> Z -> Prop) : costs m c g -> c <= b ->
  (forall a, Q a (b - c + g a)) -> cwp m b Q.
Proof.
  intros H Hb HQ s Hi. specialize (H s Hi). destruct (m s) as [k [[a s1]|e|p|]]; try lia.
  destruct H as (b' & Hi' & Hb' & H). exists (b - c + g a). split; [exact Hi'|]. split; [lia|apply HQ].
Qed.
Lemma cw_loopI {A B} (I : A -> Z) (body : A -> C (A + B)) (Q : B -> Z -> Prop) : (forall a, 1 <= I a) ->
  (forall a, cwp (body a) (I a) (fun x b' => match x with inl a' => I a' <= b' | inr r => Q r (b' - 1) end)) ->
  forall n a b, I a <= b -> cwp (cloop n body a) b Q.
Proof.
  intros H1 H. induction n as [|n IH]; intros a b Hb; cbn [cloop]; [apply cw_nofuel; specialize (H1 a); lia|].
  apply cw_bind. eapply cw_weaken; [|exact Hb]. intros s Hi. specialize (H a s Hi).
  destruct (body a s) as [k [[x s1]|e|p|]]; try exact H.
  destruct H as (b' & Hi' & Hb' & H). exists b'. split; [exact Hi'|]. split; [exact Hb'|].
  destruct x as [a'|r]; [apply IH; exact H|apply cw_ret; exact H].
Qed.
Lemma cw_loop {A B} (body : A -> C (A + B)) b (Q : B -> Z -> Prop) : 1 <= b ->
  (forall a, cwp (body a) b (fun x b' => match x with inl _ => b <= b' | inr r => Q r (b' - 1) end)) ->
  forall n a, cwp (cloop n body a) b Q.
Proof. intros H1 H n a. apply (cw_loopI (fun _ => b)); [intros; exact H1|exact H|lia]. Qed.

(** ** Tokens *)

(** What consuming a token brings. *)
Definition gt (t : token) : Z := if is_eof t then 0 else K.
Lemma gt_range t : 0 <= gt t <= K. Proof. unfold gt. destruct (is_eof t); lia. Qed.
Lemma gt_ne t : tk_value t <> TPunc T_EOF -> gt t = K.
Proof. intros H. unfold gt. rewrite (not_eof t H). reflexivity. Qed.
Lemma gt_is t d : is_t t d = true -> d <> TPunc T_EOF -> gt t = K.
Proof.
  intros H Hd. apply gt_ne. intros E. apply Hd. unfold is_t in H. rewrite E in H.
  destruct d as [r|p|n|s|r|n]; try discriminate. destruct p; try discriminate. reflexivity.
Qed.
Ltac ne := intros Hs; apply gt_ne; intros E; revert Hs;
  try unfold as_ident; try unfold token_prop_key; try unfold token_literal; try unfold token_unop;
  try unfold is_reserved; try unfold to_assop; try unfold token_infix, to_binop, to_logop; rewrite E; discriminate.
Lemma gt_ident t n : as_ident t = Some n -> gt t = K. Proof. ne. Qed.
Lemma gt_key t n : token_prop_key t = Some n -> gt t = K. Proof. ne. Qed.
Lemma gt_literal t n : token_literal t = Some n -> gt t = K. Proof. ne. Qed.
Lemma gt_unop t n : token_unop t = Some n -> gt t = K. Proof. ne. Qed.
Lemma gt_reserved t : is_reserved t = true -> gt t = K. Proof. ne. Qed.
Lemma gt_assop t n : to_assop t = Some n -> gt t = K. Proof. ne. Qed.
Lemma gt_infix t b n : token_infix t b = Some n -> gt t = K. Proof. ne. Qed.
Lemma gt_string t s : tk_value t = TString s -> gt t = K. Proof. intros H. apply gt_ne. congruence. Qed.
Lemma gt_number t s : tk_value t = TNumber s -> gt t = K. Proof. intros H. apply gt_ne. congruence. Qed.
Lemma gt_regexp t s : tk_value t = TRegExp s -> gt t = K. Proof. intros H. apply gt_ne. congruence. Qed.
Lemma gt_id t s : tk_value t = TIdent s -> gt t = K. Proof. intros H. apply gt_ne. congruence. Qed.
Lemma gt_word t s : tk_value t = TReserved s -> gt t = K. Proof. intros H. apply gt_ne. congruence. Qed.

(** A token read from the characters. *)
Lemma fresh op x k : rd_at src k (lx_rd x) ->
  match read_next_token V op x with
  | Ok (t, x') => lx_ahead x' = lx_ahead x /\ (exists k', rd_at src k' (lx_rd x'))
      /\ (length (rest (lx_rd x')) + (if is_eof t then 0 else 1) <= length (rest (lx_rd x)))%nat
  | _ => True
  end.
Proof.
  intros H. pose proof (read_next_token_spec V src op x k (ucd_start_part V HV) H) as R. unfold wp in R.
  destruct (read_next_token V op x) as [[t x']|e|p|]; try exact Logic.I.
  destruct R as (k' & Hn & Hat & Ha & _). split; [exact Ha|]. split; [exists k'; exact Hat|].
  destruct H as (_ & E & _), Hat as (Hk' & E' & _). rewrite E, E', !skipn_length.
  assert (k <= k')%nat by (destruct Hn as (ws & w & l & _ & -> & _); lia).
  destruct (is_eof t) eqn:Et; [lia|].
  assert (k < k')%nat; [|lia]. eapply token_consumes; [exact Hn|]. intros Ev.
  unfold is_eof in Et. rewrite Ev in Et. discriminate.
Qed.

Ltac cb := cbn -[Z.mul Z.add Z.of_nat Nat.add Nat.sub W Z.sub Z.opp Z.le gt].
Ltac opn := let s := fresh "s" in let r := fresh "r" in let la := fresh "la" in let el := fresh "el" in
  intros s [? Hk]; unfold lex', lex_price; cbv zeta; cbn [steps]; destruct s as [? ? [r la el] ?];
  cbn [p_lexer lx_rd] in Hk; cbn [p_lexer];
  unfold phi; cbn [p_lexer set_lexer lx_rd lx_ahead p_goal p_deferred p_context].

Lemma co_read_token op : costs (lex' (Some op) (read_token V op)) 1 gt.
Proof.
  opn. destruct la as [|t la].
  - rewrite read_token_empty by reflexivity.
    pose proof (fresh op (Lexer r [] el) _ Hk) as R. destruct (read_next_token V op _) as [[t x']|e|p|]; try lia.
    destruct R as (Ha & Hi & Hl). exists (gt t). split; [exact Hi|]. split; [|lia]. cbn [p_lexer set_lexer lx_rd] in *.
    rewrite Ha. cbn [lx_ahead W]. unfold gt. destruct (is_eof t); lia.
  - cb. exists (gt t). split; [exists x; exact Hk|]. split; [|lia]. cbn [W]. unfold gt. destruct (is_eof t); lia.
Qed.
Lemma co_read : costs (p_read' V) 1 gt. Proof. exact (co_read_token false). Qed.
Lemma co_read_op : costs (p_read_op' V) 1 gt. Proof. exact (co_read_token true). Qed.
Lemma co_peek_token op : costs (lex' (Some op) (peek_token V op)) 1 (fun _ => 0).
Proof.
  opn. destruct la as [|t la].
  - pose proof (fresh op (Lexer r [] el) _ Hk) as R. unfold peek_token, bind, gets. cbn [lx_ahead].
    destruct (read_next_token V op _) as [[t x']|e|p|]; try lia.
    destruct R as (Ha & Hi & Hl). cb. exists 0. split; [exact Hi|]. split; [|lia].
    cbn [lx_rd] in Hl. cbn [W app lx_ahead]. destruct (is_eof t); lia.
  - cb. exists 0. split; [exists x; exact Hk|]. cbn [W]. lia.
Qed.
Lemma co_peek : costs (p_peek' V) 1 (fun _ => 0). Proof. exact (co_peek_token false). Qed.
Lemma co_peek_op : costs (p_peek_op' V) 1 (fun _ => 0). Proof. exact (co_peek_token true). Qed.
Lemma co_unread t : costs (p_unread' t) 1 (fun _ => - gt t).
Proof.
  unfold p_unread'. opn. unfold unread_token, bind, gets. cbn [lx_ahead].
  destruct (Nat.ltb (length la) lookahead_capacity); cb; [|lia].
  exists (- gt t). split; [exists x; exact Hk|]. split; [|lia]. cbn [W]. unfold gt. destruct (is_eof t); lia.
Qed.
Lemma co_reread_token : costs p_reread_token' 1 gt.
Proof.
  unfold p_reread_token'. opn. destruct la as [|t la]; cb; [lia|].
  exists (gt t). split; [exists x; exact Hk|]. split; [|lia]. cbn [W]. unfold gt. destruct (is_eof t); lia.
Qed.
Lemma co_repeek : costs (lex' None repeek_token) 1 (fun _ => 0).
Proof.
  opn. destruct la as [|t la]; cb; [lia|].
  exists 0. split; [exists x; exact Hk|]. lia.
Qed.
Lemma co_skip : costs (p_skip' V) 1 (fun _ => 0).
Proof.
  intros s Hi. pose proof (co_read_token false s Hi) as R. unfold p_skip', lex', lex_price, skip_token, bind in *. cbv zeta in *. cbn [steps] in *.
  destruct (read_token V false (p_lexer s)) as [[t x']|e|p|]; try exact R.
  destruct R as (b' & Hi' & Hb & Hg). exists b'. split; [exact Hi'|]. split; [exact Hb|]. pose proof (gt_range t). lia.
Qed.

Create HintDb co.
Hint Resolve co_read co_read_op co_peek co_peek_op co_unread co_reread_token co_repeek co_skip : co.

Lemma cw_span {A} set (m : C A) b (Q : A -> Z -> Prop) :
  cwp m (b - 1) (fun v b' => forall l, Q (set v l) (b' - 2)) -> cwp (p_span' set m) b Q.
Proof.
  intros H. unfold p_span', p_posn'. apply cw_bind, cw_gets. intros start. apply cw_bind.
  intros s Hi. specialize (H s Hi). destruct (m s) as [k [[a s1]|e|p|]]; try exact H.
  destruct H as (b' & Hi' & Hb & H). exists b'. split; [exact Hi'|]. split; [exact Hb|].
  apply cw_bind, cw_gets. intros e. apply cw_ret. replace (b' - 1 - 1) with (b' - 2) by lia. apply H.
Qed.
Lemma cw_allow_in {A} d (m : C A) b (Q : A -> Z -> Prop) :
  cwp m (b - 2) (fun v b' => Q v (b' - 2)) -> cwp (p_allow_in' d m) b Q.
Proof.
  intros H. unfold p_allow_in', get_context', modify_context'. apply cw_bind, cw_gets. intros c.
  apply cw_bind, cw_modify; [reflexivity|]. apply cw_bind. replace (b - 1 - 1) with (b - 2) by lia.
  intros s Hi. specialize (H s Hi). destruct (m s) as [k [[a s1]|e|p|]]; try exact H.
  destruct H as (b' & Hi' & Hb & H). exists b'. split; [exact Hi'|]. split; [exact Hb|].
  apply cw_bind, cw_modify; [reflexivity|]. apply cw_ret. replace (b' - 1 - 1) with (b' - 2) by lia. exact H.
Qed.
Lemma cw_labels ls t m b (Q : stmt -> Z -> Prop) :
  cwp m (b - 1) (fun v b' => forall v', Q v' (b' - 2)) -> cwp (with_labels' ls t m) b Q.
Proof.
  intros H. unfold with_labels', modify_context'. apply cw_bind, cw_modify; [reflexivity|]. apply cw_bind.
  intros s Hi. specialize (H s Hi). destruct (m s) as [k [[a s1]|e|p|]]; try exact H.
  destruct H as (b' & Hi' & Hb & H). exists b'. split; [exact Hi'|]. split; [exact Hb|].
  apply cw_bind, cw_modify; [reflexivity|]. apply cw_ret. replace (b' - 1 - 1) with (b' - 2) by lia. apply H.
Qed.

Definition opt {A} (z : Z) (o : option A) : Z := match o with Some _ => z | None => 0 end.
Definition tru (z : Z) (b : bool) : Z := if b then z else 0.

Ltac fact E :=
  match type of E with
  | is_t ?t _ = true => rewrite ?(gt_is t _ E ltac:(discriminate))
  | as_ident ?t = Some _ => rewrite ?(gt_ident t _ E)
  | token_prop_key ?t = Some _ => rewrite ?(gt_key t _ E)
  | token_literal ?t = Some _ => rewrite ?(gt_literal t _ E)
  | token_unop ?t = Some _ => rewrite ?(gt_unop t _ E)
  | is_reserved ?t = true => rewrite ?(gt_reserved t E)
  | to_assop ?t = Some _ => rewrite ?(gt_assop t _ E)
  | token_infix ?t _ = Some _ => rewrite ?(gt_infix t _ _ E)
  | tk_value ?t = TString _ => rewrite ?(gt_string t _ E)
  | tk_value ?t = TNumber _ => rewrite ?(gt_number t _ E)
  | tk_value ?t = TRegExp _ => rewrite ?(gt_regexp t _ E)
  | tk_value ?t = TIdent _ => rewrite ?(gt_id t _ E)
  | tk_value ?t = TReserved _ => rewrite ?(gt_word t _ E)
  | negb (tk_newline ?t) && is_t ?t ?d = true => rewrite ?(gt_is t d (proj2 (andb_prop _ _ E)) ltac:(discriminate))
  | _ => idtac
  end.
Ltac arith := cbn [opt tru];
  repeat match goal with |- context [tru _ ?x] => destruct x; cbn [opt tru] | |- context [opt _ ?x] => destruct x; cbn [opt tru] end; cbn [opt tru]; lia.
Ltac into := let x := fresh "x" in intros x;
  lazymatch type of x with token => pose proof (gt_range x) | _ => idtac end.
Ltac cstep :=
  cbv beta;
  lazymatch goal with
  | |- cwp (cbind _ _) _ _ => apply cw_bind
  | |- cwp (cret _) _ _ => apply cw_ret
  | |- cwp (cerr _) _ _ => apply cw_err; arith
  | |- cwp (cpanic _) _ _ => apply cw_panic; arith
  | |- cwp cnofuel _ _ => apply cw_nofuel; arith
  | |- cwp (cgets _) _ _ => apply cw_gets; into
  | |- cwp p_posn' _ _ => apply cw_gets; into
  | |- cwp get_context' _ _ => apply cw_gets; into
  | |- cwp (cmodify _) _ _ => apply cw_modify; [reflexivity|]
  | |- cwp (modify_context' _) _ _ => apply cw_modify; [reflexivity|]
  | |- cwp (p_span' _ _) _ _ => apply cw_span
  | |- cwp (p_allow_in' _ _) _ _ => apply cw_allow_in
  | |- cwp (with_labels' _ _ _) _ _ => apply cw_labels
  | |- cwp (cloop _ _ _) _ _ => apply cw_loop; [arith|into]
  | |- cwp (let '(_, _) := ?x in _) _ _ => destruct x
  | |- cwp (match ?x with _ => _ end) _ _ => let E := fresh "E" in destruct x eqn:E; try fact E
  | |- cwp (let x := ?y in _) _ _ => cbv zeta
  | |- cwp _ _ _ => eapply cw_costs; [solve [eauto 3 with co]|arith|into]
  | |- forall _, _ => into
  | |- match ?x with _ => _ end <= _ => destruct x
  end.
Ltac cw := repeat cstep; try arith.
Ltac co f := intros; unfold f, costs; cw.

Ltac cases t := destruct t.

Lemma co_expect d : d <> TPunc T_EOF -> costs (p_expect' V d) 2 (fun _ => K).
Proof. intros Hd. co p_expect'. rewrite (gt_is _ _ E Hd). arith. Qed.
Lemma co_matches_token d : d <> TPunc T_EOF -> costs (p_matches_token' V d) 3 (opt K).
Proof. intros Hd. co p_matches_token'. rewrite (gt_is _ _ E Hd). arith. Qed.
Lemma co_matches d : d <> TPunc T_EOF -> costs (p_matches' V d) 3 (tru K).
Proof. intros Hd. co p_matches'. rewrite (gt_is _ _ E Hd). arith. Qed.
Lemma co_matches_op d : d <> TPunc T_EOF -> costs (p_matches_op' V d) 3 (tru K).
Proof. intros Hd. co p_matches_op'. rewrite (gt_is _ _ E Hd). arith. Qed.
(** The token looked at is the token consumed. *)
Lemma co_reread d : d <> TPunc T_EOF -> costs (p_reread' d) 2 (fun _ => K).
Proof.
  intros Hd s Hi. pose proof (phi_pos s) as H0. unfold p_reread', cbind, lex', lex_price; cbv zeta.
  destruct s as [g df [r la el] c]. destruct la as [|t la]; [unfold phi in *; cb; lia|].
  replace (repeek_token (p_lexer (PSt g df (Lexer r (t :: la) el) c))) with (@Ok lex_error _ (t, Lexer r (t :: la) el))
    by reflexivity.
  destruct (is_t t d) eqn:E.
  - pose proof (gt_is _ _ E Hd) as G. unfold gt in G. unfold phi in *. cb. cbn [W] in *.
    exists K. split; [exact Hi|]. destruct (is_eof t); [discriminate|]. lia.
  - unfold phi in *. cb. cbn [W] in *. lia.
Qed.
Hint Extern 1 (_ <> _) => discriminate : co.
Hint Resolve co_expect co_matches_token co_matches co_matches_op co_reread : co.
Lemma co_arg : costs (p_has_arg_same_line' V) 2 (fun _ => 0). Proof. co p_has_arg_same_line'. Qed.
Lemma co_vec_span ls : costs (p_vec_span' ls) 2 (fun _ => 0). Proof. co p_vec_span'. Qed.
Lemma co_semi {A} set start nl (f : semi -> A) : costs (end_with_auto_semi' V set start nl f) 6 (fun _ => 0).
Proof. co @end_with_auto_semi'. Qed.
Lemma co_unexpected {A} : costs (@unexpected' A) 2 (fun _ => K). Proof. co @unexpected'. Qed.
Hint Resolve co_arg co_vec_span co_semi co_unexpected : co.
Lemma co_strict_check f : costs f 1 (fun _ => 0) -> costs (strict_check' f) 5 (fun _ => 0).
Proof. co strict_check'. Qed.
Lemma co_id_check b n l : costs (id_check' b n l) 1 (fun _ => 0).
Proof. co id_check'. Qed.
Lemma co_new_id b n l : costs (new_id' b n l) 6 (fun _ => 0).
Proof. unfold new_id', costs. apply cw_bind. eapply cw_costs; [apply co_strict_check, co_id_check|lia|]. cw. Qed.
Hint Resolve co_new_id : co.
Lemma co_new_id_from_token b t : costs (new_id_from_token' b t) 6 (fun _ => 0). Proof. co new_id_from_token'. Qed.
Lemma co_id b : costs (p_id' V b) 7 (fun _ => K). Proof. co p_id'. Qed.
Lemma co_id_opt b : costs (p_id_opt' V b) 8 (opt K). Proof. co p_id_opt'. Qed.
Lemma co_binding : costs (binding_pattern' V) 3 (fun _ => K). Proof. co binding_pattern'. Qed.
Hint Resolve co_new_id_from_token co_id co_id_opt co_binding : co.
Lemma co_pattern : costs (pattern_' V) 9 (fun _ => K). Proof. co pattern_'. Qed.
Lemma co_directive : costs (match_directive_opt' V) 10 (opt K). Proof. co match_directive_opt'. Qed.
Hint Resolve co_pattern co_directive : co.
Lemma co_pragma d : costs (apply_pragma' d) 4 (fun _ => 0).
Proof. co apply_pragma'. unfold set_module'. cw. Qed.
Hint Resolve co_pragma : co.

(** ** The methods of the parser, given the cost of those it recurs through *)

Context (R : recs').
Context (HA : costs (r_assign' R) CA (fun _ => K)) (HI : forall d, costs (r_item' R d) CI (fun _ => K)).
Hint Resolve HA HI : co.

Lemma co_more_comma {A} (x : A) f c : costs f c (fun _ => 0) -> c + 10 <= K ->
  costs (more_comma' V R x f) 5 (fun _ => 0).
Proof. intros Hf Hc. co @more_comma'. Qed.
Lemma co_comma_separated {A} (f : C A) c : costs f c (fun _ => K) -> c + 10 <= K -> 0 <= c ->
  costs (comma_separated' V R f) (c + 5) (fun _ => K).
Proof.
  intros Hf Hc H0. unfold comma_separated', costs. apply cw_bind. eapply cw_costs; [exact Hf|lia|]. intros a.
  eapply cw_costs; [apply (co_more_comma a f c)|lia|intros; lia]; [|lia].
  intros s Hi. specialize (Hf s Hi). destruct (f s) as [k [[y s1]|e|p|]]; try exact Hf.
  destruct Hf as (b' & Hi' & Hb & H). exists b'. split; [exact Hi'|]. split; [exact Hb|lia].
Qed.
Lemma HA0 : costs (r_assign' R) CA (fun _ => 0).
Proof.
  intros s Hi. specialize (HA s Hi). destruct (r_assign' R s) as [k [[y s1]|e|p|]]; try exact HA.
  destruct HA as (b' & Hi' & Hb & H). exists b'. split; [exact Hi'|]. split; [exact Hb|lia].
Qed.
Lemma co_more_expressions e : costs (more_expressions' V R e) 9 (fun _ => 0).
Proof.
  unfold more_expressions', costs. do 2 cstep. cstep; [cw|]. cstep.
  eapply cw_costs; [apply (co_more_comma _ _ CA HA0); lia|arith|into]. cw.
Qed.
Hint Resolve co_more_expressions : co.
Lemma co_expression : costs (expression' V R) (CA + 9) (fun _ => K). Proof. co expression'. Qed.
Hint Resolve co_expression : co.
Lemma co_paren : costs (paren_expression' V R) 2 (fun _ => K). Proof. co paren_expression'. Qed.
Lemma co_formals : costs (formal_parameters' V R) 3 (fun _ => K). Proof. co formal_parameters'. Qed.
Lemma co_statement_list : costs (statement_list' V R) (CI + 5) (fun _ => CI).
Proof. co statement_list'. Qed.
Lemma co_directives : costs (body_directives' V R) 15 (fun _ => 0). Proof. co body_directives'. Qed.
Hint Resolve co_paren co_formals co_statement_list co_directives : co.
Lemma co_script_body : costs (script_body' V R) (CI + 25) (fun _ => CI). Proof. co script_body'. Qed.
Lemma co_body_check b ps : costs (body_check' b ps) 1 (fun _ => 0). Proof. co body_check'. Qed.
Hint Resolve co_script_body : co.
Lemma co_body_strict b ps : costs (strict_check' (body_check' b ps)) 5 (fun _ => 0).
Proof. apply co_strict_check, co_body_check. Qed.
Hint Resolve co_body_strict : co.
Lemma co_function_body ps : costs (function_body' V R ps) 4 (fun _ => K). Proof. co function_body'. Qed.
Hint Resolve co_function_body : co.
Lemma co_function {I} (g : C I) : costs g 10 (fun _ => 0) -> costs (function_' V R g) 3 (fun _ => K).
Proof. intros Hg. co @function_'. Qed.
Lemma co_id0 b : costs (p_id' V b) 10 (fun _ => 0).
Proof. co p_id'. Qed.
Lemma co_id_opt0 b : costs (p_id_opt' V b) 10 (fun _ => 0).
Proof. co p_id_opt'. Qed.
Lemma co_fun_id : costs (function_' V R (p_id' V true)) 3 (fun _ => K). Proof. apply co_function, co_id0. Qed.
Lemma co_fun_id_opt : costs (function_' V R (p_id_opt' V true)) 3 (fun _ => K).
Proof. apply co_function, co_id_opt0. Qed.
Hint Resolve co_fun_id co_fun_id_opt : co.
Lemma co_function_declaration : costs (function_declaration' V R) 8 (fun _ => K). Proof. co function_declaration'. Qed.
Lemma co_list_item : costs (expr_list_item' V R) (CA + 3) (fun _ => K). Proof. co expr_list_item'. Qed.
Hint Resolve co_function_declaration co_list_item : co.
Lemma co_element : costs (array_element' V R) (CA + 5) (fun _ => CA). Proof. co array_element'. Qed.
Hint Resolve co_element : co.
Lemma co_array t : costs (array_literal' V R t) (CA + 15) (fun _ => CA). Proof. co array_literal'. Qed.
Lemma co_more_prop_init k : costs (more_prop_init' V R k) (CA + 8) (fun _ => 0). Proof. co more_prop_init'. Qed.
Lemma co_key_opt : costs (property_key_opt' V) 3 (opt K). Proof. co property_key_opt'. Qed.
Hint Resolve co_array co_more_prop_init co_key_opt : co.
Lemma co_key : costs (property_key' V) 5 (fun _ => K). Proof. co property_key'. Qed.
Hint Resolve co_key : co.
Lemma co_property : costs (object_property' V R) 9 (fun _ => 0). Proof. co object_property'. Qed.
Hint Resolve co_property : co.
Lemma co_object t : costs (object_literal' V R t) 20 (fun _ => 0). Proof. co object_literal'. Qed.
Hint Resolve co_object : co.
Lemma co_primary : costs (primary_expression' V R) 9 (fun _ => K - 30). Proof. co primary_expression'. Qed.
Hint Resolve co_primary : co.
Lemma co_member_base : costs (member_base_expression' V R) 12 (fun _ => K - 30). Proof. co member_base_expression'. Qed.
Lemma co_arguments : costs (arguments_' V R) 4 (fun _ => K). Proof. co arguments_'. Qed.
Lemma co_deref_brack : costs (deref_brack' V R) 2 (fun _ => K). Proof. co deref_brack'. Qed.
Lemma co_id_name : costs (id_name_' V) 2 (fun _ => K). Proof. co id_name_'. Qed.
Hint Resolve co_member_base co_arguments co_deref_brack co_id_name : co.
Lemma co_deref_dot : costs (deref_dot' V) 2 (fun _ => K). Proof. co deref_dot'. Qed.
Hint Resolve co_deref_dot : co.
Lemma co_deref_opt : costs (deref_opt' V R) 5 (opt K). Proof. co deref_opt'. Qed.
Lemma co_suffix_opt : costs (suffix_opt' V R) 6 (opt K). Proof. co suffix_opt'. Qed.
Hint Resolve co_deref_opt co_suffix_opt : co.
Lemma co_more_suffixes e : costs (more_suffixes' V R e) 8 (fun _ => 0). Proof. co more_suffixes'. Qed.
Hint Resolve co_more_suffixes : co.
Definition len {A} (l : list A) : Z := Z.of_nat (length l).
Lemma len_rev {A} (l : list A) : len (rev l) = len l. Proof. unfold len. rewrite rev_length. reflexivity. Qed.
Lemma len_snoc {A} (l : list A) x : len (l ++ [x]) = len l + 1.
Proof. unfold len. rewrite app_length. cbn [length]. lia. Qed.
Lemma len_cons {A} (l : list A) x : len (x :: l) = len l + 1. Proof. unfold len. cbn [length]. lia. Qed.
Lemma len_pos {A} (l : list A) : 0 <= len l. Proof. unfold len. lia. Qed.
Lemma co_apply_news news : forall b e, costs (apply_news' V R b news e) (7 * len news + 1) (fun _ => 0).
Proof.
  induction news as [|n news IH]; intros b e; cbn [apply_news']; [unfold costs; cw; unfold len; cbn; lia|].
  rewrite len_cons. pose proof (len_pos news). unfold costs.
  destruct b; repeat cstep; try arith;
    (eapply cw_weaken; [apply IH|arith]).
Qed.
Lemma co_more_new news e : costs (more_new_expression' V R news e) (7 * len news + 20) (fun _ => 0).
Proof.
  unfold more_new_expression', costs. pose proof (len_pos news). cstep. apply cw_loop; [arith|into]. cw.
  eapply cw_costs; [apply co_apply_news|rewrite len_rev; arith|into]. rewrite len_rev. cw.
Qed.
Hint Resolve co_more_new : co.
Lemma co_new news : costs (new_expression' V R news) (7 * len news + 12) (fun _ => K - 50).
Proof. pose proof (len_pos news). co new_expression'. Qed.
Lemma co_call : costs (call_expression' V R) 9 (fun _ => K - 50). Proof. co call_expression'. Qed.
Lemma co_read_news : costs (read_news' V R) 5 (fun news => 1 + 20 * len news).
Proof.
  unfold read_news', costs. apply (cw_loopI (fun news => 5 + 20 * len news)).
  - intros a. pose proof (len_pos a). lia.
  - intros a. pose proof (len_pos a). cw. rewrite len_snoc. arith.
  - unfold len. cbn. lia.
Qed.
Hint Resolve co_new co_call : co.
Lemma co_lhs : costs (lhs_expression' V R) 18 (fun _ => K - 60).
Proof.
  unfold lhs_expression', costs. cstep. eapply cw_costs; [apply co_read_news|arith|intros news].
  pose proof (len_pos news). pose proof (len_rev news) as Er. destruct (rev news) as [|n news']; [cw|].
  rewrite len_cons in Er. pose proof (len_pos news'). rewrite <- Er.
  cstep. cstep. destruct x; cbn [tru].
  - cstep. cstep. cbv zeta. destruct news' as [|n' news']; [cw|].
    eapply cw_costs; [apply co_more_new|rewrite len_rev; lia|intros]. rewrite len_rev. lia.
  - eapply cw_costs; [apply co_new|lia|intros]. lia.
Qed.
Lemma co_match_unop : costs (match_unop' V) 3 (opt K). Proof. co match_unop'. Qed.
Hint Resolve co_lhs co_match_unop : co.
Lemma co_match_prefix : costs (match_prefix' V) 6 (opt K). Proof.
  co match_prefix'. match goal with o : option unop |- _ => destruct o end; cbn [opt option_map]; lia.
Qed.
Lemma co_match_postfix : costs (match_postfix_operator_opt' V) 3 (fun _ => 0). Proof. co match_postfix_operator_opt'. Qed.
Lemma co_to_target e : costs (to_target' e) 1 (fun _ => 0). Proof. co to_target'. Qed.
Lemma co_to_patt e : costs (to_patt' e) 1 (fun _ => 0). Proof. co to_patt'. Qed.
Hint Resolve co_match_prefix co_match_postfix co_to_target co_to_patt : co.
Lemma co_apply_postfix p e : costs (apply_postfix' p e) 2 (fun _ => 0). Proof. co apply_postfix'. Qed.
Lemma co_apply_prefixes ps : forall e, costs (apply_prefixes' ps e) (len ps + 1) (fun _ => 0).
Proof.
  induction ps as [|p ps IH]; intros e; cbn [apply_prefixes']; [unfold costs; cw; unfold len; cbn; lia|].
  rewrite len_cons. pose proof (len_pos ps). unfold costs.
  destruct p; repeat cstep; try arith; (eapply cw_weaken; [apply IH|arith]).
Qed.
Lemma co_read_prefixes : costs (read_prefixes' V R) 9 (fun ps => 1 + 5 * len ps).
Proof.
  unfold read_prefixes', costs. apply (cw_loopI (fun ps => 9 + 5 * len ps)).
  - intros a. pose proof (len_pos a). lia.
  - intros a. pose proof (len_pos a). cw. rewrite len_snoc. arith.
  - unfold len. cbn. lia.
Qed.
Hint Resolve co_apply_postfix co_read_prefixes : co.
Lemma co_unary : costs (unary_expression' V R) 27 (fun _ => K - 70).
Proof.
  unfold unary_expression', costs. cstep. eapply cw_costs; [apply co_read_prefixes|arith|intros ps].
  pose proof (len_pos ps). cw; (eapply cw_costs; [apply co_apply_prefixes|rewrite len_rev; lia|intros]);
    rewrite len_rev; lia.
Qed.
Lemma co_match_infix : costs (match_infix' V) 4 (opt K). Proof. co match_infix'. Qed.
Hint Resolve co_unary co_match_infix : co.
Lemma co_more_infix e : costs (more_infix_expressions' V R e) 6 (fun _ => 0). Proof. co more_infix_expressions'. Qed.
Lemma co_more_conditional e : costs (more_conditional' V R e) 4 (fun _ => 0). Proof. co more_conditional'. Qed.
Hint Resolve co_more_infix co_more_conditional : co.
Lemma co_conditional : costs (conditional_expression' V R) 27 (fun _ => K - 80). Proof. co conditional_expression'. Qed.
Lemma co_more_assignment e : costs (more_assignment' V R e) 3 (fun _ => 0). Proof. co more_assignment'. Qed.
Hint Resolve co_conditional co_more_assignment : co.
Lemma co_assignment : costs (assignment_expression' V R) CA (fun _ => K). Proof. co assignment_expression'. Qed.

(** ** Statements *)

Lemma co_statement : costs (statement' R) (CI + 1) (fun _ => K). Proof. co statement'. Qed.
Lemma co_more_labels i : costs (more_labels' V R i) 12 (fun _ => 0). Proof. co more_labels'. Qed.
Hint Resolve co_statement co_more_labels : co.
Lemma co_labelled i : costs (labelled_statement' V R i) 2 (fun _ => K). Proof. co labelled_statement'. Qed.
Lemma co_expression_statement : costs (expression_statement' V R) (CA + 20) (fun _ => K). Proof. co expression_statement'. Qed.
Lemma co_block : costs (block_' V R) 3 (fun _ => K). Proof. co block_'. Qed.
Lemma co_declarator : costs (declarator' V R) 20 (fun _ => K). Proof. co declarator'. Qed.
Lemma co_const_declarator : costs (const_declarator' V R) 9 (fun _ => K). Proof. co const_declarator'. Qed.
Hint Resolve co_labelled co_expression_statement co_block co_declarator co_const_declarator : co.
Lemma co_declarators : costs (comma_separated' V R (declarator' V R)) 25 (fun _ => K).
Proof. apply (co_comma_separated _ 20); [apply co_declarator|lia|lia]. Qed.
Lemma co_const_declarators : costs (comma_separated' V R (const_declarator' V R)) 14 (fun _ => K).
Proof. apply (co_comma_separated _ 9); [apply co_const_declarator|lia|lia]. Qed.
Lemma co_more_declarators d : costs (more_comma' V R d (declarator' V R)) 5 (fun _ => 0).
Proof. apply (co_more_comma _ _ 20); [|lia]. eapply cw_costs; [apply co_declarator|lia|intros; lia]. Qed.
Lemma co_more_const d : costs (more_comma' V R d (const_declarator' V R)) 5 (fun _ => 0).
Proof. apply (co_more_comma _ _ 9); [|lia]. eapply cw_costs; [apply co_const_declarator|lia|intros; lia]. Qed.
Hint Resolve co_declarators co_const_declarators co_more_declarators co_more_const : co.
Lemma co_var : costs (var_statement' V R) 3 (fun _ => K). Proof. co var_statement'. Qed.
Lemma co_let st : costs (let_declaration' V R st) 40 (fun _ => K). Proof. co let_declaration'. Qed.
Lemma co_const : costs (const_declaration' V R) 3 (fun _ => K). Proof. co const_declaration'. Qed.
Lemma co_empty : costs (empty_statement' V) 6 (fun _ => K). Proof. co empty_statement'. Qed.
Lemma co_if : costs (if_statement' V R) 3 (fun _ => K). Proof. co if_statement'. Qed.
Lemma co_iteration_body : costs (iteration_body' R) (CI + 6) (fun _ => K). Proof. co iteration_body'. Qed.
Hint Resolve co_var co_let co_const co_empty co_if co_iteration_body : co.
Lemma co_do : costs (do_statement' V R) 3 (fun _ => K). Proof. co do_statement'. Qed.
Lemma co_while : costs (while_statement' V R) 3 (fun _ => K). Proof. co while_statement'. Qed.
Lemma co_opt_semi : costs (expression_opt_semi' V R) (CA + 20) (fun _ => K). Proof. co expression_opt_semi'. Qed.
Hint Resolve co_do co_while co_opt_semi : co.
Lemma co_more_for h : costs (more_for' V R h) (CA + 20) (fun _ => K). Proof. co more_for'. Qed.
Lemma co_more_for_in h : costs (more_for_in' V R h) (CA + 10) (fun _ => K). Proof. co more_for_in'. Qed.
Lemma co_more_for_of h : costs (more_for_of' V R h) (CA + 10) (fun _ => K). Proof. co more_for_of'. Qed.
Hint Resolve co_more_for co_more_for_in co_more_for_of : co.
Lemma co_more_for_head l d o : costs (more_for_head' V R l d o) 12 (fun _ => K). Proof. co more_for_head'. Qed.
Hint Resolve co_more_for_head : co.
Lemma co_for_expr : costs (for_expr' V R) (CA + 20) (fun _ => K). Proof. co for_expr'. Qed.
Hint Resolve co_for_expr : co.
Lemma co_for_var : costs (for_var' V R) 2 (fun _ => K). Proof. co for_var'. Qed.
Lemma co_for_let : costs (for_let' V R) (CA + 40) (fun _ => K). Proof. co for_let'. Qed.
Lemma co_for_const : costs (for_const' V R) (CA + 40) (fun _ => K). Proof. co for_const'. Qed.
Hint Resolve co_for_var co_for_let co_for_const : co.
Lemma co_for : costs (for_statement' V R) 3 (fun _ => K). Proof. co for_statement'. Qed.
Lemma co_case : costs (case_' V R) 3 (fun _ => K). Proof. co case_'. Qed.
Lemma co_default : costs (default_' V R) 3 (fun _ => K). Proof. co default_'. Qed.
Hint Resolve co_for co_case co_default : co.
Lemma co_cases : costs (switch_cases' V R) 2 (fun _ => K). Proof. co switch_cases'. Qed.
Hint Resolve co_cases : co.
Lemma co_switch : costs (switch_statement' V R) 3 (fun _ => K). Proof. co switch_statement'. Qed.
Lemma co_break : costs (break_statement' V) 30 (fun _ => K). Proof. co break_statement'. Qed.
Lemma co_continue : costs (continue_statement' V) 30 (fun _ => K). Proof. co continue_statement'. Qed.
Lemma co_return : costs (return_statement' V R) 30 (fun _ => K). Proof. co return_statement'. Qed.
Lemma co_with : costs (with_statement' V R) 3 (fun _ => K).
Proof.
  unfold with_statement', costs. do 3 cstep. cstep.
  eapply cw_costs; [apply co_strict_check; unfold costs; cw|arith|into]. cw.
Qed.
Lemma co_throw : costs (throw_statement' V R) 10 (fun _ => K). Proof. co throw_statement'. Qed.
Lemma co_catch_opt : costs (catch_opt' V R) 6 (fun _ => 0). Proof. co catch_opt'. Qed.
Lemma co_finally_opt : costs (finally_opt' V R) 6 (fun _ => 0). Proof. co finally_opt'. Qed.
Hint Resolve co_switch co_break co_continue co_return co_with co_throw co_catch_opt co_finally_opt : co.
Lemma co_try : costs (try_statement' V R) 3 (fun _ => K). Proof. co try_statement'. Qed.
Lemma co_debugger : costs (debugger_statement' V) 20 (fun _ => K). Proof. co debugger_statement'. Qed.
Hint Resolve co_try co_debugger : co.
Lemma co_ident_item d : costs (ident_item' V R d) (CA + 40) (fun _ => K). Proof. co ident_item'. Qed.
Hint Resolve co_ident_item : co.
Lemma co_item d : costs (stmt_list_item' V R d) CI (fun _ => K). Proof. co stmt_list_item'. Qed.

(** ** Programs *)

Lemma co_more_module items : costs (more_module_items' V R items) (CI + 10) (fun _ => 0). Proof. co more_module_items'. Qed.
Lemma co_force : costs force_deferred_module_validation' 5 (fun _ => 0).
Proof. co force_deferred_module_validation'. try (unfold take_deferred'; cw). Qed.
Hint Resolve co_more_module co_force : co.
Lemma co_program_items : costs (program_items_' V R) (CI + 30) (fun _ => 0). Proof. co program_items_'. Qed.
Lemma co_assert : costs assert_goal_unknown' 2 (fun _ => 0). Proof. co assert_goal_unknown'. Qed.
Hint Resolve co_program_items co_assert : co.
Lemma co_module : costs (module_' V R) (CI + 60) (fun _ => 0).
Proof. co module_'. try (unfold set_module'; cw); try (unfold module_items'; cw). Qed.
Lemma co_program : costs (program_' V R) (CI + 70) (fun _ => 0).
Proof. co program_'. try (unfold take_deferred'; cw). Qed.
Lemma co_script st : costs (script_' V R st) (CI + 60) (fun _ => 0). Proof. co script_'. Qed.
End Cost.

Section Top.
Context (V : env) (src : str).
Context (HV : ucd_ok V).

Lemma co_rec n : costs src (r_assign' (parse_rec' V n)) CA (fun _ => K)
  /\ forall d, costs src (r_item' (parse_rec' V n) d) CI (fun _ => K).
Proof.
  induction n as [|n [IA II]]; cbn [parse_rec' r_assign' r_item'].
  - split; intros; apply cw_nofuel; lia.
  - split; [apply co_assignment|intros; apply co_item]; assumption.
Qed.

(** A method that costs [c] takes at most [K + 1] steps per character, and [c] more. *)
Lemma steps_bound {A} (m : C A) c g : costs src m c g ->
  Z.of_nat (steps (fst (crun m (parser_new src)))) <= (K + 1) * Z.of_nat (length src) + c - match crun m (parser_new src) with
    | (_, Ok a) => g a | _ => 0 end.
Proof.
  intros H. specialize (H (parser_new src)). unfold crun.
  assert (inv src (parser_new src)) as Hi by (exists 0%nat; apply rd_at_new).
  specialize (H Hi). assert (phi (parser_new src) = (K + 1) * Z.of_nat (length src)) as E.
  { unfold phi. cbn [parser_new p_lexer lexer_new lx_rd rd_new rest lx_ahead W]. lia. }
  rewrite E in H. destruct (m (parser_new src)) as [k [[a s']|e|p|]]; cbn [fst]; try lia.
  destruct H as (b' & _ & Hb & Hg). pose proof (phi_pos s'). lia.
Qed.

Lemma script_steps st : Z.of_nat (steps (fst (crun (script_' V (parse_rec' V (fuel_for src)) st) (parser_new src))))
  <= (K + 1) * Z.of_nat (length src) + (CI + 70).
Proof.
  destruct (co_rec (fuel_for src)) as [HA HI].
  pose proof (steps_bound _ _ _ (co_script V src HV _ HI st)) as H.
  destruct (crun _ _) as [k [a|e|p|]]; cbn [fst] in *; lia.
Qed.
Lemma module_steps : Z.of_nat (steps (fst (crun (module_' V (parse_rec' V (fuel_for src))) (parser_new src))))
  <= (K + 1) * Z.of_nat (length src) + (CI + 70).
Proof.
  destruct (co_rec (fuel_for src)) as [HA HI].
  pose proof (steps_bound _ _ _ (co_module V src HV _ HI)) as H.
  destruct (crun _ _) as [k [a|e|p|]]; cbn [fst] in *; lia.
Qed.
Lemma program_steps : Z.of_nat (steps (fst (crun (program_' V (parse_rec' V (fuel_for src))) (parser_new src))))
  <= (K + 1) * Z.of_nat (length src) + (CI + 70).
Proof.
  destruct (co_rec (fuel_for src)) as [HA HI].
  pose proof (steps_bound _ _ _ (co_program V src HV _ HI)) as H.
  destruct (crun _ _) as [k [a|e|p|]]; cbn [fst] in *; lia.
Qed.
End Top.
