(** Completeness of the parser, part 4: names, functions, bodies, object literals and
    primary expressions. *)
From Coq Require Import String Ascii List NArith Arith Bool Lia.
From Verif Require Import Base Chars F64 Word Token Reader Lexer Punc Ast Track Cover Stack PState Parser Wp
  SpecReader SpecLexer SpecStack SpecTree StackProofs CoverProofs SpecGrammar LexWp LexTheorems ParserWp ParserOps
  GrammarProps CompBase CompTok CompExpr.
Import ListNotations.
Local Open Scope nat_scope.

Section Claims.
Context (V : env) (src : str).
Context (HV : ucd_ok V).
Context (gl : goal) (tr : tri) (md : mode).
Context (Hmode : (md = Sloppy -> tr <> Yes /\ gl <> G_Module) /\ (md = Strict -> gl <> G_Module)).
Notation st := (CompBase.st V src gl tr md).
Notation gives := (CompBase.gives V src gl tr md).
Notation lexed := (lexed V src).
Notation R := (R V).
Notation cExpr := (cExpr V src gl tr md).
Notation cAssign := (cAssign V src gl tr md).
Notation cPrimary := (cPrimary V src gl tr md).
Notation cElements := (cElements V src gl tr md).

(** ** Names *)

Definition cName (bd : bool) (g : place) (i o : tokens) (x : id) : Prop :=
  exists t n, i = t :: o /\ tk_value t = TIdent n /\ name_ok (pl_mode g) bd n /\ x = Id (Some (tk_loc t)) n.
Definition cPattern (g : place) (i o : tokens) (p : patt id) : Prop :=
  exists x, p = Simple x /\ cName true g i o x.

Lemma k_id bd g i o x b s T (K : id -> P T) Q : cName bd g i o x -> st b g i s ->
  (forall b' s', st b' g o s' -> runs (K x) s' Q) -> runs (bind (p_id V bd) K) s Q.
Proof.
  intros (t & n & -> & E & Hn & ->) S HK. unfold p_id. apply runs_assoc. eapply k_read; [exact HV|exact S|fit|].
  intros s1 _ S1. unfold as_ident. rewrite E. eapply k_new_id; [exact Hmode|exact S1|exact Hn|]. intros s2 S2. eapply HK, S2.
Qed.
Lemma k_id_opt_some g i o x b s T (K : option id -> P T) Q : cName true g i o x -> st b g i s ->
  (forall b' s', st b' g o s' -> runs (K (Some x)) s' Q) -> runs (bind (p_id_opt V true) K) s Q.
Proof.
  intros (t & n & -> & E & Hn & ->) S HK. unfold p_id_opt. apply runs_assoc. eapply k_read; [exact HV|exact S|fit|].
  intros s1 _ S1. unfold as_ident. rewrite E. apply runs_assoc. eapply k_new_id; [exact Hmode|exact S1|exact Hn|].
  intros s2 S2. apply runs_ret_bind. eapply HK, S2.
Qed.
Lemma k_id_opt_none g t i b s T (K : option id -> P T) Q : as_ident t = None -> fits false t -> st b g (t :: i) s ->
  (forall b' s', st b' g (t :: i) s' -> runs (K None) s' Q) -> runs (bind (p_id_opt V true) K) s Q.
Proof.
  intros E Hf S HK. unfold p_id_opt. apply runs_assoc. pose proof (st_le _ _ _ _ _ _ _ _ _ S).
  eapply k_read; [exact HV|exact S|right; exact Hf|].
  intros s1 Hl S1. rewrite E. apply runs_assoc. eapply k_unread; [exact S1|lia|exact Hl|]. intros s2 S2.
  apply runs_ret_bind. eapply HK, S2.
Qed.
Lemma k_pattern g i o p b s T (K : patt id -> P T) Q : cPattern g i o p -> st b g i s ->
  (forall b' s', st b' g o s' -> runs (K p) s' Q) -> runs (bind (pattern_ V) K) s Q.
Proof.
  intros (x & -> & H) S HK. unfold pattern_. apply runs_assoc. pose proof H as (t & n & -> & E & _).
  eapply k_peek; [exact HV|exact S|fit|]. intros s1 S1. unfold as_ident. rewrite E. apply runs_assoc.
  eapply k_id; [exact H|exact S1|]. intros b2 s2 S2. apply runs_ret_bind. eapply HK, S2.
Qed.

(** ** Parameters *)

Definition plbody (list_ : list (patt id)) :
    P (list (patt id) + (list (patt id) * option (rest_patt id))) :=
  t <- p_peek V ;;
  if is_t t (TPunc T_RParen) then ret (inr (list_, None))
  else if is_t t (TPunc T_Ellipsis) then
    r <- p_span rest_set_loc (
           p_reread (TPunc T_Ellipsis) ;;;
           p <- pattern_ V ;;
           ret (RestPatt None p)) ;;
    ret (inr (list_, Some r))
  else
    p <- pattern_ V ;;
    b <- p_matches V (TPunc T_Comma) ;;
    if b : bool then ret (inl (list_ ++ [p])) else ret (inr (list_ ++ [p], None)).
Definition eqr (r r' : option (rest_patt id)) : Prop :=
  option_map (rest_untrack (patt_untrack id_untrack)) r' = option_map (rest_untrack (patt_untrack id_untrack)) r.
Definition cParamList (g : place) (i o : tokens) (a : list (patt id) * option (rest_patt id)) : Prop :=
  forall f acc s b, W i < f -> next (fun t => tk_value t = TPunc T_RParen) o -> st b g i s ->
    runs (loopM f plbody acc) s (gives 0 g o (fun a' => fst a' = acc ++ fst a /\ eqr (snd a) (snd a'))).
Lemma c_pl_nil g i : cParamList g i i ([], None).
Proof.
  intros f acc s b Hw (t & o & -> & E) S. apply runs_loop; [lia|]. intros f' ->. unfold plbody at 1. apply runs_assoc.
  eapply k_peek; [exact HV|exact S|fit|]. intros s1 S1. dec_t. apply runs_ret_bind. apply runs_ret.
  split; [split; [rewrite app_nil_r; reflexivity|reflexivity]|]. eexists. split; [|exact S1]. lia.
Qed.
Lemma c_pl_rest g i i1 o l p : op_ T_Ellipsis i i1 -> cPattern g i1 o p -> cParamList g i o ([], Some (RestPatt l p)).
Proof.
  intros Hc Hp f acc s b Hw Ho S. op_eat. apply runs_loop; [lia|]. intros f' ->. unfold plbody at 1. apply runs_assoc.
  eapply k_peek; [exact HV|exact S|fit|]. intros s1 S1. dec_t. apply runs_assoc. apply k_span. apply runs_assoc.
  eapply k_reread; [exact HV|exact S1|lia|ist|]. intros s2 _ S2. apply runs_assoc.
  eapply k_pattern; [exact Hp|exact S2|]. intros b3 s3 S3. apply runs_ret_bind. apply runs_posn. intros q.
  apply runs_ret_bind. apply runs_ret. split; [split; [cbn; rewrite app_nil_r; reflexivity|reflexivity]|].
  eexists. split; [|exact S3]. lia.
Qed.
Lemma pattern_first g i o p : cPattern g i o p -> exists t n, i = t :: o /\ tk_value t = TIdent n.
Proof. intros (x & -> & t & n & -> & E & _). eauto. Qed.
Lemma c_pl_last g i o p : cPattern g i o p -> cParamList g i o ([p], None).
Proof.
  intros Hp f acc s b Hw (t2 & o' & -> & E2) S. destruct (pattern_first _ _ _ _ Hp) as (t & n & -> & E).
  apply runs_loop; [lia|]. intros f' ->. unfold plbody at 1. apply runs_assoc.
  eapply k_peek; [exact HV|exact S|fit|]. intros s1 S1. dec_t. apply runs_assoc.
  eapply k_pattern; [exact Hp|exact S1|]. intros b3 s3 S3. apply runs_assoc.
  eapply k_matches_no; [exact HV|exact S3|fit|ist|]. intros s4 S4. apply runs_ret_bind. apply runs_ret.
  split; [split; reflexivity|]. eexists. split; [|exact S4]. lia.
Qed.
Lemma c_pl_cons g i i1 i2 o p ps r : cPattern g i i1 p -> op_ T_Comma i1 i2 -> cParamList g i2 o (ps, r) ->
  cParamList g i o (p :: ps, r).
Proof.
  intros Hp Hc H f acc s b Hw Ho S. destruct (pattern_first _ _ _ _ Hp) as (t & n & -> & E).
  pose proof (W_eat _ _ _ Hc ltac:(discriminate)) as Hw2. rewrite W_cons1 in Hw by congruence. op_eat.
  apply runs_loop; [lia|]. intros f' ->. unfold plbody at 1. apply runs_assoc.
  eapply k_peek; [exact HV|exact S|fit|]. intros s1 S1. dec_t. apply runs_assoc.
  eapply k_pattern; [exact Hp|exact S1|]. intros b3 s3 S3. apply runs_assoc.
  eapply k_matches_yes; [exact HV|exact S3|fit|ist|]. intros s4 S4. apply runs_ret_bind.
  eapply runs_conseq; [eapply (H f' (acc ++ [p])); [lia|exact Ho|exact S4]|].
  intros [l' r'] s' ((E1 & Er) & HS). split; [|exact HS]. cbn in *. rewrite E1, <- app_assoc. split; [reflexivity|exact Er].
Qed.
Definition cParameters (g : place) (i o : tokens) (ps : params) : Prop :=
  forall N s b, fu 2 i N -> st b g i s ->
    runs (formal_parameters V (R N)) s (gives 0 g o (fun ps' => params_untrack ps' = params_untrack ps)).
Lemma c_params g i i1 i2 o l ps r : op_ T_LParen i i1 -> cParamList g i1 i2 (ps, r) -> op_ T_RParen i2 o ->
  cParameters g i o (Params l ps r).
Proof.
  intros H1 H H2 N s b Hf S. pose proof (W_eat _ _ _ H1 ltac:(discriminate)) as Hw. unfold fu in Hf.
  unfold formal_parameters. eapply r_span with (Q' := fun ps' => params_untrack ps' = params_untrack (Params l ps r)).
  - op_eat. eapply k_expect; [exact HV|exact S|fit|ist|]. intros s1 S1.
    eapply k_call; [eapply (H (r_fuel (R N)) []); [rewrite R_fuel; lia|exists t, o; auto|exact S1]|].
    intros [ps' r'] b2 s2 [E1 Er] _ S2. eapply k_expect; [exact HV|exact S2|fit|ist|]. intros s3 S3. apply runs_ret.
    split; [|eexists; split; [|exact S3]; lia]. cbn [fst snd app] in *. subst ps'. unfold params_untrack. cbn [pa_loc pa_list pa_rest].
    unfold eqr in Er. rewrite Er. reflexivity.
  - intros [a1 a2 a3] l' Ha. exact Ha.
Qed.

(** ** Bodies *)

Definition quoted (d : dir) : Prop := exists q r, (q = 34%N \/ q = 39%N) /\ str_source (dir_string d) = Some (q :: r).
Lemma quoted_pragma d T (K : unit -> P T) Q s : quoted d -> runs (K tt) s Q -> runs (bind (apply_pragma d) K) s Q.
Proof.
  intros (q & r & Hq & E) H. unfold apply_pragma, dir_pragma. rewrite E. destruct Hq as [-> | ->]; exact H.
Qed.

Lemma continuation_iff t : expression_continuation t = true <-> continues t.
Proof.
  unfold expression_continuation, continues. destruct (tk_value t) as [r|p| | | |]; split; intros H;
    try discriminate H;
    try (destruct H as [[H|[H|[]]]|[(_ & [H|[H|[]]])|(p' & H & _)]]; discriminate H).
  - destruct r; try discriminate H; left; cbn; auto.
  - destruct H as [[H|[H|[]]]|[(_ & [H|[H|[]]])|(p' & H & _)]]; try discriminate H; injection H as <-; reflexivity.
  - assert (Hd : (p = T_Inc \/ p = T_Dec) \/ (p <> T_Inc /\ p <> T_Dec))
      by (destruct p; auto; right; split; discriminate).
    destruct Hd as [Hd|[Hd1 Hd2]].
    + right. left. destruct Hd as [-> | ->]; destruct (tk_newline t); try discriminate H; cbn; auto.
    + right. right. exists p. split; [reflexivity|]. destruct p; try discriminate H; try congruence; cbn; intuition discriminate.
  - destruct H as [[H|[H|[]]]|[(Hn & H)|(p' & Hp & Hx)]]; try discriminate H.
    + rewrite Hn. destruct H as [H|[H|[]]]; injection H as <-; reflexivity.
    + injection Hp as <-. destruct p; try reflexivity; exfalso; apply Hx; cbn; tauto.
Qed.
Lemma calm_after_string t : ~ continues t -> fits false t.
Proof.
  intros H. cbn. intros Hs. apply H. right. right. unfold slash in Hs. cbn in Hs.
  destruct Hs as [E|[E|[]]]; symmetry in E; eexists; (split; [exact E|]); cbn; intuition discriminate.
Qed.

Definition cDirective (g : place) (i o : tokens) (d : dir) : Prop :=
  forall s b, st b g i s -> runs (match_directive_opt V) s
    (gives 0 g o (fun d' => exists d2, d' = Some d2 /\ dir_untrack d2 = dir_untrack d /\ quoted d2)).
Lemma c_directive g i i1 o l s sm : eat (TString s) i i1 -> next (fun t => ~ continues t) i1 -> ends false i1 o sm ->
  cDirective g i o (Dir l s sm).
Proof.
  intros (t & -> & E) (t2 & i2 & -> & Hn) He s0 b S. unfold match_directive_opt. apply runs_posn. intros p.
  eapply k_read; [exact HV|exact S|fit|]. intros s1 Hl S1. rewrite E.
  eapply k_peek; [exact HV|exact S1|right; apply calm_after_string, Hn|]. intros s2 S2.
  destruct (expression_continuation t2) eqn:Ec; [exfalso; apply Hn, continuation_iff, Ec|]. cbn [negb].
  eapply k_ends with (lax := false); [exact HV|split; discriminate|exact He|exact S2|left; lia|]. intros l' b3 s3 S3.
  apply runs_ret. split; [|eexists; split; [|exact S3]; lia]. eexists. split; [reflexivity|]. split; [reflexivity|].
  exact (lexed_string _ _ _ _ Hl E).
Qed.
Definition dirbody (dirs : list dir) : P (list dir + list dir) :=
  o <- match_directive_opt V ;;
  match o with
  | Some d => apply_pragma d ;;; ret (inl (dirs ++ [d]))
  | None => ret (inr dirs)
  end.
(** The directives stop here. *)
Definition no_dir (o : tokens) : Prop :=
  exists t o', o = t :: o' /\ fits false t
    /\ forall s, tk_value t = TString s -> next (fun t' => continues t' /\ ~ slash t') o'.
Lemma k_no_dir g o b s T (K : option dir -> P T) Q : no_dir o -> st b g o s ->
  (forall b' s', 1 <= b' -> st b' g o s' -> runs (K None) s' Q) -> runs (bind (match_directive_opt V) K) s Q.
Proof.
  intros (t & o' & -> & Hf & Hs) S HK. unfold match_directive_opt. apply runs_assoc. apply runs_posn. intros p.
  apply runs_assoc. pose proof (st_le _ _ _ _ _ _ _ _ _ S).
  eapply k_read; [exact HV|exact S|right; exact Hf|]. intros s1 Hl S1.
  assert (Hun : forall b' s', b' <= 1 -> st b' g o' s' -> runs (bind (bind (p_unread t) (fun _ => ret None)) K) s' Q).
  { intros b' s' Hb S'. apply runs_assoc. eapply k_unread; [exact S'|exact Hb|exact Hl|]. intros s2 S2. apply runs_ret_bind.
    eapply HK; [|exact S2]. lia. }
  destruct (tk_value t) as [r|q|l|l|l|n] eqn:E; try (eapply Hun; [|exact S1]; lia).
  destruct (Hs l eq_refl) as (t' & o2 & -> & Hc & Hns). apply runs_assoc.
  eapply k_peek; [exact HV|exact S1|right; exact Hns|]. intros s2 S2.
  apply continuation_iff in Hc. rewrite Hc. cbn [negb]. eapply Hun; [|exact S2]. lia.
Qed.
Definition cDirectives (g : place) (i o : tokens) (ds : list dir) : Prop :=
  forall f acc s b, W i < f -> no_dir o -> st b g i s ->
    runs (loopM f dirbody acc) s (gives 1 g o (fun ds' => exists l, ds' = acc ++ l /\ map dir_untrack l = map dir_untrack ds
      /\ Forall quoted l)).
Lemma c_dirs_nil g i : cDirectives g i i [].
Proof.
  intros f acc s b Hw Hn S. apply runs_loop; [lia|]. intros f' ->. unfold dirbody at 1. apply runs_assoc.
  eapply k_no_dir; [exact Hn|exact S|]. intros b1 s1 Hb S1. apply runs_ret_bind. apply runs_ret.
  split; [exists []; rewrite app_nil_r; auto|eauto].
Qed.
Lemma c_dirs_cons g i i1 o d ds : GX true g Directive i i1 d -> cDirective g i i1 d -> cDirectives g i1 o ds ->
  cDirectives g i o (d :: ds).
Proof.
  intros D H H2 f acc s b Hw Hn S. pose proof (G_W _ _ _ _ _ _ _ D) as Hw1. unfold solid in Hw1. cbn [fst_ok] in Hw1.
  apply runs_loop; [lia|]. intros f' ->. unfold dirbody at 1. apply runs_assoc.
  eapply k_call; [eapply H, S|]. intros od b1 s1 (d2 & -> & Hd & Hq) _ S1. apply runs_assoc. apply quoted_pragma; [exact Hq|].
  apply runs_ret_bind. eapply runs_conseq; [eapply (H2 f' (acc ++ [d2])); [lia|exact Hn|exact S1]|].
  intros l' s' ((l2 & -> & Hl2 & Hq2) & HS). split; [|exact HS]. exists (d2 :: l2). rewrite <- app_assoc.
  split; [reflexivity|]. split; [cbn; congruence|]. constructor; assumption.
Qed.

(** What follows a statement. *)
Definition follow (o : tokens) : Prop :=
  next (fun t => ~ slash t /\ tk_value t <> TPunc T_Colon /\ tk_value t <> TPunc T_Comma) o.
Definition cItem (d : bool) (g : place) (i o : tokens) (a : item) : Prop :=
  forall N s b, fu 3 i N -> follow o -> st b g i s ->
    runs (stmt_list_item V (R N) d) s (gives 0 g o (fun a' => item_untrack a' = item_untrack a)).
Definition itbody (N : nat) (items : list item) : P (list item + list item) :=
  t <- p_peek V ;;
  if follow_statement_list t then ret (inr items)
  else i <- r_item (R N) true ;; ret (inl (items ++ [i])).
Definition cItems (g : place) (i o : tokens) (l : list item) : Prop :=
  forall N f acc s b, fu 4 i N -> W i < f -> st b g i s ->
    runs (loopM f (itbody N) acc) s (gives 1 g o (fun l' => exists l2, l' = acc ++ l2 /\ map item_untrack l2 = map item_untrack l)).
Lemma ends_list_iff t : follow_statement_list t = true <-> ends_list t.
Proof.
  unfold follow_statement_list, ends_list. destruct (tk_value t) as [r|p| | | |]; cbn [In]; split; intros H;
    try discriminate H; try (destruct H as [H|[H|[H|[H|[]]]]]; discriminate H).
  - destruct r; try discriminate H; auto 6.
  - destruct H as [H|[H|[H|[H|[]]]]]; try discriminate H; injection H as <-; reflexivity.
  - destruct p; try discriminate H; auto 6.
  - destruct H as [H|[H|[H|[H|[]]]]]; try discriminate H; injection H as <-; reflexivity.
Qed.
Lemma items_start g i o l : GX true g Items i o l ->
  next (fun t => item_first (tk_value t) = true \/ ends_list t) i.
Proof.
  intros D. change (match Items in nt T return T -> Prop with
    | Items => fun _ => next (fun t => item_first (tk_value t) = true \/ ends_list t) i
    | _ => fun _ => True end l). destruct D; try exact Logic.I.
  - destruct H as (t & o & -> & H). exists t, o. auto.
  - destruct (G_first _ _ _ _ _ _ _ D1) as (t & o' & -> & H). exists t, o'. auto.
Qed.
Lemma item_start_follow t : item_first (tk_value t) = true \/ ends_list t ->
  ~ slash t /\ tk_value t <> TPunc T_Colon /\ tk_value t <> TPunc T_Comma.
Proof.
  intros [H|H].
  - split; [exact (fits_first item_first t H eq_refl eq_refl)|]. split; intros E; rewrite E in H; discriminate H.
  - apply ends_list_iff in H. unfold follow_statement_list in H. unfold slash. cbn [In].
    destruct (tk_value t) as [r|p| | | |]; try discriminate H.
    + split; [|split; discriminate]. intros [E|[E|[]]]; discriminate E.
    + split; [|split; intros E; injection E as ->; discriminate H]. intros [E|[E|[]]]; injection E as <-; discriminate H.
Qed.
Lemma items_follow g i o l : GX true g Items i o l -> follow i.
Proof. intros D. destruct (items_start _ _ _ _ D) as (t & i' & -> & H). exists t, i'. split; [reflexivity|apply item_start_follow, H]. Qed.
Lemma c_items_nil g i : next ends_list i -> cItems g i i [].
Proof.
  intros (t & o & -> & Ht) N f acc s b Hf Hw S. apply runs_loop; [lia|]. intros f' ->. unfold itbody at 1. apply runs_assoc.
  eapply k_peek; [exact HV|exact S|right; exact (proj1 (item_start_follow t (or_intror Ht)))|]. intros s1 S1.
  apply ends_list_iff in Ht. rewrite Ht. apply runs_ret_bind. apply runs_ret.
  split; [exists []; rewrite app_nil_r; auto|]. eexists. split; [|exact S1]. lia.
Qed.
Lemma r_item_of d g i o a N s b : cItem d g i o a -> fu 4 i N -> follow o -> st b g i s ->
  runs (r_item (R N) d) s (gives 0 g o (fun a' => item_untrack a' = item_untrack a)).
Proof.
  intros H Hf Ho S. unfold fu in Hf. destruct N as [|N]; [lia|]. rewrite R_item. eapply H; [unfold fu; lia|exact Ho|exact S].
Qed.
Lemma not_ends_list t : item_first (tk_value t) = true -> follow_statement_list t = false.
Proof.
  intros H. unfold follow_statement_list. destruct (tk_value t) as [[]|[]| | | |]; try reflexivity; discriminate H.
Qed.
Lemma c_items_cons g i i1 o a l : GX true g (Item true) i i1 a -> cItem true g i i1 a ->
  GX true g Items i1 o l -> cItems g i1 o l -> cItems g i o (a :: l).
Proof.
  intros D H D2 H2 N f acc s b Hf Hw S. pose proof (G_W _ _ _ _ _ _ _ D) as Hw1. unfold solid in Hw1. cbn [fst_ok] in Hw1.
  destruct (G_first _ _ _ _ _ _ _ D) as (t & i' & -> & Ht). cbn beta in Ht.
  apply runs_loop; [lia|]. intros f' ->. unfold itbody at 1. apply runs_assoc.
  eapply k_peek; [exact HV|exact S|right; exact (proj1 (item_start_follow t (or_introl Ht)))|]. intros s1 S1.
  rewrite (not_ends_list t Ht). apply runs_assoc.
  eapply k_call; [eapply r_item_of; [exact H|exact Hf|exact (items_follow _ _ _ _ D2)|exact S1]|]. intros a' b2 s2 Ha _ S2.
  apply runs_ret_bind. unfold fu in *. eapply runs_conseq; [eapply (H2 N f' (acc ++ [a'])); [unfold fu; lia|lia|exact S2]|].
  intros l' s' ((l2 & -> & Hl2) & HS). split; [|exact HS]. exists (a' :: l2). rewrite <- app_assoc.
  split; [reflexivity|]. cbn. congruence.
Qed.

Definition eqb_ (b b' : script) : Prop := body_untrack item_untrack b' = body_untrack item_untrack b.
Definition cScript (g : place) (i o : tokens) (c : script) : Prop :=
  forall N s b, fu 4 i N -> st b g i s ->
    runs (script_body V (R N)) s (gives 1 g o (fun c' => eqb_ c c' /\ Forall quoted (bo_dirs c'))).
Lemma items_single g i o l : GX true g Items i o l -> next ends_list i \/ 2 <= length i.
Proof.
  intros D. change (match Items in nt T return T -> Prop with
    | Items => fun _ => next ends_list i \/ 2 <= length i | _ => fun _ => True end l). destruct D; try exact Logic.I.
  - left. assumption.
  - right. pose proof (G_suffix _ _ _ _ _ _ D1) as (pre & Hp). destruct (items_start _ _ _ _ D2) as (t1 & i1' & -> & _).
    pose proof (G_W _ _ _ _ _ _ _ D1) as Hw. unfold solid in Hw. cbn [fst_ok] in Hw.
    subst i. destruct pre as [|x pre]; [cbn in Hw; lia|]. cbn. rewrite app_length. cbn. lia.
Qed.
Lemma script_no_dir g i1 o l : (forall t t' r s, i1 = t :: t' :: r -> tk_value t = TString s -> continues t') ->
  (forall t t' r s, i1 = t :: t' :: r -> tk_value t = TString s -> ~ slash t') ->
  GX true g Items i1 o l -> no_dir i1.
Proof.
  intros H1 H2 D. destruct (items_start _ _ _ _ D) as (t & i' & -> & Ht). exists t, i'. split; [reflexivity|].
  split; [exact (proj1 (item_start_follow t Ht))|]. intros s E.
  assert (Hx : i' <> []).
  { intros ->. destruct (items_single _ _ _ _ D) as [Hl|Hl]; [|cbn in Hl; lia].
    destruct Hl as (t1 & o1 & Hl & H). assert (t1 = t) by congruence. subst t1. apply ends_list_iff in H.
    unfold follow_statement_list in H. rewrite E in H. discriminate H. }
  destruct i' as [|t' r]; [congruence|]. exists t', r. split; [reflexivity|]. eauto.
Qed.
Lemma c_script g i i1 o l ds is : GX true g Directives i i1 ds -> cDirectives g i i1 ds ->
  (forall t t' r s, i1 = t :: t' :: r -> tk_value t = TString s -> continues t') ->
  (forall t t' r s, i1 = t :: t' :: r -> tk_value t = TString s -> ~ slash t') ->
  GX true g Items i1 o is -> cItems g i1 o is -> cScript g i o (Body l ds is).
Proof.
  intros D H H1 H2 D2 H3 N s b Hf S. pose proof (script_no_dir _ _ _ _ H1 H2 D2) as Hn.
  pose proof (G_W _ _ _ _ _ _ _ D) as Hw. unfold solid in Hw. cbn [fst_ok] in Hw. unfold fu in Hf. unfold script_body.
  eapply r_span with (Q' := fun c' => eqb_ (Body l ds is) c' /\ Forall quoted (bo_dirs c')).
  - eapply k_call; [eapply (H (r_fuel (R N)) []); [rewrite R_fuel; lia|exact Hn|exact S]|].
    intros ds' b1 s1 (l1 & -> & Hl1 & Hq) _ S1.
    eapply k_call; [eapply (H3 N (r_fuel (R N)) []); [unfold fu; lia|rewrite R_fuel; lia|exact S1]|].
    intros is' b2 s2 (l2 & -> & Hl2) Hb S2. apply runs_ret. split; [|eauto]. split; [|exact Hq].
    unfold eqb_, body_untrack. cbn [bo_loc bo_dirs bo_items app]. rewrite Hl1, Hl2. reflexivity.
  - intros [a1 a2 a3] l' Ha. exact Ha.
Qed.

Lemma st_set g g' b i s c : st b g i s -> pl_mode g' = pl_mode g -> c = ctx tr g' -> st b g' i (set_context c s).
Proof.
  intros [A (B1 & B2 & B3)] Hm ->. split; [exact (feeds_lexer _ _ _ _ s _ eq_refl A)|].
  split; [exact B1|]. split; [reflexivity|congruence].
Qed.
Definition cFBody (g : place) (i o : tokens) (c : script) : Prop :=
  forall N ps s b, fu 2 i N -> st b g i s ->
    runs (function_body V (R N) ps) s (gives 0 g o (eqb_ c)).
Lemma c_function_body g i i1 i2 o c : op_ T_LBrace i i1 -> cScript (in_function g) i1 i2 c -> op_ T_RBrace i2 o ->
  cFBody g i o c.
Proof.
  intros H1 H H2 N ps s b Hf S. pose proof (W_eat _ _ _ H1 ltac:(discriminate)) as Hw. unfold fu in Hf. op_eat.
  unfold function_body. unfold get_context. apply runs_gets. unfold modify_context at 1. apply runs_modify.
  pose proof (st_ctx _ _ _ _ _ _ _ _ _ S) as Hc.
  assert (S0 : st b (in_function g) (t0 :: i1) (set_context (context_new_function (p_context s)) s)).
  { eapply st_set; [exact S|reflexivity|]. rewrite Hc. reflexivity. }
  eapply k_expect; [exact HV|exact S0|fit|ist|]. intros s1 S1.
  eapply k_call; [eapply H; [unfold fu; lia|exact S1]|]. intros c' b2 s2 [Hc' Hq] Hb2 S2.
  eapply runs_strict_check; [exact Hmode|exact S2| |].
  { right. exists None. split; [|exact Logic.I]. unfold body_check.
    replace (existsb _ (bo_dirs c')) with false; [reflexivity|]. symmetry. clear - Hq.
    induction Hq as [|d ds (q & r & Hd & E) _ IH]; [reflexivity|]. cbn [existsb]. rewrite IH, orb_false_r.
    unfold dir_pragma. rewrite E. destruct Hd as [-> | ->]; reflexivity. }
  intros s3 S3. eapply k_expect; [exact HV|exact S3|left; exact Hb2|ist|]. intros s4 S4. unfold modify_context. apply runs_modify.
  apply runs_ret. split; [exact Hc'|]. eexists. split; [|eapply st_set; [exact S4|reflexivity|exact Hc]]. lia.
Qed.
Definition cFRest (g : place) (i o : tokens) (a : params * script) : Prop :=
  exists i1, W i1 < W i /\ cParameters g i i1 (fst a) /\ cFBody g i1 o (snd a).
Lemma c_function_rest g i i1 o ps b : GX true g Parameters i i1 ps -> cParameters g i i1 ps -> cFBody g i1 o b ->
  cFRest g i o (ps, b).
Proof. intros D H1 H2. exists i1. split; [|auto]. exact (G_W _ _ _ _ _ _ _ D). Qed.

Lemma k_frest g i o a N b s T (K : params -> script -> P T) Q : cFRest g i o a -> fu 2 i N -> st b g i s ->
  (forall ps c b' s', params_untrack ps = params_untrack (fst a) -> eqb_ (snd a) c -> st b' g o s' -> runs (K ps c) s' Q) ->
  runs (bind (formal_parameters V (R N)) (fun ps => bind (function_body V (R N) (pa_list ps)) (K ps))) s Q.
Proof.
  intros (i1 & Hw & H1 & H2) Hf S HK. unfold fu in Hf. eapply k_call; [eapply H1; [exact Hf|exact S]|].
  intros ps b1 s1 Hp _ S1. eapply k_call; [eapply H2; [unfold fu; lia|exact S1]|]. intros c b2 s2 Hc _ S2.
  eapply HK; eassumption.
Qed.

Definition fu_ (fi : option id -> option id) := func_untrack fi (body_untrack item_untrack).
Lemma r_function {I} (fi : I -> I) (get : P I) g i t o x gen ps c N b s :
  tk_value t = TReserved R_Function -> 1 <= b -> fu 2 (t :: i) N -> st b g (t :: i) s ->
  (forall s1, st (pred b) g i s1 ->
     runs (bind (p_matches V (TPunc T_Star)) (fun gn => bind get (fun y => bind (formal_parameters V (R N)) (fun ps =>
       bind (function_body V (R N) (pa_list ps)) (fun b => ret (Fun None y ps b gn)))))) s1
       (gives 0 g o (fun f' => exists ps' c', f' = Fun None x ps' c' gen
          /\ params_untrack ps' = params_untrack ps /\ eqb_ c c'))) ->
  runs (function_ V (R N) get) s (gives 0 g o (fun f' => func_untrack fi (body_untrack item_untrack) f'
    = func_untrack fi (body_untrack item_untrack) (Fun None x ps c gen))).
Proof.
  intros E Hb Hf S H. unfold function_.
  eapply r_span; [eapply k_reread; [exact HV|exact S|exact Hb|ist|]; intros s1 _ S1; apply H, S1|].
  intros f' l (ps' & c' & -> & Hp & Hc). unfold func_untrack, eqb_ in *. cbn. rewrite Hp, Hc. reflexivity.
Qed.
Lemma k_star_yes i o g b s T (K : bool -> P T) Q : op_ T_Star i o -> st b g i s ->
  (forall b' s', st b' g o s' -> runs (K true) s' Q) -> runs (bind (p_matches V (TPunc T_Star)) K) s Q.
Proof. intros H S HK. op_eat. eapply k_matches_yes; [exact HV|exact S|fit|ist|]. intros s1 S1. eapply HK, S1. Qed.
Lemma k_star_no i g b s T (K : bool -> P T) Q :
  next (fun t => fits false t /\ tk_value t <> TPunc T_Star) i -> st b g i s ->
  (forall b' s', st b' g i s' -> runs (K false) s' Q) -> runs (bind (p_matches V (TPunc T_Star)) K) s Q.
Proof.
  intros (t & o & -> & Hf & Hn) S HK. eapply k_matches_no; [exact HV|exact S|right; exact Hf|apply is_t_ne; [exact Logic.I|exact Hn]|].
  intros s1 S1. eapply HK, S1.
Qed.
Lemma r_fun_end g i o I (x : I) ps c gen N b s : cFRest g i o (ps, c) -> fu 2 i N -> st b g i s ->
  runs (bind (formal_parameters V (R N)) (fun ps => bind (function_body V (R N) (pa_list ps)) (fun b => ret (Fun None x ps b gen)))) s
    (gives 0 g o (fun f' => exists ps' c', f' = Fun None x ps' c' gen /\ params_untrack ps' = params_untrack ps /\ eqb_ c c')).
Proof.
  intros H Hf S. eapply (k_frest g i o (ps, c) N b s _ (fun ps b => ret (Fun None x ps b gen))); [exact H|exact Hf|exact S|].
  intros ps' c' b' s' Hp Hc S'. apply runs_ret. split; [exists ps', c'; auto|]. exists b'. split; [lia|exact S'].
Qed.

Lemma paren_start {A} g (n : nt A) i o a : GX true g n i o a -> fst_ok n = Some (fun v => td_eqb v (TPunc T_LParen)) ->
  exists t i', i = t :: i' /\ tk_value t = TPunc T_LParen.
Proof.
  intros D Hn. pose proof (G_first _ _ _ _ _ _ _ D) as H. rewrite Hn in H. destruct H as (t & i' & -> & H).
  exists t, i'. split; [reflexivity|]. destruct (tk_value t) as [|[]| | | |]; try discriminate H; reflexivity.
Qed.
Definition cFunExpr (g : place) (i o : tokens) (f : func (option id) (body item)) : Prop :=
  forall N s b, fu 2 i N -> 1 <= b -> st b g i s ->
    runs (function_ V (R N) (p_id_opt V true)) s (gives 0 g o (fun f' =>
      func_untrack (option_map id_untrack) (body_untrack item_untrack) f'
      = func_untrack (option_map id_untrack) (body_untrack item_untrack) f)).
Definition cFunDecl (g : place) (i o : tokens) (f : func id (body item)) : Prop :=
  forall N s b, fu 2 i N -> 1 <= b -> st b g i s ->
    runs (function_ V (R N) (p_id V true)) s (gives 0 g o (fun f' =>
      func_untrack id_untrack (body_untrack item_untrack) f' = func_untrack id_untrack (body_untrack item_untrack) f)).
Lemma name_not_star bd g i o x : cName bd g i o x -> next (fun t => fits false t /\ tk_value t <> TPunc T_Star) i.
Proof.
  intros (t & n & -> & E & _). exists t, o. split; [reflexivity|]. split; [eapply fits_of; [exact E|discriminate..]|congruence].
Qed.
Lemma name_W bd g i o x : cName bd g i o x -> W i = S (W o).
Proof. intros (t & n & -> & E & _). apply W_cons1. congruence. Qed.
Lemma c_function_anon g i i1 o l ps b : kw R_Function i i1 -> GX true g FunctionRest i1 o (ps, b) -> cFRest g i1 o (ps, b) ->
  cFunExpr g i o (Fun l None ps b false).
Proof.
  intros Hk D H N s b0 Hf Hb S. destruct (paren_start _ _ _ _ _ D eq_refl) as (t2 & i2 & Ei & E2).
  pose proof (W_eat _ _ _ Hk ltac:(discriminate)) as Hw. unfold fu in Hf. destruct Hk as (t & -> & E).
  eapply runs_conseq; [eapply r_function with (gen := false) (ps := ps) (c := b); [exact E|exact Hb|exact Hf|exact S|]|intros f' s' HS; exact HS].
  intros s1 S1. subst i1. eapply k_star_no; [|exact S1|].
  { exists t2, i2. split; [reflexivity|]. split; [eapply fits_of; [exact E2|discriminate..]|congruence]. }
  intros b2 s2 S2. eapply k_id_opt_none; [unfold as_ident; rewrite E2; reflexivity|eapply fits_of; [exact E2|discriminate..]|exact S2|].
  intros b3 s3 S3. eapply r_fun_end; [exact H|unfold fu; lia|exact S3].
Qed.
Lemma c_function_named g i i1 i2 o l x ps b : kw R_Function i i1 -> cName true g i1 i2 x -> cFRest g i2 o (ps, b) ->
  cFunExpr g i o (Fun l (Some x) ps b false).
Proof.
  intros Hk Hx H N s b0 Hf Hb S. pose proof (W_eat _ _ _ Hk ltac:(discriminate)) as Hw.
  pose proof (name_W _ _ _ _ _ Hx) as Hw2. unfold fu in Hf. destruct Hk as (t & -> & E).
  eapply runs_conseq; [eapply r_function with (gen := false) (ps := ps) (c := b); [exact E|exact Hb|exact Hf|exact S|]|intros f' s' HS; exact HS].
  intros s1 S1. eapply k_star_no; [exact (name_not_star _ _ _ _ _ Hx)|exact S1|]. intros b2 s2 S2.
  eapply k_id_opt_some; [exact Hx|exact S2|]. intros b3 s3 S3. eapply r_fun_end; [exact H|unfold fu; lia|exact S3].
Qed.
Lemma c_generator_anon g i i1 i2 o l ps b : kw R_Function i i1 -> op_ T_Star i1 i2 ->
  GX true g FunctionRest i2 o (ps, b) -> cFRest g i2 o (ps, b) -> cFunExpr g i o (Fun l None ps b true).
Proof.
  intros Hk Hs D H N s b0 Hf Hb S. destruct (paren_start _ _ _ _ _ D eq_refl) as (t2 & i2' & Ei & E2).
  pose proof (W_eat _ _ _ Hk ltac:(discriminate)) as Hw. pose proof (W_eat _ _ _ Hs ltac:(discriminate)) as Hw2.
  unfold fu in Hf. destruct Hk as (t & -> & E).
  eapply runs_conseq; [eapply r_function with (gen := true) (ps := ps) (c := b); [exact E|exact Hb|exact Hf|exact S|]|intros f' s' HS; exact HS].
  intros s1 S1. eapply k_star_yes; [exact Hs|exact S1|]. subst i2.
  intros b2 s2 S2. eapply k_id_opt_none; [unfold as_ident; rewrite E2; reflexivity|eapply fits_of; [exact E2|discriminate..]|exact S2|].
  intros b3 s3 S3. eapply r_fun_end; [exact H|unfold fu; lia|exact S3].
Qed.
Lemma c_generator_named g i i1 i2 i3 o l x ps b : kw R_Function i i1 -> op_ T_Star i1 i2 -> cName true g i2 i3 x ->
  cFRest g i3 o (ps, b) -> cFunExpr g i o (Fun l (Some x) ps b true).
Proof.
  intros Hk Hs Hx H N s b0 Hf Hb S. pose proof (W_eat _ _ _ Hk ltac:(discriminate)) as Hw.
  pose proof (W_eat _ _ _ Hs ltac:(discriminate)) as Hw3.
  pose proof (name_W _ _ _ _ _ Hx) as Hw2. unfold fu in Hf. destruct Hk as (t & -> & E).
  eapply runs_conseq; [eapply r_function with (gen := true) (ps := ps) (c := b); [exact E|exact Hb|exact Hf|exact S|]|intros f' s' HS; exact HS].
  intros s1 S1. eapply k_star_yes; [exact Hs|exact S1|]. intros b2 s2 S2.
  eapply k_id_opt_some; [exact Hx|exact S2|]. intros b3 s3 S3. eapply r_fun_end; [exact H|unfold fu; lia|exact S3].
Qed.
Lemma c_function_decl g i i1 i2 o l x ps b : kw R_Function i i1 -> cName true g i1 i2 x -> cFRest g i2 o (ps, b) ->
  cFunDecl g i o (Fun l x ps b false).
Proof.
  intros Hk Hx H N s b0 Hf Hb S. pose proof (W_eat _ _ _ Hk ltac:(discriminate)) as Hw.
  pose proof (name_W _ _ _ _ _ Hx) as Hw2. unfold fu in Hf. destruct Hk as (t & -> & E).
  eapply runs_conseq; [eapply r_function with (gen := false) (ps := ps) (c := b); [exact E|exact Hb|exact Hf|exact S|]|intros f' s' HS; exact HS].
  intros s1 S1. eapply k_star_no; [exact (name_not_star _ _ _ _ _ Hx)|exact S1|]. intros b2 s2 S2.
  eapply k_id; [exact Hx|exact S2|]. intros b3 s3 S3. eapply r_fun_end; [exact H|unfold fu; lia|exact S3].
Qed.
Lemma c_generator_decl g i i1 i2 i3 o l x ps b : kw R_Function i i1 -> op_ T_Star i1 i2 -> cName true g i2 i3 x ->
  cFRest g i3 o (ps, b) -> cFunDecl g i o (Fun l x ps b true).
Proof.
  intros Hk Hs Hx H N s b0 Hf Hb S. pose proof (W_eat _ _ _ Hk ltac:(discriminate)) as Hw.
  pose proof (W_eat _ _ _ Hs ltac:(discriminate)) as Hw3.
  pose proof (name_W _ _ _ _ _ Hx) as Hw2. unfold fu in Hf. destruct Hk as (t & -> & E).
  eapply runs_conseq; [eapply r_function with (gen := true) (ps := ps) (c := b); [exact E|exact Hb|exact Hf|exact S|]|intros f' s' HS; exact HS].
  intros s1 S1. eapply k_star_yes; [exact Hs|exact S1|]. intros b2 s2 S2.
  eapply k_id; [exact Hx|exact S2|]. intros b3 s3 S3. eapply r_fun_end; [exact H|unfold fu; lia|exact S3].
Qed.

(** ** Object literals *)

Definition cKey (i o : tokens) (k : prop_key) : Prop := exists t, i = t :: o /\ token_prop_key t = Some k.
Lemma c_key_ident t o n : tk_value t = TIdent n -> cKey (t :: o) o (PK_Id (Some (tk_loc t)) (name_string n)).
Proof. intros E. exists t. split; [reflexivity|]. unfold token_prop_key. rewrite E. reflexivity. Qed.
Lemma c_key_reserved t o r : tk_value t = TReserved r -> cKey (t :: o) o (PK_Id (Some (tk_loc t)) (reserved_name r)).
Proof. intros E. exists t. split; [reflexivity|]. unfold token_prop_key. rewrite E. reflexivity. Qed.
Lemma c_key_string t o n : tk_value t = TString n -> cKey (t :: o) o (PK_String (Some (tk_loc t)) n).
Proof. intros E. exists t. split; [reflexivity|]. unfold token_prop_key. rewrite E. reflexivity. Qed.
Lemma c_key_number t o n : tk_value t = TNumber n -> cKey (t :: o) o (PK_Number (Some (tk_loc t)) n).
Proof. intros E. exists t. split; [reflexivity|]. unfold token_prop_key. rewrite E. reflexivity. Qed.
Lemma key_tok_fits t k op : token_prop_key t = Some k -> fits op t.
Proof.
  unfold token_prop_key. destruct (tk_value t) eqn:E; try discriminate; intros _; (eapply fits_of; [exact E|discriminate..]).
Qed.
Lemma key_W i o k : cKey i o k -> W i = Datatypes.S (W o).
Proof.
  intros (t & -> & H). apply W_cons1. intros E. unfold token_prop_key in H. rewrite E in H. discriminate.
Qed.
Lemma k_key_opt g i o k b s T (K : option prop_key -> P T) Q : cKey i o k -> st b g i s ->
  (forall b' s', st b' g o s' -> runs (K (Some k)) s' Q) -> runs (bind (property_key_opt V) K) s Q.
Proof.
  intros (t & -> & E) S HK. unfold property_key_opt. apply runs_assoc.
  eapply k_read; [exact HV|exact S|right; exact (key_tok_fits _ _ false E)|]. intros s1 _ S1. rewrite E. apply runs_ret_bind. eapply HK, S1.
Qed.
Lemma k_key g i o k b s T (K : prop_key -> P T) Q : cKey i o k -> st b g i s ->
  (forall b' s', st b' g o s' -> runs (K k) s' Q) -> runs (bind (property_key V) K) s Q.
Proof.
  intros H S HK. unfold property_key. apply runs_assoc. eapply k_key_opt; [exact H|exact S|]. intros b1 s1 S1.
  apply runs_ret_bind. eapply HK, S1.
Qed.
(** What can follow the key of a property that is not an accessor. *)
Definition after_key (t : token) : Prop :=
  tk_value t = TPunc T_Colon \/ tk_value t = TPunc T_LParen \/ tk_value t = TPunc T_Comma \/ tk_value t = TPunc T_RBrace.
Lemma after_key_fits t : after_key t -> fits false t /\ token_prop_key t = None.
Proof.
  intros H. unfold token_prop_key. destruct H as [E|[E|[E|E]]]; rewrite E; (split; [eapply fits_of; [exact E|discriminate..]|reflexivity]).
Qed.
Lemma object_key g t t2 i2 k N b s Q : token_prop_key t = Some k -> after_key t2 ->
  (is_reserved t = true -> tk_value t2 <> TPunc T_Comma /\ tk_value t2 <> TPunc T_RBrace) ->
  st b g (t :: t2 :: i2) s ->
  (forall b' s', st b' g (t2 :: i2) s' -> runs (more_prop_init V (R N) k) s' Q) ->
  runs (object_property V (R N)) s Q.
Proof.
  intros Ek Ha Hres S HK. destruct (after_key_fits _ Ha) as [Hf2 Hk2]. unfold object_property.
  pose proof (st_le _ _ _ _ _ _ _ _ _ S) as Hle.
  eapply k_read; [exact HV|exact S|right; exact (key_tok_fits _ _ false Ek)|]. intros s1 Hl S1.
  destruct (is_t t (TIdent (NAtom A_Get))) eqn:Eg.
  { apply is_t_true in Eg; [|exact Logic.I]. unfold property_key_opt. apply runs_assoc.
    eapply k_read; [exact HV|exact S1|right; exact Hf2|]. intros s2 Hl2 S2. rewrite Hk2. apply runs_assoc.
    eapply k_unread; [exact S2|lia|exact Hl2|]. intros s3 S3. apply runs_ret_bind.
    unfold token_prop_key in Ek. rewrite Eg in Ek. injection Ek as <-. eapply HK, S3. }
  destruct (is_t t (TIdent (NAtom A_Set))) eqn:Es.
  { apply is_t_true in Es; [|exact Logic.I]. unfold property_key_opt. apply runs_assoc.
    eapply k_read; [exact HV|exact S1|right; exact Hf2|]. intros s2 Hl2 S2. rewrite Hk2. apply runs_assoc.
    eapply k_unread; [exact S2|lia|exact Hl2|]. intros s3 S3. apply runs_ret_bind.
    unfold token_prop_key in Ek. rewrite Es in Ek. injection Ek as <-. eapply HK, S3. }
  replace (is_t t (TPunc T_Star)) with false.
  2:{ symmetry. apply is_t_ne; [exact Logic.I|]. intros E. unfold token_prop_key in Ek. rewrite E in Ek. discriminate. }
  assert (Hend : forall b' s', b' <= 1 -> st b' g (t2 :: i2) s' ->
    runs (bind (p_unread t) (fun _ => bind (property_key V) (fun key => more_prop_init V (R N) key))) s' Q).
  { intros b' s' Hb S'. eapply k_unread; [exact S'|exact Hb|exact Hl|]. intros s3 S3.
    eapply k_key; [exists t; split; [reflexivity|exact Ek]|exact S3|]. intros b4 s4 S4. eapply HK, S4. }
  destruct (is_reserved t) eqn:Er; [|eapply Hend; [|exact S1]; lia].
  destruct (Hres eq_refl) as [H1 H2].
  eapply k_peek; [exact HV|exact S1|right; exact Hf2|]. intros s2 S2.
  rewrite (is_t_ne t2 (TPunc T_Comma) Logic.I H1), (is_t_ne t2 (TPunc T_RBrace) Logic.I H2). cbn [orb].
  eapply Hend; [|exact S2]. lia.
Qed.
Definition cProp (g : place) (i o : tokens) (p : prop) : Prop :=
  forall N s b, fu 2 i N -> st b g i s ->
    runs (object_property V (R N)) s (gives 0 g o (fun p' => prop_untrack p' = prop_untrack p)).
Lemma c_prop_init g i i1 i2 o l k e : cKey i i1 k -> op_ T_Colon i1 i2 -> cAssign (with_in true g) i2 o e ->
  cProp g i o (Pr_Regular l k (PV_Init e)).
Proof.
  intros Hk Hc H N s b Hf S. pose proof (key_W _ _ _ Hk) as Hw. pose proof (W_eat _ _ _ Hc ltac:(discriminate)) as Hw2.
  unfold fu in Hf. destruct Hk as (t & -> & Ek). op_eat.
  eapply object_key; [exact Ek|left; exact E|intros _; split; congruence|exact S|]. intros b1 s1 S1. unfold more_prop_init.
  eapply k_peek; [exact HV|exact S1|fit|]. intros s2 S2. dec_t. eapply k_skip; [exact HV|exact S2|left; lia|]. intros s3 S3.
  eapply k_allow_in; [exact S3|intros s' S'; eapply r_assign_of; [exact H|unfold fu; lia|exact S']|]. intros e' b4 s4 He _ S4.
  apply runs_ret. split; [|exists b4; split; [lia|exact S4]]. unfold eqx in He. cbn. rewrite He. reflexivity.
Qed.
Lemma c_prop_method g i i1 o l k ps b : cKey i i1 k -> GX true g FunctionRest i1 o (ps, b) -> cFRest g i1 o (ps, b) ->
  cProp g i o (Pr_Method (Fun l k ps b false)).
Proof.
  intros Hk D H N s b0 Hf S. pose proof (key_W _ _ _ Hk) as Hw. unfold fu in Hf.
  destruct (paren_start _ _ _ _ _ D eq_refl) as (t2 & i2 & Ei & E2). destruct Hk as (t & -> & Ek). rewrite Ei in S.
  eapply object_key; [exact Ek|right; left; exact E2|intros _; split; congruence|exact S|]. intros b1 s1 S1. unfold more_prop_init.
  eapply k_peek; [exact HV|exact S1|fit|]. intros s2 S2. dec_t. rewrite <- Ei in S2.
  eapply (k_frest g i1 o (ps, b) N _ _ _ (fun ps c => ret (Pr_Method (Fun _ k ps c false)))); [exact H|unfold fu; lia|exact S2|].
  intros ps' c' b' s' Hp Hc S'. apply runs_ret. split; [|exists b'; split; [lia|exact S']].
  unfold eqb_ in Hc. cbn [fst snd] in *. cbn [prop_untrack]. unfold func_untrack. cbn. rewrite Hp, Hc. reflexivity.
Qed.
Lemma c_prop_generator g i i1 i2 o l k ps b : op_ T_Star i i1 -> cKey i1 i2 k -> cFRest g i2 o (ps, b) ->
  cProp g i o (Pr_Method (Fun l k ps b true)).
Proof.
  intros Hs Hk H N s b0 Hf S. pose proof (key_W _ _ _ Hk) as Hw. pose proof (W_eat _ _ _ Hs ltac:(discriminate)) as Hw2.
  unfold fu in Hf. op_eat. unfold object_property. eapply k_read; [exact HV|exact S|fit|]. intros s1 Hl S1. dec_t.
  eapply k_key; [exact Hk|exact S1|]. intros b2 s2 S2.
  eapply (k_frest g i2 o (ps, b) N _ _ _ (fun ps c => ret (Pr_Method (Fun _ k ps c true)))); [exact H|unfold fu; lia|exact S2|].
  intros ps' c' b' s' Hp Hc S'. apply runs_ret. split; [|exists b'; split; [lia|exact S']].
  unfold eqb_ in Hc. cbn [fst snd] in *. cbn [prop_untrack]. unfold func_untrack. cbn. rewrite Hp, Hc. reflexivity.
Qed.
Lemma c_prop_get g i i1 i2 i3 i4 o l l' k b : eat (TIdent (NAtom A_Get)) i i1 -> cKey i1 i2 k ->
  op_ T_LParen i2 i3 -> op_ T_RParen i3 i4 -> cFBody g i4 o b -> cProp g i o (Pr_Regular l k (PV_Get l' b)).
Proof.
  intros Hg Hk H1 H2 H N s b0 Hf S. pose proof (key_W _ _ _ Hk) as Hw. pose proof (W_eat _ _ _ Hg ltac:(discriminate)) as Hw2.
  pose proof (W_eat _ _ _ H1 ltac:(discriminate)) as Hw3. pose proof (W_eat _ _ _ H2 ltac:(discriminate)) as Hw4.
  unfold fu in Hf. op_eat. unfold object_property. eapply k_read; [exact HV|exact S|fit|]. intros s1 Hl S1. dec_t.
  eapply k_key_opt; [exact Hk|exact S1|]. intros b2 s2 S2.
  eapply k_expect; [exact HV|exact S2|fit|ist|]. intros s3 S3.
  eapply k_expect; [exact HV|exact S3|fit|ist|]. intros s4 S4.
  eapply k_call; [eapply H; [unfold fu; lia|exact S4]|]. intros c' b5 s5 Hc _ S5.
  apply runs_ret. split; [|exists b5; split; [lia|exact S5]]. unfold eqb_ in Hc. cbn. rewrite Hc. reflexivity.
Qed.
Lemma c_prop_set g i i1 i2 i3 i4 i5 o l l' k p b : eat (TIdent (NAtom A_Set)) i i1 -> cKey i1 i2 k ->
  op_ T_LParen i2 i3 -> cPattern g i3 i4 p -> op_ T_RParen i4 i5 -> cFBody g i5 o b ->
  cProp g i o (Pr_Regular l k (PV_Set l' p b)).
Proof.
  intros Hg Hk H1 Hp H2 H N s b0 Hf S. pose proof (key_W _ _ _ Hk) as Hw. pose proof (W_eat _ _ _ Hg ltac:(discriminate)) as Hw2.
  pose proof (W_eat _ _ _ H1 ltac:(discriminate)) as Hw3. pose proof (W_eat _ _ _ H2 ltac:(discriminate)) as Hw4.
  assert (Hw5 : W i4 <= W i3) by (destruct (pattern_first _ _ _ _ Hp) as (t0 & n0 & -> & _); apply W_cons).
  unfold fu in Hf. op_eat. unfold object_property. eapply k_read; [exact HV|exact S|fit|]. intros s1 Hl S1. dec_t.
  eapply k_key_opt; [exact Hk|exact S1|]. intros b2 s2 S2.
  eapply k_expect; [exact HV|exact S2|fit|ist|]. intros s3 S3.
  eapply k_pattern; [exact Hp|exact S3|]. intros b4 s4 S4.
  eapply k_expect; [exact HV|exact S4|fit|ist|]. intros s5 S5.
  eapply k_call; [eapply H; [unfold fu; lia|exact S5]|]. intros c' b6 s6 Hc _ S6.
  apply runs_ret. split; [|exists b6; split; [lia|exact S6]]. unfold eqb_ in Hc. cbn. rewrite Hc. reflexivity.
Qed.
Lemma c_prop_shorthand g t o n n' : tk_value t = TIdent n -> names n' (name_string n) false -> name_ok (pl_mode g) false n' ->
  next (fun t' => tk_value t' = TPunc T_Comma \/ tk_value t' = TPunc T_RBrace) o ->
  cProp g (t :: o) o (Pr_Shorthand (Id (Some (tk_loc t)) n')).
Proof.
  intros E Hn Hok (t2 & o2 & -> & H2) N s b Hf S. apply names_unique in Hn.
  assert (Ek : token_prop_key t = Some (PK_Id (Some (tk_loc t)) (name_string n))) by (unfold token_prop_key; rewrite E; reflexivity).
  eapply object_key; [exact Ek|right; right; exact H2|unfold is_reserved; rewrite E; discriminate|exact S|].
  intros b1 s1 S1. unfold more_prop_init.
  assert (Ha : after_key t2) by (right; right; exact H2).
  eapply k_peek; [exact HV|exact S1|right; exact (proj1 (after_key_fits _ Ha))|]. intros s2 S2.
  rewrite (is_t_ne t2 (TPunc T_Colon) Logic.I), (is_t_ne t2 (TPunc T_LParen) Logic.I) by (destruct H2; congruence).
  replace (is_t t2 (TPunc T_Comma) || is_t t2 (TPunc T_RBrace)) with true
    by (destruct H2 as [H2|H2]; unfold is_t; rewrite H2; reflexivity).
  rewrite <- Hn. eapply k_new_id; [exact Hmode|exact S2|exact Hok|]. intros s3 S3. apply runs_ret.
  split; [reflexivity|]. eexists. split; [|exact S3]. lia.
Qed.

Definition gProp (g : place) (i o : tokens) (p : prop) : Prop := GX true g Property i o p /\ cProp g i o p.
Definition obody (N : nat) (props : list prop) : P (list prop + list prop) :=
  t <- p_peek V ;;
  if is_t t (TPunc T_RBrace) then ret (inr props)
  else
    p <- object_property V (R N) ;;
    b <- p_matches V (TPunc T_Comma) ;;
    if b : bool then ret (inl (props ++ [p])) else ret (inr (props ++ [p])).
Lemma props_loop g N i o l : csep (gProp g) i o l -> forall fuel acc s b, fu 2 i N -> W i < fuel ->
  next (fun t => tk_value t = TPunc T_RBrace) o -> st b g i s ->
  runs (loopM fuel (obody N) acc) s (gives 0 g o (fun l' => exists l2, l' = acc ++ l2 /\ map prop_untrack l2 = map prop_untrack l)).
Proof.
  induction 1 as [i|i o a [D Ha]|i i1 i2 o a l [D Ha] Hc Hs IH]; intros fuel acc s b Hfu Hfuel Hn S;
    (apply runs_loop; [lia|]); intros f' ->; unfold obody at 1; apply runs_assoc.
  - destruct Hn as (t & o & -> & E). eapply k_peek; [exact HV|exact S|fit|]. intros s1 S1. dec_t. apply runs_ret_bind. apply runs_ret.
    split; [exists []; rewrite app_nil_r; auto|]. eexists. split; [|exact S1]. lia.
  - destruct (G_first _ _ _ _ _ _ _ D) as (t & i' & -> & Ht). cbn beta in Ht.
    pose proof (fits_first (fun v => key_first v || td_eqb v (TPunc T_Star)) t Ht eq_refl eq_refl) as Hfit.
    eapply k_peek; [exact HV|exact S|right; exact Hfit|]. intros s1 S1.
    rewrite (is_t_ne t (TPunc T_RBrace) Logic.I) by (intros Ex; rewrite Ex in Ht; discriminate). apply runs_assoc.
    eapply k_call; [eapply Ha; [exact Hfu|exact S1]|]. intros x b2 s2 Hx _ S2. apply runs_assoc.
    destruct Hn as (t2 & o2 & -> & E2). eapply k_matches_no; [exact HV|exact S2|fit|ist|]. intros s3 S3.
    apply runs_ret_bind. apply runs_ret. split; [|eexists; split; [|exact S3]; lia]. exists [x]. split; [reflexivity|]. cbn. congruence.
  - pose proof (G_W _ _ _ _ _ _ _ D) as Hw; unfold solid in Hw; cbn [fst_ok] in Hw.
    destruct (G_first _ _ _ _ _ _ _ D) as (t & i' & -> & Ht). cbn beta in Ht.
    pose proof (fits_first (fun v => key_first v || td_eqb v (TPunc T_Star)) t Ht eq_refl eq_refl) as Hfit.
    eapply k_peek; [exact HV|exact S|right; exact Hfit|]. intros s1 S1.
    rewrite (is_t_ne t (TPunc T_RBrace) Logic.I) by (intros Ex; rewrite Ex in Ht; discriminate). apply runs_assoc.
    eapply k_call; [eapply Ha; [exact Hfu|exact S1]|]. intros x b2 s2 Hx _ S2. apply runs_assoc.
    pose proof (W_eat _ _ _ Hc ltac:(discriminate)) as Hw2. destruct Hc as (t2 & -> & E2). unfold fu in *.
    eapply k_matches_yes; [exact HV|exact S2|fit|ist|]. intros s3 S3. apply runs_ret_bind.
    eapply runs_conseq; [eapply (IH f' (acc ++ [x])); [unfold fu; lia|lia|exact Hn|exact S3]|].
    intros l' s' ((l2 & -> & Hl2) & HS). split; [|exact HS]. exists (x :: l2).
    rewrite <- app_assoc. split; [reflexivity|]. cbn. congruence.
Qed.

(** ** Primary expressions *)

Lemma c_token g t o e : token_literal t = Some e -> cPrimary g (t :: o) o e.
Proof.
  intros E N s b Hf S. unfold primary_expression.
  assert (Hx : fits false t /\ as_ident t = None).
  { unfold token_literal in E. unfold as_ident. destruct (tk_value t) as [r|p| | | |] eqn:Ev; try discriminate E;
      (split; [|reflexivity]); cbn; unfold slash; rewrite Ev; cbn; intuition discriminate. }
  destruct Hx as [Hx Hi]. eapply k_read; [exact HV|exact S|right; exact Hx|]. intros s1 _ S1. rewrite Hi, E. apply runs_ret.
  split; [reflexivity|]. eexists. split; [|exact S1]. lia.
Qed.
Lemma c_id g i o x : cName false g i o x -> cPrimary g i o (E_Id x).
Proof.
  intros (t & n & -> & E & Hn & ->) N s b Hf S. unfold primary_expression. eapply k_read; [exact HV|exact S|fit|].
  intros s1 _ S1. unfold as_ident. rewrite E. eapply k_new_id; [exact Hmode|exact S1|exact Hn|]. intros s2 S2.
  apply runs_ret. split; [reflexivity|]. eexists. split; [|exact S2]. lia.
Qed.
Lemma punc_not_literal t p : tk_value t = TPunc p -> as_ident t = None /\ token_literal t = None.
Proof. intros E. unfold as_ident, token_literal. rewrite E. split; reflexivity. Qed.
Lemma c_array g i i1 i2 o l es : op_ T_LBrack i i1 -> cElements (with_in true g) i1 i2 es -> op_ T_RBrack i2 o ->
  cPrimary g i o (E_Arr l es).
Proof.
  intros H1 H H2 N s b Hf S. pose proof (W_eat _ _ _ H1 ltac:(discriminate)) as Hw. unfold fu in Hf. op_eat. unfold primary_expression.
  eapply k_read; [exact HV|exact S|fit|]. intros s1 _ S1. destruct (punc_not_literal _ _ E0) as [-> ->]. dec_t.
  unfold array_literal. eapply r_allow_in; [exact S1|]. intros s2 S2.
  eapply k_call; [eapply (H N (r_fuel (R N)) []); [unfold fu; lia|rewrite R_fuel; lia|exists t, o; auto|exact S2]|].
  intros l' b3 s3 (l2 & -> & Hl) Hb S3. eapply k_expect; [exact HV|exact S3|left; exact Hb|ist|]. intros s4 S4. apply runs_ret.
  split; [|eexists; split; [|exact S4]; lia]. unfold eqx. cbn. rewrite Hl. reflexivity.
Qed.
Lemma c_object g i i1 i2 o l ps : op_ T_LBrace i i1 -> csep (gProp g) i1 i2 ps -> op_ T_RBrace i2 o ->
  cPrimary g i o (E_Obj l ps).
Proof.
  intros H1 H H2 N s b Hf S. pose proof (W_eat _ _ _ H1 ltac:(discriminate)) as Hw. unfold fu in Hf. op_eat. unfold primary_expression.
  eapply k_read; [exact HV|exact S|fit|]. intros s1 _ S1. destruct (punc_not_literal _ _ E0) as [-> ->]. dec_t.
  unfold object_literal.
  eapply k_call; [eapply (props_loop g N i1 (t :: o) ps H (r_fuel (R N)) []); [unfold fu; lia|rewrite R_fuel; lia|exists t, o; auto|exact S1]|].
  intros l' b3 s3 (l2 & -> & Hl) Hb S3. eapply k_expect; [exact HV|exact S3|fit|ist|]. intros s4 S4. apply runs_ret.
  split; [|eexists; split; [|exact S4]; lia]. unfold eqx. cbn. rewrite Hl. reflexivity.
Qed.
Lemma c_function g i o f : GX true g FunctionExpr i o f -> cFunExpr g i o f -> cPrimary g i o (E_Fun f).
Proof.
  intros D H N s b Hf S. destruct (G_first _ _ _ _ _ _ _ D) as (t & i' & -> & Ht). cbn beta in Ht.
  assert (E : tk_value t = TReserved R_Function) by (destruct (tk_value t) as [[]|[]| | | |]; try discriminate Ht; reflexivity).
  unfold primary_expression. pose proof (st_le _ _ _ _ _ _ _ _ _ S).
  eapply k_read; [exact HV|exact S|fit|]. intros s1 Hl S1. unfold as_ident, token_literal. rewrite E. dec_t.
  eapply k_unread; [exact S1|lia|exact Hl|]. intros s2 S2.
  eapply k_call; [eapply H; [exact Hf| |exact S2]; lia|]. intros f' b3 s3 Hf' _ S3. apply runs_ret.
  split; [|exists b3; split; [lia|exact S3]]. unfold eqx. cbn [expr_untrack]. rewrite Hf'. reflexivity.
Qed.
Lemma c_paren g i i1 i2 o e : op_ T_LParen i i1 -> cExpr (with_in true g) i1 i2 e -> op_ T_RParen i2 o ->
  cPrimary g i o e.
Proof.
  intros H1 H H2 N s b Hf S. pose proof H1 as (t & Ei & E). unfold primary_expression. pose proof (st_le _ _ _ _ _ _ _ _ _ S).
  rewrite Ei in S. eapply k_read; [exact HV|exact S|fit|]. intros s1 Hl S1. destruct (punc_not_literal _ _ E) as [-> ->]. dec_t.
  eapply k_unread; [exact S1|lia|exact Hl|]. intros s2 S2. rewrite <- Ei in S2. eapply r_paren; eassumption.
Qed.
End Claims.
