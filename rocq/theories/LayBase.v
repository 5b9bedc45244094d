(** Two parses of texts with the same tokens: the vocabulary of the simulation, and
    what the token utilities do to it. *)
From Coq Require Import String Ascii List NArith Arith Bool Lia.
From Verif Require Import Base Chars F64 Word Token Reader Lexer Punc Ast Track Cover Stack PState Parser Wp
  SpecReader ReaderProofs SpecLexer SpecClient SpecLayout LexWp LexLit LexerProofs LexTheorems LexLayout
  ParserWp SpecBlank Cost.
Import ListNotations.
Local Open Scope nat_scope.

(** ** Values that agree apart from positions *)

Class Blank (A : Type) := blank : A -> A.
Definition like {A} {B : Blank A} (a1 a2 : A) : Prop := blank a1 = blank a2.

#[global] Instance b_unit : Blank unit := fun a => a.
#[global] Instance b_bool : Blank bool := fun a => a.
#[global] Instance b_name : Blank name := fun a => a.
#[global] Instance b_data : Blank token_data := fun a => a.
#[global] Instance b_slit : Blank string_literal := fun a => a.
#[global] Instance b_nlit : Blank number_literal := fun a => a.
#[global] Instance b_rlit : Blank regexp_literal := fun a => a.
#[global] Instance b_ltype : Blank label_type := fun a => a.
#[global] Instance b_unop : Blank unop_tag := fun a => a.
#[global] Instance b_goal : Blank goal := fun a => a.
#[global] Instance b_tri : Blank tri := fun a => a.
#[global] Instance b_context : Blank context := fun a => a.
#[global] Instance b_posn : Blank posn := posn_blank.
#[global] Instance b_span : Blank span := span_blank.
#[global] Instance b_option A {B : Blank A} : Blank (option A) := option_map blank.
#[global] Instance b_list A {B : Blank A} : Blank (list A) := map blank.
#[global] Instance b_prod A A' {B : Blank A} {B' : Blank A'} : Blank (A * A') :=
  fun p => (blank (fst p), blank (snd p)).
#[global] Instance b_sum A A' {B : Blank A} {B' : Blank A'} : Blank (A + A') :=
  fun p => match p with inl a => inl (blank a) | inr b => inr (blank b) end.
#[global] Instance b_token : Blank token := token_blank.
#[global] Instance b_semi : Blank semi := semi_blank.
#[global] Instance b_op T : Blank (op T) := op_blank.
#[global] Instance b_id : Blank id := id_blank.
#[global] Instance b_dot_key : Blank dot_key := dot_key_blank.
#[global] Instance b_prop_key : Blank prop_key := prop_key_blank.
#[global] Instance b_expr : Blank expr := expr_blank.
#[global] Instance b_eli : Blank eli := eli_blank.
#[global] Instance b_prop : Blank prop := prop_blank.
#[global] Instance b_prop_val : Blank prop_val := prop_val_blank.
#[global] Instance b_target : Blank target := target_blank.
#[global] Instance b_cpatt_id : Blank (cpatt id) := cpatt_blank id_blank.
#[global] Instance b_cpatt_target : Blank (cpatt target) := cpatt_blank target_blank.
#[global] Instance b_patt_id : Blank (patt id) := patt_blank id_blank.
#[global] Instance b_patt_target : Blank (patt target) := patt_blank target_blank.
#[global] Instance b_rest_id : Blank (rest_patt id) := rest_blank (patt_blank id_blank).
#[global] Instance b_prop_patt : Blank (prop_patt target) := prop_patt_blank (patt_blank target_blank).
#[global] Instance b_rest_id' : Blank (rest_of (patt id)) := rest_blank (patt_blank id_blank).
#[global] Instance b_params : Blank params := params_blank.
#[global] Instance b_dir : Blank dir := dir_blank.
#[global] Instance b_body I {B : Blank I} : Blank (body I) := body_blank blank.
#[global] Instance b_script : Blank script := script_blank.
#[global] Instance b_module : Blank module := module_blank.
#[global] Instance b_func I B {BI : Blank I} {BB : Blank B} : Blank (func I B) := func_blank blank blank.
#[global] Instance b_stmt : Blank stmt := stmt_blank.
#[global] Instance b_block : Blank block := block_blank.
#[global] Instance b_for_head : Blank for_head := for_head_blank.
#[global] Instance b_for_in_head : Blank for_in_head := for_in_head_blank.
#[global] Instance b_for_of_head : Blank for_of_head := for_of_head_blank.
#[global] Instance b_catch : Blank catch := catch_blank.
#[global] Instance b_case : Blank case := case_blank.
#[global] Instance b_item : Blank item := item_blank.
#[global] Instance b_mod_item : Blank mod_item := mod_item_blank.
#[global] Instance b_decl : Blank decl := decl_blank.
#[global] Instance b_dtor : Blank dtor := dtor_blank.
#[global] Instance b_const_dtor : Blank const_dtor := const_dtor_blank.
#[global] Instance b_cover_error : Blank cover_error := cover_error_blank.
#[global] Instance b_error : Blank perror := error_blank.
#[global] Instance b_check : Blank check := check_blank.
#[global] Instance b_program : Blank program := program_blank.
#[global] Instance b_program_items : Blank program_items := fun p =>
  match p with PI_Script is => PI_Script (blank is) | PI_Module is => PI_Module (blank is) end.
#[global] Instance b_infix : Blank infix := fun i =>
  match i with In_Binop o => In_Binop (blank o) | In_Logop o => In_Logop (blank o) end.
#[global] Instance b_frame : Blank frame := fun f => Frame (blank (fr_left f)) (blank (fr_op f)).
#[global] Instance b_prefix : Blank PState.prefix := fun p =>
  match p with Pre_Unop o => Pre_Unop (blank o) | Pre_Inc s => Pre_Inc (blank s) | Pre_Dec s => Pre_Dec (blank s) end.
#[global] Instance b_postfix : Blank postfix := fun p =>
  match p with Post_Inc s => Post_Inc (blank s) | Post_Dec s => Post_Dec (blank s) end.
#[global] Instance b_deref : Blank deref := fun d =>
  match d with De_Brack e t => De_Brack (blank e) (blank t) | De_Dot k => De_Dot (blank k) end.
#[global] Instance b_arguments : Blank arguments := fun a => Arguments_ (blank (args_list a)) (blank (args_end a)).
#[global] Instance b_suffix : Blank suffix := fun s =>
  match s with Su_Deref d => Su_Deref (blank d) | Su_Arguments a => Su_Arguments (blank a) end.

(** ** Token sequences *)

Lemma tiles_length V src ops b k ts k' : tiles V src ops b k ts k' -> length ops = length ts.
Proof. intros H. induction H; cbn; congruence. Qed.
Lemma tiles_cut V src ops1 ops2 b k ts k2 : tiles V src (ops1 ++ ops2) b k ts k2 ->
  exists k1, tiles V src ops1 b k (firstn (length ops1) ts) k1
    /\ tiles V src ops2 (match ops1 with [] => b | _ => false end) k1 (skipn (length ops1) ts) k2.
Proof.
  revert b k ts. induction ops1 as [|op ops1 IH]; intros b k ts H; cbn [app] in H.
  - exists k. split; [constructor|exact H].
  - inversion H as [|? ? ? ? t k1 ts' ? A B]; subst. apply IH in B as (k1' & B1 & B2).
    exists k1'. cbn [length firstn skipn]. split; [econstructor; eassumption|]. destruct ops1; exact B2.
Qed.
Lemma pre_trans {A} (a b c : list A) : pre a b -> pre b c -> pre a c.
Proof. intros [x ->] [y ->]. exists (x ++ y). symmetry. apply app_assoc. Qed.
Lemma pre_app {A} (a b c : list A) : pre (a ++ b) c -> pre a c.
Proof. intros [x ->]. exists (b ++ x). rewrite app_assoc. reflexivity. Qed.
Lemma firstn_firstn_len {A} (l : list A) n m : n <= m -> firstn n (firstn m l) = firstn n l.
Proof. intros H. rewrite firstn_firstn. f_equal. lia. Qed.

Section Two.
Context (V : env) (HV : ucd_ok V) (src1 src2 : str).

(** The lexer has read the tokens [F] from the text, requested with the flags [ops]. *)
Definition read_to (src : str) (ops : list bool) (F : list token) (k : nat) (x : lexer) : Prop :=
  tiles V src ops true 0 F k /\ rd_at src k (lx_rd x)
  /\ lx_empty_line x = match ops with [] => true | _ => false end.

(** The parts of the states that are not in the lexers agree. *)
Definition erel (s1 s2 : pst) : Prop :=
  p_context s1 = p_context s2 /\ p_goal s1 = p_goal s2 /\ like (p_deferred s1) (p_deferred s2).
Definition srel (ops : list bool) (G2 : list token) (s1 s2 : pst) : Prop :=
  (exists k, read_to src2 ops (firstn (length ops) G2) k (p_lexer s2))
  /\ like (lx_ahead (p_lexer s1)) (lx_ahead (p_lexer s2)) /\ erel s1 s2.

(** The outcomes compared. *)
Definition told {A} (r : res perror A) : Prop :=
  match r with
  | Ok _ => True
  | Err (LexError _) => False
  | Err _ => True
  | Panic P_unimplemented => True
  | _ => False
  end.
Definition rrel {A} {B : Blank A} (ops : list bool) (G2 : list token) (r1 r2 : res perror (A * pst)) : Prop :=
  match r1 with
  | Ok (a1, s1) => exists a2 s2, r2 = Ok (a2, s2) /\ like a1 a2 /\ srel ops G2 s1 s2
  | Err e1 => exists e2, r2 = Err e2 /\ like e1 e2
  | Panic k => r2 = Panic k
  | NoFuel => True
  end.
(** What the first run has read. *)
Definition went {A} (ops : list bool) (r : res perror (A * pst)) : Prop :=
  exists F k, tiles V src1 ops true 0 F k
    /\ match r with Ok (_, s) => read_to src1 ops F k (p_lexer s) | _ => True end.
Definition sim {A} {B : Blank A} (m1 : C A) (m2 : P A) : Prop :=
  forall ops F k s1, read_to src1 ops F k (p_lexer s1) -> told (snd (m1 s1)) ->
    let ops' := ops ++ flags (fst (m1 s1)) in
    went ops' (snd (m1 s1))
    /\ forall opsG G1 k1 G2 k2 s2, tiles V src1 opsG true 0 G1 k1 -> tiles V src2 opsG true 0 G2 k2 ->
         map unplaced G1 = map unplaced G2 -> pre ops' opsG -> srel ops G2 s1 s2 ->
         m2 s2 = NoFuel \/ rrel ops' G2 (snd (m1 s1)) (m2 s2).

Lemma sim_bind {A A'} {B : Blank A} {B' : Blank A'} (m1 : C A) m2 (k1 : A -> C A') k2 :
  sim m1 m2 -> (forall a1 a2, like a1 a2 -> sim (k1 a1) (k2 a2)) -> sim (cbind m1 k1) (bind m2 k2).
Proof.
  intros h hk ops F k s1 L. specialize (h ops F k s1 L). unfold cbind, bind.
  destruct (m1 s1) as [c [[a1 s1']|e|p|]]; cbn [fst snd] in *.
  - destruct (k1 a1 s1') as [c' r] eqn:E. cbn [fst snd flags log_app]. intros T.
    destruct (h Logic.I) as ((F1 & j1 & _ & L1) & H1). rewrite app_assoc.
    pose proof (hk a1 a1 eq_refl _ F1 j1 s1' L1) as U. rewrite E in U. cbn [fst snd] in U.
    destruct (U T) as [W _]. split; [exact W|].
    intros opsG G1 g1 G2 g2 s2 T1 T2 EG PG SR.
    destruct (H1 opsG G1 g1 G2 g2 s2 T1 T2 EG (pre_app _ _ _ PG) SR) as [N|(a2 & s2' & E2 & la & SR')].
    { left. rewrite N. reflexivity. }
    rewrite E2. pose proof (hk a1 a2 la _ F1 j1 s1' L1) as U'. rewrite E in U'. cbn [fst snd] in U'.
    destruct (U' T) as [_ H2]. exact (H2 opsG G1 g1 G2 g2 s2' T1 T2 EG PG SR').
  - intros T. destruct (h T) as [(F1 & j1 & W & _) H1]. split; [exists F1, j1; auto|].
    intros opsG G1 g1 G2 g2 s2 T1 T2 EG PG SR.
    destruct (H1 opsG G1 g1 G2 g2 s2 T1 T2 EG PG SR) as [N|(e2 & E2 & le)]; [left; rewrite N; reflexivity|].
    right. rewrite E2. exists e2. auto.
  - intros T. destruct (h T) as [(F1 & j1 & W & _) H1]. split; [exists F1, j1; auto|].
    intros opsG G1 g1 G2 g2 s2 T1 T2 EG PG SR.
    destruct (H1 opsG G1 g1 G2 g2 s2 T1 T2 EG PG SR) as [N|E2]; [left; rewrite N; reflexivity|].
    right. cbn [rrel] in *. rewrite E2. reflexivity.
  - intros [].
Qed.

(** Operations that read nothing. *)
Lemma sim_still {A} {B : Blank A} (m1 : C A) m2 : (forall s1, flags (fst (m1 s1)) = []) ->
  (forall s1 a s1', snd (m1 s1) = Ok (a, s1') ->
     lx_rd (p_lexer s1') = lx_rd (p_lexer s1) /\ lx_empty_line (p_lexer s1') = lx_empty_line (p_lexer s1)) ->
  (forall s2 a s2', m2 s2 = Ok (a, s2') ->
     lx_rd (p_lexer s2') = lx_rd (p_lexer s2) /\ lx_empty_line (p_lexer s2') = lx_empty_line (p_lexer s2)) ->
  (forall s1 s2, told (snd (m1 s1)) -> erel s1 s2 -> like (lx_ahead (p_lexer s1)) (lx_ahead (p_lexer s2)) ->
     match snd (m1 s1) with
     | Ok (a1, s1') => exists a2 s2', m2 s2 = Ok (a2, s2') /\ like a1 a2 /\ erel s1' s2'
         /\ like (lx_ahead (p_lexer s1')) (lx_ahead (p_lexer s2'))
     | Err e1 => exists e2, m2 s2 = Err e2 /\ like e1 e2
     | Panic k => m2 s2 = Panic k
     | NoFuel => True
     end) ->
  sim m1 m2.
Proof.
  intros hf h1 h2 h ops F k s1 L T. cbv zeta. rewrite hf, app_nil_r. pose proof L as (L1 & L2 & L3). split.
  - exists F, k. split; [exact L1|]. destruct (snd (m1 s1)) as [[a s1']|e|p|] eqn:E; auto.
    destruct (h1 s1 a s1' E) as [e1 e2]. unfold read_to. rewrite e1, e2. auto.
  - intros opsG G1 g1 G2 g2 s2 T1 T2 EG PG ((j & M1 & M2 & M3) & SA & SE). right. specialize (h s1 s2 T SE SA).
    unfold rrel. destruct (snd (m1 s1)) as [[a s1']|e|p|] eqn:E; auto.
    destruct h as (a2 & s2' & E2 & la & SE' & SA'). exists a2, s2'. split; [exact E2|]. split; [exact la|].
    split; [|auto]. exists j. destruct (h2 s2 a2 s2' E2) as [e1 e2]. unfold read_to. rewrite e1, e2. auto.
Qed.
Ltac still := apply sim_still;
  [ intros; reflexivity
  | intros s1 a s1'; cbn; intros [= <- <-]; split; reflexivity
  | intros s2 a s2'; cbn; intros [= <- <-]; split; reflexivity
  | intros s1 s2; cbn [snd cret cerr cpanic cnofuel cgets cmodify ret err panic_at nofuel gets modify] ].
Lemma sim_ret {A} {B : Blank A} (a1 a2 : A) : like a1 a2 -> sim (cret a1) (ret a2).
Proof. intros h. still. intros _ E L. exists a2, s2. auto. Qed.
Lemma sim_err {A} {B : Blank A} e1 e2 : like e1 e2 -> sim (@cerr A e1) (err e2).
Proof.
  intros h. apply sim_still; [reflexivity|discriminate|discriminate|]. intros s1 s2 _ E L. exists e2. auto.
Qed.
Lemma sim_panic {A} {B : Blank A} k : sim (@cpanic A k) (panic_at k).
Proof. apply sim_still; [reflexivity|discriminate|discriminate|]. intros s1 s2 _ E L. reflexivity. Qed.
Lemma sim_gets {A} {B : Blank A} (f : pst -> A) :
  (forall s1 s2, erel s1 s2 -> like (f s1) (f s2)) -> sim (cgets f) (gets f).
Proof. intros h. still. intros _ E L. exists (f s2), s2. auto. Qed.
Lemma sim_modify f1 f2 : (forall s, p_lexer (f1 s) = p_lexer s) -> (forall s, p_lexer (f2 s) = p_lexer s) ->
  (forall s1 s2, erel s1 s2 -> erel (f1 s1) (f2 s2)) -> sim (cmodify f1) (modify f2).
Proof.
  intros h1 h2 h. apply sim_still; [reflexivity| | |].
  - intros s1 a s1' [= <- <-]. rewrite h1. auto.
  - intros s1 a s1' [= <- <-]. rewrite h2. auto.
  - intros s1 s2 _ E L. exists tt, (f2 s2). split; [reflexivity|]. split; [reflexivity|]. split; [auto|].
    rewrite h1, h2. exact L.
Qed.
Lemma sim_nofuel {A} {B : Blank A} (m1 : C A) m2 : sim m1 m2 -> sim m1 nofuel.
Proof.
  intros h ops F k s1 L T. destruct (h ops F k s1 L T) as [W _]. split; [exact W|]. intros. left. reflexivity.
Qed.
Lemma sim_loop {A A'} {B : Blank A} {B' : Blank A'} (b1 : A -> C (A + A')) b2 :
  (forall a1 a2, like a1 a2 -> sim (b1 a1) (b2 a2)) ->
  forall n1 n2 a1 a2, like a1 a2 -> sim (cloop n1 b1 a1) (loopM n2 b2 a2).
Proof.
  intros hb. induction n1 as [|n1 IH]; intros n2 a1 a2 la.
  - intros ops F k s1 L []. 
  - assert (G : forall n2, sim (cloop (Datatypes.S n1) b1 a1) (loopM (Datatypes.S n2) b2 a2)).
    { intros n. cbn [cloop loopM]. apply sim_bind; [apply hb; exact la|].
      intros [x1|x1] [x2|x2] lx; try discriminate lx.
      - apply IH. unfold like, blank, b_sum in lx. injection lx as lx. exact lx.
      - apply sim_ret. unfold like, blank, b_sum in lx. injection lx as lx. exact lx. }
    destruct n2 as [|n2]; [|apply G]. exact (sim_nofuel _ _ (G n1)).
Qed.

(** ** The operations on tokens *)

Lemma firstn_snoc {A} (l l' : list A) n x : skipn n l = x :: l' -> firstn (Datatypes.S n) l = firstn n l ++ [x].
Proof.
  revert l. induction n as [|n IH]; intros [|y l] H; try discriminate; cbn in *; [congruence|].
  f_equal. apply IH. exact H.
Qed.
Lemma unplaced_like t1 t2 : unplaced t1 = unplaced t2 -> like t1 t2.
Proof. destruct t1, t2. cbn. intros [= -> ->]. reflexivity. Qed.

(** The next token of the second text. *)
Lemma second_next ops op F s1 t k' opsG G1 g1 G2 g2 s2 :
  tiles V src1 (ops ++ [op]) true 0 (F ++ [t]) k' -> length F = length ops ->
  tiles V src1 opsG true 0 G1 g1 -> tiles V src2 opsG true 0 G2 g2 -> map unplaced G1 = map unplaced G2 ->
  pre (ops ++ [op]) opsG -> srel ops G2 s1 s2 -> lx_ahead (p_lexer s2) = [] ->
  exists t2 x2 j2, read_next_token V op (p_lexer s2) = Ok (t2, x2) /\ like t t2
    /\ read_to src2 (ops ++ [op]) (firstn (length (ops ++ [op])) G2) j2 x2 /\ lx_ahead x2 = [].
Proof.
  intros TF LF T1 T2 EG [rst PG] ((j & M1 & M2 & M3) & _) A. subst opsG.
  destruct (tiles_cut _ _ _ _ _ _ _ _ T1) as (c1 & C1 & _).
  destruct (tiles_unique _ _ _ _ _ _ _ HV C1 TF) as [EF _].
  pose proof (tiles_length _ _ _ _ _ _ _ T2) as LG2.
  rewrite <- app_assoc in T2. destruct (tiles_cut _ _ _ _ _ _ _ _ T2) as (c2 & C2 & D2).
  destruct (tiles_unique _ _ _ _ _ _ _ HV C2 M1) as [_ ->].
  cbn [app] in D2. destruct (skipn (length ops) G2) as [|t2 ts2] eqn:Hsk; inversion D2 as [|? ? ? ? ? k2' ? ? N2 R2]; subst.
  rewrite <- M3 in N2.
  destruct (next_token_read V src2 op (p_lexer s2) j t2 k2' HV M2 A N2) as (x2 & X1 & X2 & X3 & X4).
  rewrite (read_token_empty _ _ _ A) in X1. exists t2, x2, k2'. split; [exact X1|].
  assert (FS : firstn (length (ops ++ [op])) G2 = firstn (length ops) G2 ++ [t2]).
  { rewrite app_length, Nat.add_1_r. eapply firstn_snoc. exact Hsk. }
  split.
  - apply unplaced_like.
    assert (E : map unplaced (firstn (length (ops ++ [op])) G1) = map unplaced (firstn (length (ops ++ [op])) G2)).
    { rewrite <- !firstn_map, EG. reflexivity. }
    rewrite EF, FS, !map_app in E. apply app_inj_tail in E as [_ E]. exact E.
  - split; [|exact X3]. split; [|split; [exact X2|]].
    + rewrite FS. eapply tiles_snoc; [exact M1|]. rewrite M3 in N2.
      replace (match firstn (length ops) G2 with [] => true | _ => false end)
        with (match ops with [] => true | _ => false end); [exact N2|].
      destruct ops; [reflexivity|]. pose proof (tiles_length _ _ _ _ _ _ _ M1) as LM.
      destruct (firstn (length (b :: ops)) G2); [discriminate|reflexivity].
    + rewrite X4. destruct ops; reflexivity.
Qed.
(** The next token of the first text. *)
Lemma first_next ops op F k x t x' : read_to src1 ops F k x -> read_next_token V op x = Ok (t, x') ->
  exists k', read_to src1 (ops ++ [op]) (F ++ [t]) k' x' /\ lx_ahead x' = lx_ahead x.
Proof.
  intros (L1 & L2 & L3) E. pose proof (read_next_token_spec V src1 op x k (ucd_start_part V HV) L2) as R.
  unfold wp in R. rewrite E in R. destruct R as (k' & N & A & B & Z). exists k'. split; [|exact B].
  split; [|split; [exact A|rewrite Z; destruct ops; reflexivity]].
  eapply tiles_snoc; [exact L1|]. rewrite L3 in N.
  pose proof (tiles_length _ _ _ _ _ _ _ L1). destruct ops, F; try discriminate; exact N.
Qed.

Lemma like_cons {A} {B : Blank A} (a1 a2 : A) l1 l2 : like (a1 :: l1) (a2 :: l2) -> like a1 a2 /\ like l1 l2.
Proof. unfold like, blank, b_list. cbn. intros h. injection h as h1 h2. auto. Qed.
Lemma cons_like {A} {B : Blank A} (a1 a2 : A) l1 l2 : like a1 a2 -> like l1 l2 -> like (a1 :: l1) (a2 :: l2).
Proof. intros h1 h2. exact (f_equal2 (@cons A) h1 h2). Qed.
Lemma like_nil {A} {B : Blank A} (l : list A) : like [] l -> l = [].
Proof. destruct l; [reflexivity|discriminate]. Qed.

Lemma sim_read op : sim (lex' (Some op) (read_token V op)) (lex (read_token V op)).
Proof.
  intros ops F k s1 L T. cbv zeta. unfold lex', lex in *. cbv zeta in *. cbn [fst snd flags lex_flags] in *.
  destruct (lx_ahead (p_lexer s1)) as [|t la] eqn:A1.
  - rewrite (read_token_empty _ _ _ A1) in *.
    destruct (read_next_token V op (p_lexer s1)) as [[t x']|e|p|] eqn:E1; try (destruct T; fail).
    + destruct (first_next ops op F k _ t x' L E1) as (k' & L' & A'). split.
      * exists (F ++ [t]), k'. split; [exact (proj1 L')|exact L'].
      * intros opsG G1 g1 G2 g2 s2 T1 T2 EG PG SR. right. pose proof SR as (_ & SA & SE). rewrite A1 in SA.
        apply like_nil in SA.
        destruct (second_next ops op F s1 t k' opsG G1 g1 G2 g2 s2 (proj1 L') (eq_sym (tiles_length _ _ _ _ _ _ _ (proj1 L)))
          T1 T2 EG PG SR SA) as (t2 & x2 & j2 & E2 & lt & R2 & A2).
        rewrite (read_token_empty _ _ _ SA), E2. cbn [rrel]. exists t2, (set_lexer x2 s2). split; [reflexivity|].
        split; [exact lt|]. split; [exists j2; exact R2|]. cbn [set_lexer p_lexer]. rewrite A', A1, A2. split; [reflexivity|exact SE].
    + exfalso. pose proof (read_next_token_spec V src1 op (p_lexer s1) k (ucd_start_part V HV) (proj1 (proj2 L))) as R.
      unfold wp in R. rewrite E1 in R. clear - R T. destruct p; try destruct T. destruct R as [[[R _]|[R _]]|[R _]]; discriminate R.
  - rewrite app_nil_r. assert (E1 : read_token V op (p_lexer s1)
      = Ok (t, Lexer (lx_rd (p_lexer s1)) la (lx_empty_line (p_lexer s1)))).
    { unfold read_token, bind, gets, modify, ret. rewrite A1. reflexivity. }
    rewrite E1. split; [exists F, k; split; [exact (proj1 L)|exact L]|].
    intros opsG G1 g1 G2 g2 s2 T1 T2 EG PG ((j & M) & SA & SE). right. rewrite A1 in SA.
    destruct (lx_ahead (p_lexer s2)) as [|t2 la2] eqn:A2; [discriminate SA|]. apply like_cons in SA as [lt SA].
    assert (E2 : read_token V op (p_lexer s2)
      = Ok (t2, Lexer (lx_rd (p_lexer s2)) la2 (lx_empty_line (p_lexer s2)))).
    { unfold read_token, bind, gets, modify, ret. rewrite A2. reflexivity. }
    rewrite E2. cbn [rrel]. eexists t2, _. split; [reflexivity|]. split; [exact lt|].
    split; [exists j; exact M|]. split; [exact SA|exact SE].
Qed.
Lemma sim_peek op : sim (lex' (Some op) (peek_token V op)) (lex (peek_token V op)).
Proof.
  intros ops F k s1 L T. cbv zeta. unfold lex', lex in *. cbv zeta in *. cbn [fst snd flags lex_flags] in *.
  destruct (lx_ahead (p_lexer s1)) as [|t la] eqn:A1.
  - assert (P0 : forall x, lx_ahead x = [] -> peek_token V op x
      = match read_next_token V op x with
        | Ok (t, x') => Ok (t, Lexer (lx_rd x') [t] (lx_empty_line x'))
        | Err e => Err e | Panic p => Panic p | NoFuel => NoFuel end).
    { intros x h. unfold peek_token, bind, gets, modify, ret. rewrite h. destruct (read_next_token V op x) as [[? ?]|?|?|]; reflexivity. }
    rewrite (P0 _ A1) in *.
    destruct (read_next_token V op (p_lexer s1)) as [[t x']|e|p|] eqn:E1; try (destruct T; fail).
    + destruct (first_next ops op F k _ t x' L E1) as (k' & L' & A'). split.
      * exists (F ++ [t]), k'. split; [exact (proj1 L')|exact L'].
      * intros opsG G1 g1 G2 g2 s2 T1 T2 EG PG SR. right. pose proof SR as (_ & SA & SE). rewrite A1 in SA.
        apply like_nil in SA.
        destruct (second_next ops op F s1 t k' opsG G1 g1 G2 g2 s2 (proj1 L') (eq_sym (tiles_length _ _ _ _ _ _ _ (proj1 L)))
          T1 T2 EG PG SR SA) as (t2 & x2 & j2 & E2 & lt & R2 & A2).
        rewrite (P0 _ SA), E2. cbn [rrel]. eexists t2, _. split; [reflexivity|].
        split; [exact lt|]. split; [exists j2; exact R2|]. cbn [set_lexer p_lexer lx_ahead].
        split; [apply cons_like; [exact lt|reflexivity]|exact SE].
    + exfalso. pose proof (read_next_token_spec V src1 op (p_lexer s1) k (ucd_start_part V HV) (proj1 (proj2 L))) as R.
      unfold wp in R. rewrite E1 in R. clear - R T. destruct p; try destruct T. destruct R as [[[R _]|[R _]]|[R _]]; discriminate R.
  - rewrite app_nil_r. assert (P0 : forall x t l, lx_ahead x = t :: l -> peek_token V op x = Ok (t, x)).
    { intros x t' l h. unfold peek_token, bind, gets, modify, ret. rewrite h. reflexivity. }
    rewrite (P0 _ _ _ A1). split; [exists F, k; split; [exact (proj1 L)|exact L]|].
    intros opsG G1 g1 G2 g2 s2 T1 T2 EG PG ((j & M) & SA & SE). right. rewrite A1 in SA.
    destruct (lx_ahead (p_lexer s2)) as [|t2 la2] eqn:A2; [discriminate SA|].
    rewrite (P0 _ _ _ A2). cbn [rrel]. exists t2, (set_lexer (p_lexer s2) s2). split; [reflexivity|].
    split; [exact (proj1 (like_cons _ _ _ _ SA))|]. split; [exists j; exact M|]. cbn [set_lexer p_lexer].
    rewrite A1, A2. split; [exact SA|exact SE].
Qed.
Lemma sim_skip : sim (p_skip' V) (p_skip V).
Proof.
  assert (H : sim (cbind (p_read' V) (fun _ => cret tt)) (bind (p_read V) (fun _ => ret tt))).
  { apply sim_bind; [apply sim_read|]. intros. apply sim_ret. reflexivity. }
  assert (E1 : forall s, snd (p_skip' V s) = snd (cbind (p_read' V) (fun _ => cret tt) s)
    /\ flags (fst (p_skip' V s)) = flags (fst (cbind (p_read' V) (fun _ => cret tt) s))).
  { intros s. unfold p_skip', p_read', lex', cbind, cret, skip_token, bind, ret. cbv zeta. cbn [fst snd].
    destruct (read_token V false (p_lexer s)) as [[? ?]|?|?|]; cbn; rewrite ?app_nil_r; auto. }
  assert (E2 : forall s, p_skip V s = bind (p_read V) (fun _ => ret tt) s).
  { intros s. unfold p_skip, p_read, lex, skip_token, bind, ret.
    destruct (read_token V false (p_lexer s)) as [[? ?]|?|?|]; reflexivity. }
  intros ops F k s1 L. destruct (E1 s1) as [-> ->]. intros T. destruct (H ops F k s1 L T) as [W H2].
  split; [exact W|]. intros. rewrite E2. eapply H2; eassumption.
Qed.
Lemma sim_unread t1 t2 : like t1 t2 -> sim (p_unread' t1) (p_unread t2).
Proof.
  intros lt. apply sim_still.
  - intros s1. reflexivity.
  - intros s1 a s1'. unfold p_unread', lex', unread_token, bind, gets, modify, panic_at. cbv zeta. cbn [snd].
    destruct (Nat.ltb (length (lx_ahead (p_lexer s1))) lookahead_capacity); intros [= <- <-]. auto.
  - intros s1 a s1'. unfold p_unread, lex, unread_token, bind, gets, modify, panic_at.
    destruct (Nat.ltb (length (lx_ahead (p_lexer s1))) lookahead_capacity); intros [= <- <-]. auto.
  - intros s1 s2. unfold p_unread', p_unread, lex', lex, unread_token, bind, gets, modify, panic_at. cbv zeta. cbn [snd].
    intros T SE SA. assert (EL : length (lx_ahead (p_lexer s2)) = length (lx_ahead (p_lexer s1))).
    { apply (f_equal (@length _)) in SA. unfold blank, b_list in SA. rewrite !map_length in SA. auto. }
    rewrite EL. destruct (Nat.ltb (length (lx_ahead (p_lexer s1))) lookahead_capacity); [|destruct T].
    eexists tt, _. split; [reflexivity|]. split; [reflexivity|]. split; [exact SE|].
    cbn [set_lexer p_lexer lx_ahead]. apply cons_like; assumption.
Qed.
Lemma sim_reread_token : sim p_reread_token' p_reread_token.
Proof.
  apply sim_still.
  - intros s1. reflexivity.
  - intros s1 a s1'. unfold p_reread_token', lex', reread_token, bind, gets, modify, panic_at, ret. cbv zeta. cbn [snd].
    destruct (lx_ahead (p_lexer s1)); intros [= <- <-]. auto.
  - intros s1 a s1'. unfold p_reread_token, lex, reread_token, bind, gets, modify, panic_at, ret.
    destruct (lx_ahead (p_lexer s1)); intros [= <- <-]. auto.
  - intros s1 s2. unfold p_reread_token', p_reread_token, lex', lex, reread_token, bind, gets, modify, panic_at, ret.
    cbv zeta. cbn [snd]. intros T SE SA.
    destruct (lx_ahead (p_lexer s1)) as [|x1 l1]; [destruct T|].
    destruct (lx_ahead (p_lexer s2)) as [|x2 l2]; [discriminate SA|]. apply like_cons in SA as [lt SA].
    eexists x2, _. split; [reflexivity|]. split; [exact lt|]. split; [exact SE|]. exact SA.
Qed.
Lemma sim_repeek : sim (lex' None repeek_token) (lex repeek_token).
Proof.
  apply sim_still.
  - intros s1. reflexivity.
  - intros s1 a s1'. unfold lex', repeek_token, bind, gets, modify, panic_at, ret. cbv zeta. cbn [snd].
    destruct (lx_ahead (p_lexer s1)); intros [= <- <-]. auto.
  - intros s1 a s1'. unfold lex, repeek_token, bind, gets, modify, panic_at, ret.
    destruct (lx_ahead (p_lexer s1)); intros [= <- <-]. auto.
  - intros s1 s2. unfold lex', lex, repeek_token, bind, gets, modify, panic_at, ret.
    cbv zeta. cbn [snd]. intros T SE SA.
    destruct (lx_ahead (p_lexer s1)) as [|x1 l1] eqn:A1; [destruct T|].
    destruct (lx_ahead (p_lexer s2)) as [|x2 l2] eqn:A2; [discriminate SA|].
    eexists x2, _. split; [reflexivity|]. split; [exact (proj1 (like_cons _ _ _ _ SA))|]. split; [exact SE|].
    cbn [set_lexer p_lexer]. rewrite A1, A2. exact SA.
Qed.
End Two.
