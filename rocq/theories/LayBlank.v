(** Erasing positions commutes with the functions the parser applies to trees, and the
    tactics that compare two values built alike. *)
From Coq Require Import String Ascii List NArith Arith Bool Lia.
From Verif Require Import Base Chars F64 Word Token Reader Lexer Punc Ast Track Cover Stack PState Parser
  Node NodeProofs CoverProofs Cost SpecBlank LayBase.
Import ListNotations.
Local Open Scope nat_scope.

(** ** The shape of two values that agree *)

Lemma token_like l1 n1 d1 l2 n2 d2 : like (Token l1 n1 d1) (Token l2 n2 d2) -> n1 = n2 /\ d1 = d2.
Proof. intros h. unfold like, blank, b_token, token_blank in h. injection h as -> ->. auto. Qed.
Lemma like_token l1 l2 n d : like (Token l1 n d) (Token l2 n d).
Proof. reflexivity. Qed.
Lemma some_like {A} {B : Blank A} (a1 a2 : A) : like (Some a1) (Some a2) -> like a1 a2.
Proof. intros h. unfold like, blank at 1 2, b_option in h. cbn in h. injection h as h. exact h. Qed.
Lemma like_some {A} {B : Blank A} (a1 a2 : A) : like a1 a2 -> like (Some a1) (Some a2).
Proof. intros h. exact (f_equal Some h). Qed.
Lemma pair_like {A A'} {B : Blank A} {B' : Blank A'} (a1 a2 : A) (b1 b2 : A') :
  like (a1, b1) (a2, b2) -> like a1 a2 /\ like b1 b2.
Proof. intros h. unfold like, blank at 1 2, b_prod in h. cbn in h. injection h as h1 h2. split; assumption. Qed.
Lemma like_pair {A A'} {B : Blank A} {B' : Blank A'} (a1 a2 : A) (b1 b2 : A') :
  like a1 a2 -> like b1 b2 -> like (a1, b1) (a2, b2).
Proof. intros h1 h2. exact (f_equal2 pair h1 h2). Qed.
Lemma like_inl {A A'} {B : Blank A} {B' : Blank A'} (a1 a2 : A) : like a1 a2 -> like (inl a1 : A + A') (inl a2).
Proof. intros h. exact (f_equal inl h). Qed.
Lemma like_inr {A A'} {B : Blank A} {B' : Blank A'} (a1 a2 : A') : like a1 a2 -> like (inr a1 : A + A') (inr a2).
Proof. intros h. exact (f_equal inr h). Qed.
Lemma inl_like {A A'} {B : Blank A} {B' : Blank A'} (a1 a2 : A) : like (inl a1 : A + A') (inl a2) -> like a1 a2.
Proof. intros h. unfold like, blank at 1 2, b_sum in h. injection h as h. exact h. Qed.
Lemma inr_like {A A'} {B : Blank A} {B' : Blank A'} (a1 a2 : A') : like (inr a1 : A + A') (inr a2) -> like a1 a2.
Proof. intros h. unfold like, blank at 1 2, b_sum in h. injection h as h. exact h. Qed.
Lemma like_app {A} {B : Blank A} (l1 l2 m1 m2 : list A) : like l1 l2 -> like m1 m2 -> like (l1 ++ m1) (l2 ++ m2).
Proof. intros h1 h2. unfold like, blank, b_list in *. rewrite !map_app. congruence. Qed.
Lemma like_rev {A} {B : Blank A} (l1 l2 : list A) : like l1 l2 -> like (rev l1) (rev l2).
Proof. intros h. unfold like, blank, b_list in *. rewrite !map_rev. congruence. Qed.

(** ** Locations *)

Lemma bl_span_of a b : loc_blank (span_of a b) = span_of (loc_blank a) (loc_blank b).
Proof. destruct a, b; reflexivity. Qed.
Lemma bl_expr_loc e : loc_blank (expr_loc e) = expr_loc (expr_blank e).
Proof. destruct e; try reflexivity. Qed.
Lemma bl_id_loc i : loc_blank (id_loc i) = id_loc (id_blank i).
Proof. reflexivity. Qed.
Lemma bl_dk_loc i : loc_blank (dk_loc i) = dk_loc (dot_key_blank i).
Proof. reflexivity. Qed.
Lemma bl_op_loc {T} (i : op T) : loc_blank (op_loc i) = op_loc (op_blank i).
Proof. reflexivity. Qed.
Lemma bl_bo_loc {I} f (b : body I) : loc_blank (bo_loc b) = bo_loc (body_blank f b).
Proof. reflexivity. Qed.
Lemma bl_prop_key_loc i : loc_blank (prop_key_loc i) = prop_key_loc (prop_key_blank i).
Proof. destruct i; reflexivity. Qed.
Lemma bl_cpatt_loc {T} f (c : cpatt T) : loc_blank (cpatt_loc c) = cpatt_loc (cpatt_blank f c).
Proof. destruct c; reflexivity. Qed.
Lemma bl_patt_id_loc p : loc_blank (patt_id_loc p) = patt_id_loc (patt_of_blank id_blank (cpatt_blank id_blank) p).
Proof. destruct p as [|[]]; reflexivity. Qed.
Lemma bl_target_loc t : loc_blank (target_loc t) = target_loc (target_blank t).
Proof. destruct t; reflexivity. Qed.
Lemma bl_patt_target_loc p :
  loc_blank (patt_target_loc p) = patt_target_loc (patt_of_blank target_blank (cpatt_blank target_blank) p).
Proof. destruct p as [[]|[]]; reflexivity. Qed.
Lemma bl_stmt_loc s : loc_blank (stmt_loc s) = stmt_loc (stmt_blank s).
Proof. destruct s as [|[]| | | | | | | | | | | | | | | | |]; reflexivity. Qed.

Lemma bl_stmt_set s l : stmt_blank (stmt_set_loc s l) = stmt_set_loc (stmt_blank s) (loc_blank l).
Proof. destruct s as [|[]| | | | | | | | | | | | | | | | |]; reflexivity. Qed.
Lemma bl_decl_set s l : decl_blank (decl_set_loc s l) = decl_set_loc (decl_blank s) (loc_blank l).
Proof. destruct s; reflexivity. Qed.
Lemma bl_dtor_set s l : dtor_blank (dtor_set_loc s l) = dtor_set_loc (dtor_blank s) (loc_blank l).
Proof. destruct s; reflexivity. Qed.
Lemma bl_block_set s l : block_blank (block_set_loc s l) = block_set_loc (block_blank s) (loc_blank l).
Proof. destruct s; reflexivity. Qed.
Lemma bl_case_set s l : case_blank (case_set_loc s l) = case_set_loc (case_blank s) (loc_blank l).
Proof. destruct s; reflexivity. Qed.
Lemma bl_catch_set s l : catch_blank (catch_set_loc s l) = catch_set_loc (catch_blank s) (loc_blank l).
Proof. destruct s; reflexivity. Qed.
Lemma bl_expr_set s l : expr_blank (expr_set_loc s l) = expr_set_loc (expr_blank s) (loc_blank l).
Proof. destruct s; reflexivity. Qed.
Lemma bl_eli_set s l : eli_blank (eli_set_loc s l) = eli_set_loc (eli_blank s) (loc_blank l).
Proof. destruct s; cbn; rewrite ?bl_expr_set; reflexivity. Qed.
Lemma bl_params_set s l : params_blank (params_set_loc s l) = params_set_loc (params_blank s) (loc_blank l).
Proof. destruct s; reflexivity. Qed.
Lemma bl_rest_set {P} f (s : rest_of P) l : rest_blank f (rest_set_loc s l) = rest_set_loc (rest_blank f s) (loc_blank l).
Proof. destruct s; reflexivity. Qed.
Lemma bl_func_set {I B} f g (s : func I B) l : func_blank f g (func_set_loc s l) = func_set_loc (func_blank f g s) (loc_blank l).
Proof. destruct s; reflexivity. Qed.
Lemma bl_body_set {I} f (s : body I) l : body_blank f (body_set_loc s l) = body_set_loc (body_blank f s) (loc_blank l).
Proof. destruct s; reflexivity. Qed.
Lemma bl_dir_set d l : dir_blank (Dir l (dir_string d) (dir_semi d))
  = Dir (loc_blank l) (dir_string (dir_blank d)) (dir_semi (dir_blank d)).
Proof. reflexivity. Qed.
Lemma bl_program_set s l : program_blank (program_set_loc s l) = program_set_loc (program_blank s) (loc_blank l).
Proof. destruct s; reflexivity. Qed.

(** ** The operator stack *)

Definition frame_blank : frame -> frame := b_frame.
Definition infix_blank : infix -> infix := b_infix.
Lemma infix_blank_prec i : infix_precedence (infix_blank i) = infix_precedence i.
Proof. destruct i; reflexivity. Qed.
Lemma bl_fill f e : expr_blank (fill f e) = fill (frame_blank f) (expr_blank e).
Proof.
  destruct f as [l [o|o]]; cbn; unfold fill; cbn; rewrite bl_span_of, !bl_expr_loc; reflexivity.
Qed.
Lemma bl_extend s : forall e o, map frame_blank (stack_extend s e o) = stack_extend (map frame_blank s) (expr_blank e) (infix_blank o).
Proof.
  induction s as [|f s IH]; intros e o; cbn [stack_extend map]; [reflexivity|].
  replace (groups_left (fr_op (frame_blank f)) (infix_blank o)) with (groups_left (fr_op f) o).
  - destruct (groups_left (fr_op f) o); [|reflexivity]. rewrite IH, bl_fill. reflexivity.
  - unfold groups_left. destruct f as [l i]. cbn [frame_blank b_frame fr_op fr_left].
    change (blank i) with (infix_blank i). rewrite !infix_blank_prec. reflexivity.
Qed.
Lemma bl_finish s : forall e, expr_blank (stack_finish s e) = stack_finish (map frame_blank s) (expr_blank e).
Proof. induction s as [|f s IH]; intros e; cbn [stack_finish map]; [reflexivity|]. rewrite IH, bl_fill. reflexivity. Qed.

(** ** Assignment targets *)

Definition cres_blank {A} (f : A -> A) (c : cres A) : cres A :=
  match c with inl e => inl (cover_error_blank e) | inr a => inr (f a) end.
Lemma bl_target e : into_assign_target (expr_blank e) = cres_blank target_blank (into_assign_target e).
Proof. destruct e; try reflexivity. Qed.
Notation pt_blank := (patt_of_blank target_blank (cpatt_blank target_blank)).
Definition celt_blank (c : celt) : celt :=
  match c with
  | CHole => CHole
  | CElt r => CElt (cres_blank pt_blank r)
  | CSpread l r => CSpread (loc_blank l) (cres_blank pt_blank r)
  end.
Lemma bl_elts es : cover_elts (map celt_blank es) = cres_blank (map (option_map pt_blank)) (cover_elts es).
Proof.
  induction es as [|[|[x|p]|l r] es IH]; cbn [map celt_blank cover_elts cres_blank]; try reflexivity;
    rewrite IH; destruct (cover_elts es); reflexivity.
Qed.
Lemma bl_arr l es : cover_arr (loc_blank l) (map celt_blank es) = cres_blank pt_blank (cover_arr l es).
Proof.
  unfold cover_arr. rewrite <- map_rev.
  assert (G : match cover_elts (map celt_blank es) with inl x => inl x
     | inr ps => inr (Compound (C_Arr (loc_blank l) ps None)) end
     = cres_blank pt_blank (match cover_elts es with inl x => inl x
       | inr ps => inr (Compound (C_Arr l ps None)) end)).
  { rewrite bl_elts. destruct (cover_elts es); reflexivity. }
  destruct (rev es) as [|[|r|[s|] r] es']; cbn [map celt_blank loc_blank option_map]; try exact G.
  destruct r as [x|p]; cbn [cres_blank]; [reflexivity|]. rewrite <- map_rev, bl_elts.
  destruct (cover_elts (rev es')); reflexivity.
Qed.
Notation pp_blank := (prop_patt_blank pt_blank).
Lemma bl_props ps : cover_props (map (cres_blank pp_blank) ps) = cres_blank (map pp_blank) (cover_props ps).
Proof.
  induction ps as [|[x|p] ps IH]; cbn [map cres_blank cover_props]; try reflexivity.
  rewrite IH; destruct (cover_props ps); reflexivity.
Qed.

Definition bk (e : expr) : Prop := into_assign_patt (expr_blank e) = cres_blank pt_blank (into_assign_patt e).
Definition bkv (v : prop_val) : Prop := into_prop_val (prop_val_blank v) = option_map (cres_blank pt_blank) (into_prop_val v).
Definition bki (i : eli) : Prop := into_celt (eli_blank i) = celt_blank (into_celt i).
Definition bkp (p : prop) : Prop := into_assign_prop (prop_blank p) = cres_blank pp_blank (into_assign_prop p).
Definition bkn (n : node) : Prop :=
  match n with N_expr e => bk e | N_eli i => bki i | N_prop p => bkp p | N_pval v => bkv v | _ => True end.
Lemma bl_all n : bkn n.
Proof.
  induction n as [n IH] using node_ind'. destruct n; try exact Logic.I; cbn [bkn].
  - assert (HS : match e with E_Arr _ _ | E_Obj _ _ => True | _ => bk e end).
    { destruct e; try exact Logic.I; unfold bk; reflexivity. }
    destruct e; try exact HS; clear HS; unfold bk; cbn [expr_blank into_assign_patt].
    + rewrite <- bl_arr, !map_map. f_equal. apply map_ext_in. intros [i|] Hi; [|reflexivity].
      apply (IH (N_eli i)). cbn [children expr_children]. unfold of_holes.
      apply in_flat_map. exists (Some i). split; [exact Hi|left; reflexivity].
    + assert (E : map into_assign_prop (map prop_blank props) = map (cres_blank pp_blank) (map into_assign_prop props)).
      { rewrite !map_map. apply map_ext_in. intros q Hq. apply (IH (N_prop q)). cbn [children expr_children].
        apply in_map, Hq. }
      rewrite E, bl_props. destruct (cover_props (map into_assign_prop props)); reflexivity.
  - destruct e as [e|l e]; unfold bki; cbn [eli_blank into_celt celt_blank]; f_equal;
      exact (IH (N_expr e) (or_introl eq_refl)).
  - destruct p as [l k v| |]; unfold bkp; try reflexivity. cbn [prop_blank into_assign_prop].
    pose proof (IH (N_pval v) (or_intror (or_introl eq_refl))) as Hv. cbn [bkn] in Hv. rewrite Hv.
    destruct (into_prop_val v) as [[x|q]|]; reflexivity.
  - destruct v as [e| |]; unfold bkv; try reflexivity. cbn [prop_val_blank into_prop_val option_map]. f_equal.
    exact (IH (N_expr e) (or_introl eq_refl)).
Qed.
Lemma bl_patt e : into_assign_patt (expr_blank e) = cres_blank pt_blank (into_assign_patt e).
Proof. exact (bl_all (N_expr e)). Qed.

(** ** What the parser builds *)

Lemma bl_deref d e : expr_blank (deref_append_to d e) = deref_append_to (b_deref d) (expr_blank e).
Proof. destruct d; cbn; rewrite bl_span_of, bl_expr_loc; try rewrite bl_dk_loc; reflexivity. Qed.
Lemma bl_args a e : expr_blank (arguments_append_to a e) = arguments_append_to (b_arguments a) (expr_blank e).
Proof. destruct a; cbn; rewrite bl_span_of, bl_expr_loc; reflexivity. Qed.
Lemma bl_args_new a n e : expr_blank (arguments_append_to_new a n e)
  = arguments_append_to_new (b_arguments a) (token_blank n) (expr_blank e).
Proof. destruct a; cbn. unfold arguments_append_to_new. cbn. reflexivity. Qed.
Lemma bl_suffix s e : expr_blank (suffix_append_to s e) = suffix_append_to (b_suffix s) (expr_blank e).
Proof. destruct s; [apply bl_deref|apply bl_args]. Qed.
Lemma bl_wrap ls b : stmt_blank (wrap_labels ls b) = wrap_labels (map id_blank ls) (stmt_blank b).
Proof.
  unfold wrap_labels. rewrite <- map_rev. generalize (rev ls). clear ls. intros ls. revert b.
  induction ls as [|i ls IH]; intros b; cbn [fold_left map]; [reflexivity|]. rewrite IH. f_equal.
  cbn [stmt_blank]. rewrite bl_span_of, bl_id_loc, bl_stmt_loc. reflexivity.
Qed.
Lemma bl_insert ls t : forall m, insert_labels (map id_blank ls) t m = insert_labels ls t m.
Proof. unfold insert_labels. induction ls as [|i ls IH]; intros m; cbn [fold_left map]; [reflexivity|]. apply IH. Qed.
Lemma bl_remove ls : forall m, remove_labels (map id_blank ls) m = remove_labels ls m.
Proof. unfold remove_labels. induction ls as [|i ls IH]; intros m; cbn [fold_left map]; [reflexivity|]. apply IH. Qed.
Lemma bl_mod_items l : map mod_item_blank (map item_into_mod_item l) = map item_into_mod_item (map item_blank l).
Proof. rewrite !map_map. apply map_ext. intros i. destruct i; reflexivity. Qed.
Lemma bl_first_compound ps : option_map (cpatt_blank id_blank) (first_compound ps)
  = first_compound (map (patt_of_blank id_blank (cpatt_blank id_blank)) ps).
Proof. induction ps as [|[i|c] ps IH]; cbn [map first_compound patt_of_blank]; [reflexivity|exact IH|reflexivity]. Qed.
Lemma bl_perform b cs : option_map error_blank (perform_all b cs) = perform_all b (map check_blank cs).
Proof.
  induction cs as [|[e|e] cs IH]; cbn [map perform_all check_perform check_blank option_map]; try reflexivity.
  destruct b; [reflexivity|exact IH].
Qed.
Lemma bl_pragma ds s : existsb (fun d => str_eqb (dir_pragma d) s) (map dir_blank ds) = existsb (fun d => str_eqb (dir_pragma d) s) ds.
Proof. induction ds as [|d ds IH]; cbn [map existsb]; [reflexivity|]. rewrite IH. reflexivity. Qed.

(** ** Comparing two values built alike *)

Create HintDb blk.
#[export] Hint Rewrite bl_span_of bl_expr_loc bl_id_loc bl_dk_loc @bl_op_loc bl_prop_key_loc
  bl_patt_id_loc bl_target_loc bl_patt_target_loc bl_stmt_loc : blk.
Lemma bl_cpatt_id_loc (c : cpatt id) : loc_blank (cpatt_loc c) = cpatt_loc (cpatt_blank id_blank c).
Proof. apply bl_cpatt_loc. Qed.
Lemma bl_script_loc (b : body item) : loc_blank (bo_loc b) = bo_loc (body_blank item_blank b).
Proof. reflexivity. Qed.
Lemma bl_Id l n : id_blank (Id l n) = Id (loc_blank l) n. Proof. reflexivity. Qed.
Lemma bl_DotKey l n : dot_key_blank (DotKey l n) = DotKey (loc_blank l) n. Proof. reflexivity. Qed.
Lemma bl_Op {T} l (n : T) : op_blank (Op l n) = Op (loc_blank l) n. Proof. reflexivity. Qed.
Lemma bl_Dir l n s : dir_blank (Dir l n s) = Dir (loc_blank l) n (semi_blank s). Proof. reflexivity. Qed.
Lemma bl_Body {I} f l d (i : list I) : body_blank f (Body l d i) = Body (loc_blank l) (map dir_blank d) (map f i).
Proof. reflexivity. Qed.
Lemma bl_Fun {I B} f g l (i : I) p (b : B) x : func_blank f g (Fun l i p b x) = Fun (loc_blank l) (f i) (params_blank p) (g b) x.
Proof. reflexivity. Qed.
Lemma bl_Params l p r : params_blank (Params l p r)
  = Params (loc_blank l) (map (patt_of_blank id_blank (cpatt_blank id_blank)) p)
      (option_map (rest_blank (patt_of_blank id_blank (cpatt_blank id_blank))) r).
Proof. reflexivity. Qed.
Lemma bl_Rest {P} f l (p : P) : rest_blank f (RestPatt l p) = RestPatt (loc_blank l) (f p). Proof. reflexivity. Qed.
Lemma bl_PK_Id l n : prop_key_blank (PK_Id l n) = PK_Id (loc_blank l) n. Proof. reflexivity. Qed.
Lemma bl_PK_String l n : prop_key_blank (PK_String l n) = PK_String (loc_blank l) n. Proof. reflexivity. Qed.
Lemma bl_PK_Number l n : prop_key_blank (PK_Number l n) = PK_Number (loc_blank l) n. Proof. reflexivity. Qed.
Lemma bl_Some s : loc_blank (Some s) = Some (Span origin origin). Proof. reflexivity. Qed.
Lemma bl_None : loc_blank None = None. Proof. reflexivity. Qed.
Lemma bl_Token l n d : token_blank (Token l n d) = Token (Span origin origin) n d. Proof. reflexivity. Qed.
#[export] Hint Rewrite bl_cpatt_id_loc bl_script_loc bl_stmt_set bl_decl_set bl_dtor_set bl_block_set bl_case_set
  bl_catch_set bl_eli_set bl_params_set @bl_rest_set @bl_func_set @bl_body_set bl_program_set
  bl_wrap bl_mod_items @map_app @map_rev
  bl_Id bl_DotKey @bl_Op bl_Dir @bl_Body @bl_Fun bl_Params @bl_Rest bl_PK_Id bl_PK_String bl_PK_Number
  bl_Some bl_None bl_Token : blk.

Ltac blank_unfold := cbv beta iota delta [like blank b_unit b_bool b_name b_data b_slit b_nlit b_rlit b_ltype b_unop
  b_goal b_tri b_context b_posn b_span b_option b_list b_prod b_sum b_token b_semi b_op b_id
  b_dot_key b_prop_key b_expr b_eli b_prop b_prop_val b_target b_cpatt_id b_cpatt_target b_patt_id
  b_patt_target b_rest_id b_prop_patt b_rest_id' b_params b_dir b_body b_script b_module b_func b_stmt
  b_block b_for_head b_for_in_head b_for_of_head b_catch b_case b_item b_mod_item b_decl b_dtor
  b_const_dtor b_cover_error b_error b_check b_program b_program_items patt_blank script_blank module_blank
  dtor_from_compound_init dtor_from_simple_init dtor_from_init const_dtor_from_init id_new] in *.
Ltac blank_cbn := cbn [expr_blank eli_blank prop_blank prop_val_blank target_blank stmt_blank block_blank for_head_blank
  for_in_head_blank for_of_head_blank catch_blank case_blank item_blank decl_blank dtor_blank const_dtor_blank
  error_blank check_blank program_blank mod_item_blank cover_error_blank semi_blank patt_of_blank
  option_map map fst snd tk_loc tk_newline tk_value span_blank posn_blank] in *.
Ltac lk1 := blank_unfold; blank_cbn; cbv beta delta [patt_blank script_blank module_blank] in *;
  repeat change (option_map span_blank) with loc_blank in *;
  repeat change (option_map posn_blank) with (option_map (fun _ : posn => origin)) in *;
  autorewrite with blk; blank_cbn; cbv beta delta [patt_blank script_blank module_blank] in *;
  cbv delta [patt rest_patt prop_patt script module unop binop logop assop loc] in *;
  congruence.
Create HintDb lk.
#[export] Hint Resolve like_some like_pair like_inl like_inr like_app like_rev cons_like like_token : lk.

Lemma lk_extend s1 s2 e1 e2 o1 o2 : like s1 s2 -> like e1 e2 -> like o1 o2 ->
  like (stack_extend s1 e1 o1) (stack_extend s2 e2 o2).
Proof.
  intros h1 h2 h3. unfold like, blank, b_list in *. change (@blank frame b_frame) with frame_blank in *.
  rewrite !bl_extend. unfold infix_blank, b_expr in *. congruence.
Qed.
Lemma lk_finish s1 s2 e1 e2 : like s1 s2 -> like e1 e2 -> like (stack_finish s1 e1) (stack_finish s2 e2).
Proof.
  intros h1 h2. unfold like, blank, b_list, b_expr in *. change (@blank frame b_frame) with frame_blank in *.
  rewrite !bl_finish. congruence.
Qed.
Lemma lk_deref d1 d2 e1 e2 : like d1 d2 -> like e1 e2 -> like (deref_append_to d1 e1) (deref_append_to d2 e2).
Proof. intros h1 h2. unfold like, blank, b_expr in *. rewrite !bl_deref. congruence. Qed.
Lemma lk_suffix d1 d2 e1 e2 : like d1 d2 -> like e1 e2 -> like (suffix_append_to d1 e1) (suffix_append_to d2 e2).
Proof. intros h1 h2. unfold like, blank, b_expr in *. rewrite !bl_suffix. congruence. Qed.
Lemma lk_args_new d1 d2 t1 t2 e1 e2 : like d1 d2 -> like t1 t2 -> like e1 e2 ->
  like (arguments_append_to_new d1 t1 e1) (arguments_append_to_new d2 t2 e2).
Proof. intros h1 h2 h3. unfold like, blank, b_expr, b_token in *. rewrite !bl_args_new. congruence. Qed.
Lemma lk_Pre_Unop o1 o2 : like o1 o2 -> like (Pre_Unop o1) (Pre_Unop o2).
Proof. intros h. exact (f_equal Pre_Unop h). Qed.
Lemma lk_Pre_Inc o1 o2 : like (Pre_Inc o1) (Pre_Inc o2). Proof. reflexivity. Qed.
Lemma lk_Pre_Dec o1 o2 : like (Pre_Dec o1) (Pre_Dec o2). Proof. reflexivity. Qed.
Lemma lk_Post_Inc o1 o2 : like (Post_Inc o1) (Post_Inc o2). Proof. reflexivity. Qed.
Lemma lk_Post_Dec o1 o2 : like (Post_Dec o1) (Post_Dec o2). Proof. reflexivity. Qed.
Lemma lk_Brack e1 e2 t1 t2 : like e1 e2 -> like t1 t2 -> like (De_Brack e1 t1) (De_Brack e2 t2).
Proof. intros h1 h2. exact (f_equal2 De_Brack h1 h2). Qed.
Lemma lk_Dot e1 e2 : like e1 e2 -> like (De_Dot e1) (De_Dot e2).
Proof. intros h1. exact (f_equal De_Dot h1). Qed.
Lemma lk_Arguments (e1 e2 : list eli) t1 t2 : like e1 e2 -> like t1 t2 -> like (Arguments_ e1 t1) (Arguments_ e2 t2).
Proof. intros h1 h2. exact (f_equal2 Arguments_ h1 h2). Qed.
Lemma lk_Su_Deref e1 e2 : like e1 e2 -> like (Su_Deref e1) (Su_Deref e2).
Proof. intros h1. exact (f_equal Su_Deref h1). Qed.
Lemma lk_Su_Args e1 e2 : like e1 e2 -> like (Su_Arguments e1) (Su_Arguments e2).
Proof. intros h1. exact (f_equal Su_Arguments h1). Qed.
Lemma lk_infix l1 l2 n d b : like (token_infix (Token l1 n d) b) (token_infix (Token l2 n d) b).
Proof.
  unfold token_infix, to_binop, to_logop, mk_op. cbn [tk_value].
  destruct (td_binop d b); [reflexivity|]. destruct (td_logop d); reflexivity.
Qed.
Lemma lk_assop l1 l2 n d : like (to_assop (Token l1 n d)) (to_assop (Token l2 n d)).
Proof. unfold to_assop, mk_op. cbn [tk_value]. destruct (td_assop d); reflexivity. Qed.
Lemma lk_token_key l1 l2 n d : like (token_prop_key (Token l1 n d)) (token_prop_key (Token l2 n d)).
Proof. destruct d; reflexivity. Qed.
Lemma lk_token_literal l1 l2 n d : like (token_literal (Token l1 n d)) (token_literal (Token l2 n d)).
Proof. destruct d as [r| | | | | ]; try reflexivity. destruct r; reflexivity. Qed.
Lemma lk_init_opt p1 p2 : like p1 p2 -> like (dtor_from_init_opt p1 None) (dtor_from_init_opt p2 None).
Proof. intros h. destruct p1, p2; try discriminate h; unfold dtor_from_init_opt; [apply like_inl|apply like_inr]; lk1. Qed.
Lemma lk_init p1 p2 e1 e2 : like p1 p2 -> like e1 e2 -> like (dtor_from_init p1 e1) (dtor_from_init p2 e2).
Proof. intros h h'. destruct p1, p2; try discriminate h; unfold dtor_from_init; lk1. Qed.
Lemma lk_perform b c1 c2 : like c1 c2 -> like (perform_all b c1) (perform_all b c2).
Proof.
  intros h. change (option_map error_blank (perform_all b c1) = option_map error_blank (perform_all b c2)).
  change (map check_blank c1 = map check_blank c2) in h. rewrite !bl_perform. congruence.
Qed.
Lemma lk_pa_list p1 p2 : like p1 p2 -> like (pa_list p1) (pa_list p2).
Proof. intros h. exact (f_equal pa_list h). Qed.
Lemma lk_mod_items l1 l2 : like l1 l2 -> like (map item_into_mod_item l1) (map item_into_mod_item l2).
Proof. intros h. lk1. Qed.
Lemma lk_locs (l1 l2 : list expr) : like l1 l2 -> like (map expr_loc l1) (map expr_loc l2).
Proof.
  unfold like, blank, b_list. revert l2. induction l1 as [|e1 l1 IH]; intros [|e2 l2]; cbn [map]; try discriminate;
    [reflexivity|]. intros h. injection h as h1 h2. f_equal; [|apply IH; exact h2].
  change (loc_blank (expr_loc e1) = loc_blank (expr_loc e2)). rewrite !bl_expr_loc.
  change (expr_blank e1 = expr_blank e2) in h1. congruence.
Qed.
Lemma lk_dir_set d1 d2 l1 l2 : like d1 d2 -> like l1 l2 ->
  like (Dir l1 (dir_string d1) (dir_semi d1)) (Dir l2 (dir_string d2) (dir_semi d2)).
Proof.
  intros h1 h2. assert (e1 := f_equal dir_string h1). assert (e2 := f_equal dir_semi h1).
  assert (e3 : loc_blank l1 = loc_blank l2) by exact h2. cbn in e1, e2. unfold like, blank, b_dir. rewrite !bl_Dir. congruence.
Qed.
#[export] Hint Resolve lk_dir_set lk_extend lk_finish lk_deref lk_suffix lk_args_new lk_Pre_Unop lk_Pre_Inc lk_Pre_Dec
  lk_Post_Inc lk_Post_Dec lk_Brack lk_Dot lk_Arguments lk_Su_Deref lk_Su_Args lk_infix lk_assop lk_token_key
  lk_token_literal lk_init_opt lk_init lk_perform lk_pa_list lk_mod_items lk_locs : lk.
#[export] Hint Extern 6 (like _ _) => reflexivity : lk.
#[export] Hint Extern 8 (like _ _) => lk1 : lk.
Ltac lk := solve [eauto 8 with lk].

Lemma pk_like l1 n1 l2 n2 : like (PK_Id l1 n1) (PK_Id l2 n2) -> like l1 l2 /\ n1 = n2.
Proof. intros h. unfold like, blank, b_prop_key in h. rewrite !bl_PK_Id in h. injection h as h ->. split; [exact h|reflexivity]. Qed.

Lemma id_like (i1 i2 : id) : like i1 i2 -> id_name i1 = id_name i2.
Proof. intros h. exact (f_equal id_name h). Qed.

(** Take the agreement of two values apart. *)
Ltac prep H :=
  lazymatch type of H with
  | @like unit _ ?a ?b => change (a = b) in H; subst b
  | @like bool _ ?a ?b => change (a = b) in H; subst b
  | @like context _ ?a ?b => change (a = b) in H; subst b
  | @like goal _ ?a ?b => change (a = b) in H; subst b
  | @like name _ ?a ?b => change (a = b) in H; subst b
  | @like unop_tag _ ?a ?b => change (a = b) in H; subst b
  | @like token _ ?a ?b =>
      let h1 := fresh in let h2 := fresh in
      destruct a as [? ? ?], b as [? ? ?]; apply token_like in H as [h1 h2]; subst
  | @like (option _) _ ?a ?b =>
      destruct a, b; try discriminate H; [apply some_like in H; prep H|clear H]
  | @like (prod _ _) _ ?a ?b =>
      let h1 := fresh in let h2 := fresh in
      destruct a, b; apply pair_like in H as [h1 h2]; prep h1; prep h2
  | @like (sum _ _) _ ?a ?b =>
      destruct a, b; try discriminate H; [apply inl_like in H; prep H|apply inr_like in H; prep H]
  | _ => idtac
  end.
