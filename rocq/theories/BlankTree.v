(** Erasing positions and then locations is erasing locations (C85). *)
From Coq Require Import String Ascii List NArith Arith Bool Lia.
From Verif Require Import Base Chars Word Token Punc Ast Track Cover Stack Node SpecTree SpecBlank NodeProofs TreeProofs.
Import ListNotations.

(** [SpecBlank] for nodes. *)
Definition node_blank (n : node) : node :=
  match n with
  | N_expr e => N_expr (expr_blank e)
  | N_eli e => N_eli (eli_blank e)
  | N_prop p => N_prop (prop_blank p)
  | N_pval v => N_pval (prop_val_blank v)
  | N_target t => N_target (target_blank t)
  | N_stmt s => N_stmt (stmt_blank s)
  | N_block b => N_block (block_blank b)
  | N_fh h => N_fh (for_head_blank h)
  | N_fi h => N_fi (for_in_head_blank h)
  | N_fo h => N_fo (for_of_head_blank h)
  | N_catch c => N_catch (catch_blank c)
  | N_case c => N_case (case_blank c)
  | N_item i => N_item (item_blank i)
  | N_decl d => N_decl (decl_blank d)
  | N_dtor d => N_dtor (dtor_blank d)
  | N_cdtor d => N_cdtor (const_dtor_blank d)
  | N_fexpr f => N_fexpr (func_blank (option_map id_blank) (body_blank item_blank) f)
  | N_fmeth f => N_fmeth (func_blank prop_key_blank (body_blank item_blank) f)
  | N_fdecl f => N_fdecl (func_blank id_blank (body_blank item_blank) f)
  | N_body b => N_body (body_blank item_blank b)
  | N_tpatt p => N_tpatt (patt_blank target_blank p)
  | N_trest r => N_trest (rest_blank (patt_blank target_blank) r)
  | N_tpp p => N_tpp (prop_patt_blank (patt_blank target_blank) p)
  | N_ipatt p => N_ipatt (patt_blank id_blank p)
  | N_irest r => N_irest (rest_blank (patt_blank id_blank) r)
  | N_ipp p => N_ipp (prop_patt_blank (patt_blank id_blank) p)
  | N_params p => N_params (params_blank p)
  | N_dir d => N_dir (dir_blank d)
  | N_id i => N_id (id_blank i)
  | N_dk k => N_dk (dot_key_blank k)
  | N_pk k => N_pk (prop_key_blank k)
  | N_unop o => N_unop (op_blank o)
  | N_binop o => N_binop (op_blank o)
  | N_logop o => N_logop (op_blank o)
  | N_assop o => N_assop (op_blank o)
  | N_mod m => N_mod (module_blank m)
  | N_mitem i => N_mitem (mod_item_blank i)
  | N_import i => N_import (import_blank i)
  | N_export e => N_export (export_blank e)
  end.
Ltac bshapes :=
  cbn [node_blank expr_blank eli_blank prop_blank prop_val_blank target_blank stmt_blank
       block_blank for_head_blank for_in_head_blank for_of_head_blank catch_blank case_blank
       item_blank decl_blank dtor_blank const_dtor_blank func_blank body_blank patt_blank
       patt_of_blank rest_blank prop_patt_blank params_blank dir_blank id_blank
       dot_key_blank prop_key_blank prop_key_set_loc op_blank module_blank mod_item_blank
       import_blank export_blank cpatt_blank
       shape expr_shape stmt_shape patt_shape pp_shape func_shape
       children expr_children prop_children pval_children target_children stmt_children func_children
       patt_children pp_children
       fn_loc fn_id fn_params fn_body fn_generator bo_loc bo_dirs bo_items rp_loc rp_patt pa_loc pa_list
       pa_rest dir_loc dir_string dir_semi id_loc id_name dk_loc dk_value op_loc op_tag option_map].

Lemma shape_blank n : shape (node_blank n) = shape n.
Proof.
  each_node n; bshapes; rewrite ?each_map, ?opt_map_opt, ?holes_map; try reflexivity.
  destruct args as [args|]; cbn [option_map]; rewrite ?each_map; reflexivity.
Qed.

Lemma of_list_blank {A} (f : A -> node) (u : A -> A) l :
  (forall a, node_blank (f a) = f (u a)) -> of_list f (map u l) = map node_blank (of_list f l).
Proof. intros H. unfold of_list. rewrite !map_map. apply map_ext. intros a. symmetry. apply H. Qed.
Lemma of_opt_blank {A} (f : A -> node) (u : A -> A) o :
  (forall a, node_blank (f a) = f (u a)) -> of_opt f (option_map u o) = map node_blank (of_opt f o).
Proof. intros H. destruct o; cbn [of_opt option_map map]; [rewrite H|]; reflexivity. Qed.
Lemma of_holes_blank {A} (f : A -> node) (u : A -> A) l :
  (forall a, node_blank (f a) = f (u a)) ->
  of_holes f (map (option_map u) l) = map node_blank (of_holes f l).
Proof.
  intros H. unfold of_holes. induction l as [|o l IH]; [reflexivity|].
  cbn [map flat_map]. rewrite map_app, IH, (of_opt_blank f u o H). reflexivity.
Qed.

Ltac bkids :=
  repeat first
    [ rewrite map_app | rewrite map_cons
    | erewrite of_list_blank by (intros; reflexivity)
    | erewrite of_opt_blank by (intros; reflexivity)
    | erewrite of_holes_blank by (intros; reflexivity) ].

Lemma children_blank n : children (node_blank n) = map node_blank (children n).
Proof.
  each_node n; bshapes; bkids; try reflexivity;
    try (unfold func_children, func_blank; bshapes; bkids; reflexivity).
  destruct args as [args|]; cbn [option_map]; bkids; reflexivity.
Qed.


Theorem untrack_blank n : node_untrack (node_blank n) = node_untrack n.
Proof.
  induction n as [n IH] using node_ind'. apply untrack_ext; [apply shape_blank|].
  unfold kids_of. rewrite !children_untrack, children_blank, map_map.
  apply map_ext_in. intros a Ha. apply IH, Ha.
Qed.
Lemma script_untrack_blank a b : script_blank a = script_blank b -> script_untrack a = script_untrack b.
Proof.
  intros E. assert (K : node_untrack (N_body a) = node_untrack (N_body b)).
  { rewrite <- (untrack_blank (N_body a)), <- (untrack_blank (N_body b)). cbn [node_blank]. unfold script_blank in E. rewrite E. reflexivity. }
  cbn [node_untrack] in K. exact (f_equal (fun n => match n with N_body x => x | _ => a end) K).
Qed.
