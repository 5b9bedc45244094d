(** The derive macros [TrackingRef], [TrackingMut] and [Untrack] (C74), and what they generate
    for the types of syntax trees (C75). *)
From Coq Require Import String Ascii List NArith Bool.
From Verif Require Import Base Word Token Punc Ast Track Node SpecTree Derive Easter SpecDerive
  DeriveProofs EasterProofs EasterInj.
Import ListNotations.
Local Open Scope string_scope.
Local Open Scope list_scope.
Local Open Scope nat_scope.

(** ** C74 *)

(** C74: the generated [untrack] calls [untrack] on every field of the value, each one once,
    and changes nothing else: it succeeds with [v'] exactly if [v'] is built like [v] and its
    fields are what [untrack] makes of those of [v]. *)
Theorem C74_untrack_every_field : forall d path vd v untrack v',
  declarable d -> In (path, vd) (variants d) -> built path vd v ->
  (run_untrack untrack (im_arms (expand_untrack d)) v = Some v'
   <-> fieldwise (fun a b => untrack a = Some b) v v').
Proof. intros d path vd v call v' Hd Hin Hb. exact (run_untrack_iff d path vd v call v' Hd Hin Hb). Qed.
Print Assumptions C74_untrack_every_field.

(** The implementation is for the declared type, under its own parameters and bounds and one
    more bound for each. *)
Theorem C74_untrack_bounds : forall d,
  im_trait (expand_untrack d) = "Untrack" /\ im_type (expand_untrack d) = mi_ident d
  /\ map fst (im_params (expand_untrack d)) = map fst (mi_params d)
  /\ forall x bs, In (x, bs) (im_params (expand_untrack d)) ->
       exists bs0, In (x, bs0) (mi_params d) /\ bs = bs0 ++ ["Untrack"].
Proof.
  intros d. split; [reflexivity|]. split; [reflexivity|]. cbn [expand_untrack im_params]. split.
  - rewrite map_map. reflexivity.
  - intros x bs H. apply in_map_iff in H. destruct H as ([y cs] & E & H). cbn in E. injection E as -> <-.
    exists cs. split; [exact H|reflexivity].
Qed.
Print Assumptions C74_untrack_bounds.

(** C74: the other two macros accept a declaration exactly if each struct has a field
    [location: Option<Span>] and each tuple a field, and otherwise stop the compiler ... *)
Theorem C74_tracking_accepts : forall d m,
  (exists i, expand_tracking d m = inl i) <-> forall p vd, In (p, vd) (variants d) -> trackable vd.
Proof. exact expand_tracking_iff. Qed.
Print Assumptions C74_tracking_accepts.

(** ... and the method generated for a declaration they accept returns a reference to the field
    [location], to the first field of a tuple if that is an [Option<Span>], and to what the
    method returns for the first field if not. *)
Theorem C74_tracking_place : forall d m i path vd v method p,
  declarable d -> expand_tracking d m = inl i -> In (path, vd) (variants d) -> built path vd v ->
  (run_tracking m method (im_arms i) v = Some p <-> tracked_place vd v method p).
Proof. intros d m i path vd v call p. exact (run_tracking_iff d m i path vd v call p). Qed.
Print Assumptions C74_tracking_place.

(** A declaration
[[ enum Shape<T> { Dot { at: T, location: Option<Span> }, Line(Option<Span>, T, T), Same(T, bool) } ]] *)
Definition shape : macro_input :=
  MacroInput "Shape" [("T", ["Clone"])]
    (B_Enum [("Dot", Vd_Struct [("at", Ty "T"); ("location", location_type)]);
             ("Line", Vd_Tuple [location_type; Ty "T"; Ty "T"]);
             ("Same", Vd_Tuple [Ty "T"; Ty "bool"])]).
Definition somewhere : loc := Some (Span origin (Posn 1 0 1)).
Definition line : val :=
  V_Tuple ["Shape"; "Line"] [V_Loc somewhere; V_Loc somewhere; V_Data (Da_Bool true)].
Example C74_example :
  declarable shape /\ In (["Shape"; "Line"], Vd_Tuple [location_type; Ty "T"; Ty "T"]) (variants shape)
  /\ built ["Shape"; "Line"] (Vd_Tuple [location_type; Ty "T"; Ty "T"]) line
  /\ run_untrack (untrack_val [] 1) (im_arms (expand_untrack shape)) line
     = Some (V_Tuple ["Shape"; "Line"] [V_Loc None; V_Loc None; V_Data (Da_Bool true)])
  /\ im_params (expand_untrack shape) = [("T", ["Clone"; "Untrack"])]
  /\ (forall m, exists i, expand_tracking shape m = inl i
        /\ run_tracking m (fun _ => Some []) (im_arms i) line = Some [0]
        /\ run_tracking m (fun _ => Some [3]) (im_arms i)
             (V_Tuple ["Shape"; "Same"] [V_Loc None; V_Data (Da_Bool true)]) = Some [0; 3]
        /\ run_tracking m (fun _ => None) (im_arms i)
             (V_Struct ["Shape"; "Dot"] [("at", V_None); ("location", V_Loc None)]) = Some [1]).
Proof.
  split; [apply declarableb_ok; vm_compute; reflexivity|]. split; [right; left; reflexivity|].
  split; [split; reflexivity|]. split; [vm_compute; reflexivity|]. split; [reflexivity|].
  intros []; eexists; (split; [reflexivity|]); vm_compute; auto.
Qed.
Example C74_example_refused : forall m,
  (exists e, expand_tracking (MacroInput "Semi" [] (B_Enum [("Inserted", Vd_Unit)])) m = inr e)
  /\ (exists e, expand_tracking (MacroInput "P" [] (B_Struct (Vd_Struct [("location", Ty "Span")]))) m = inr e)
  /\ (exists e, expand_tracking (MacroInput "P" [] (B_Struct (Vd_Tuple []))) m = inr e).
Proof. intros m. repeat split; eexists; reflexivity. Qed.

(** ** C75 *)

(** The trees of this model are values of the types declared in easter, and different trees
    different values. *)
Theorem C75_trees_are_values : forall n, typed easter (node_type n) (node_val n).
Proof. intros n. exact (proj1 (node_typed n)). Qed.
Print Assumptions C75_trees_are_values.

Theorem C75_values_differ : forall n n',
  node_type n = node_type n' -> node_val n = node_val n' -> n = n'.
Proof.
  intros n n' Ht Hv. pose proof (node_inj n) as H.
  destruct n, n'; try discriminate Ht; cbn [INJ node_val] in H, Hv; apply H in Hv; congruence.
Qed.
Print Assumptions C75_values_differ.

(** The macros accept the declarations they are used on. *)
Theorem C75_declarations_accepted : forall d m,
  In d easter -> derives d (tracking_trait m) = true -> exists i, expand_tracking (td_input d) m = inl i.
Proof. intros d m. exact (easter_expands d m). Qed.
Print Assumptions C75_declarations_accepted.

(** [untrack], as generated for these declarations and written by hand for the others, makes of
    a tree what [node_untrack] makes of it (C45). *)
Theorem C75_untrack : forall n, untracks easter (node_val n) (node_val (node_untrack n)).
Proof. intros n. exact (proj1 (node_untracks n)). Qed.
Print Assumptions C75_untrack.

(** [tracking_ref] and [tracking_mut] return a reference through which the location of the tree
    is read, and writing through it makes of the tree what [node_set_loc] makes of it (C46). *)
Theorem C75_tracking : forall m n, exists p,
  tracks easter m (node_val n) p
  /\ read_place p (node_val n) = Some (V_Loc (node_loc n))
  /\ forall l, write_place p (V_Loc l) (node_val n) = Some (node_val (node_set_loc n l)).
Proof. exact node_tracks. Qed.
Print Assumptions C75_tracking.

Definition this_semi : node := N_item (I_Stmt (S_Expr somewhere (E_This somewhere) (Explicit (Some origin)))).
Example C75_example :
  node_val this_semi =
    V_Tuple ["StmtListItem"; "Stmt"]
      [V_Tuple ["Stmt"; "Expr"]
         [V_Loc somewhere; V_Tuple ["Expr"; "This"] [V_Loc somewhere]; V_Data (Da_Semi (Explicit (Some origin)))]]
  /\ untrack_val easter 9 (node_val this_semi) = Some
       (V_Tuple ["StmtListItem"; "Stmt"]
         [V_Tuple ["Stmt"; "Expr"] [V_Loc None; V_Tuple ["Expr"; "This"] [V_Loc None]; V_Data (Da_Semi (Explicit None))]])
  /\ tracking_val easter Mutable 9 (node_val this_semi) = Some [0; 0].
Proof. split; [reflexivity|]. split; vm_compute; reflexivity. Qed.
