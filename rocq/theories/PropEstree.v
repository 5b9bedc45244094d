(** The ESTree conversion (C49 to C53) and what it does not do (C63, C64). *)
From Coq Require Import String Ascii List NArith ZArith Bool.
From Verif Require Import Base F64 Word Token Punc Ast Track Node SpecTree Unjson Estree SpecEstree SpecBlame
  EstreeProofs EstreeConv EstreeComp EstreeImg EstreeMake EstreeSafe EstreeExtra.
Import ListNotations.
Local Open Scope string_scope.
Local Open Scope list_scope.
Local Open Scope nat_scope.
Local Arguments lit _ : simpl never.

(** Documents for the examples. *)
Definition ob (l : list (string * json)) : json := J_Object (map (fun p => (lit (fst p), snd p)) l).
Definition st (s : string) : json := J_String (lit s).
Definition ident (s : string) : json := ob [("type", st "Identifier"); ("name", st s)].
Definition prog (l : list json) : object := [(lit "type", st "Program"); (lit "body", J_Array l)].
Definition stmt_of (e : json) : json := ob [("type", st "ExpressionStatement"); ("expression", e)].
Definition lit_of (v : json) : json := ob [("type", st "Literal"); ("value", v)].
(** ["use strict"; x = y + 1; function f(a, ...b) { return; }] *)
Definition doc_items (extra : list (string * json)) : list json :=
  [ stmt_of (lit_of (st "use strict"));
    stmt_of (ob (extra ++ [("type", st "AssignmentExpression"); ("operator", st "="); ("left", ident "x");
             ("right", ob [("type", st "BinaryExpression"); ("operator", st "+"); ("left", ident "y");
                           ("right", lit_of (J_I64 1))])]));
    ob (extra ++ [("type", st "FunctionDeclaration"); ("id", ident "f");
        ("params", J_Array [ident "a"; ob [("type", st "RestElement"); ("argument", ident "b")]]);
        ("generator", J_Bool false);
        ("body", ob [("type", st "BlockStatement");
                     ("body", J_Array [ob [("type", st "ReturnStatement"); ("argument", J_Null)]])])]) ].
Definition doc : object := prog (doc_items []).
Definition idn (s : string) : id := Id None (name_from (lit s)).
Definition doc_tree : script :=
  Body None [Dir None (StringLiteral None (lit "use strict")) (Explicit None)]
    [ I_Stmt (S_Expr None (E_Assign None (Simple (AT_Id (idn "x")))
        (E_Binop None (Op None Bi_Plus) (E_Id (idn "y")) (E_Number None (integer_literal 1)))) (Explicit None));
      I_Decl (D_Fun (Fun None (idn "f")
        (Params None [Simple (idn "a")] (Some (RestPatt None (Simple (idn "b")))))
        (Body None [] [I_Stmt (S_Return None None (Explicit None))]) false)) ].

(** *** C49 *)

(** The conversion inverts the ESTree encoding, and every tree the encoding can express
    has one: so encoding and converting yields the tree. *)
Theorem C49_conversion_inverts_encoding : forall s,
  (forall o, encodes o s -> into_script o = Ok s)
  /\ (expressible (N_body s) -> plain_assignments (N_body s) ->
      exists o, machine o /\ encodes o s /\ into_script o = Ok s).
Proof.
  intros s. assert (A : forall o, encodes o s -> into_script o = Ok s)
    by (intros o [_ H]; apply into_script_iff, est_mono, H).
  split; [exact A|]. intros E P. destruct (has_encoding s E P) as (o & M & H). exists o. auto.
Qed.
Print Assumptions C49_conversion_inverts_encoding.

(** Which documents it takes, and for what. *)
Theorem C49_accepts_exactly : forall o s, into_script o = Ok s <-> taken_for o s.
Proof. exact into_script_iff. Qed.
Print Assumptions C49_accepts_exactly.

(** It returns exactly the trees ESTree can express. *)
Theorem C49_range_exact : forall s,
  (exists o, machine o /\ into_script o = Ok s) <-> expressible (N_body s).
Proof.
  intros s. split.
  - intros (o & M & H). apply into_script_iff in H. exact (image false o _ H M).
  - intros H. destruct (has_accepted s H) as (o & M & X). exists o. split; [exact M|]. now apply into_script_iff.
Qed.
Print Assumptions C49_range_exact.

Example C49_case : into_script doc = Ok doc_tree.
Proof. vm_compute. reflexivity. Qed.
Ltac fld := apply has_lookup; reflexivity.
Example C49_case_encodes : encodes doc doc_tree.
Proof.
  split; [fld|].
  eapply (Es_body _ _ [I_Stmt (S_Expr None (E_String None (StringLiteral None (lit "use strict"))) semicolon); _; _]).
  - eapply EList; [fld|]. constructor; [|constructor; [|constructor; [|constructor]]].
    + apply Es_stmt_item, Es_expr; [fld|]. eapply EAt; [fld|]. apply Es_literal; [fld|]. apply EV_string. fld.
    + apply Es_stmt_item, Es_expr; [fld|]. eapply EAt; [fld|].
      eapply (Es_assign _ _ (E_Id (idn "x")) _ (Simple (AT_Id (idn "x")))); try fld.
      * eapply EAt; [fld|]. apply Es_id. constructor; fld.
      * eapply EAt; [fld|]. apply (Es_binary _ _ Bi_Plus); try fld.
        -- eapply EAt; [fld|]. apply Es_id. constructor; fld.
        -- eapply EAt; [fld|]. apply Es_literal; [fld|]. apply EV_i64. fld.
      * reflexivity.
      * constructor.
      * intros _. now eexists.
    + apply Es_decl_item. eapply Es_fundecl; [fld| |reflexivity|].
      * eapply EIA; [fld|]. constructor; fld.
      * eapply (Es_fun _ _ _ _ _ _ (J_Bool false)); try fld; try now left.
        -- now intros _.
        -- apply (EPs_rest [_]); [|fld|].
           ++ constructor; [|constructor]. constructor. constructor; fld.
           ++ eapply EIA; [fld|]. constructor; fld.
        -- intros _. fld.
        -- eapply (Es_body _ _ [_]).
           ++ eapply EList; [fld|]. constructor; [|constructor].
              apply Es_stmt_item, (Es_return _ _ None); [fld|]. apply (EOpt_none _ _ "argument"). fld.
           ++ apply (SP _ []); [reflexivity|constructor|]. intros i r X (d & l & E). injection X as <- _. discriminate E.
  - apply (SP _ [I_Stmt (S_Expr None (E_String None (StringLiteral None (lit "use strict"))) semicolon)]); [reflexivity| |].
    + constructor; [|constructor]. now exists None.
    + intros i r X (d & l & E). injection X as <- _. discriminate E.
Qed.
Example C49_case_expressible : expressible (N_body doc_tree).
Proof.
  apply C49_range_exact. exists doc. split; [|exact C49_case].
  assert (B : forall v (b : json -> bool), (forall w, b w = true -> holds_machine_integer w) ->
    (fix all (v : json) : bool := b v && match v with
       | J_Array a => (fix go l := match l with [] => true | x :: l' => all x && go l' end) a
       | J_Object o => (fix go l := match l with [] => true | (_, x) :: l' => all x && go l' end) o
       | _ => true end) v = true -> forall w, inside v w -> holds_machine_integer w).
  { intros v b Hb H w Hw. revert H. induction Hw as [v|a x v Hx Hv IH|o k x v Hx Hv IH]; intros H.
    - apply Hb. destruct v; apply andb_prop in H; apply H.
    - apply IH. apply andb_prop in H as [_ H]. clear - H Hx. induction a as [|y a IHa]; [destruct Hx|].
      apply andb_prop in H as [H1 H2]. destruct Hx as [->|Hx]; auto.
    - apply IH. apply andb_prop in H as [_ H]. clear - H Hx. induction o as [|[k' y] a IHa]; [destruct Hx|].
      apply andb_prop in H as [H1 H2]. destruct Hx as [E|Hx]; [|auto]. injection E as -> ->. exact H1. }
  refine (B (J_Object doc) (fun w => match w with J_I64 z => (Z.leb (-2^63) z && Z.ltb z (2^63))%bool | J_U64 n => N.ltb n (2^64) | _ => true end) _ _).
  - intros [] H; cbn in *; auto.
    + apply andb_prop in H as [H1 H2]. apply Z.leb_le in H1. apply Z.ltb_lt in H2. now split.
    + now apply N.ltb_lt in H.
  - vm_compute. reflexivity.
Qed.

(** *** C50 *)

(** Conversion always ends, in a tree or an error, never in a panic; a tree has no
    location at any node. *)
Theorem C50_conversion_total_and_untracked : forall o, machine o ->
  (exists s, into_script o = Ok s /\ forall m, within (N_body s) m -> node_loc m = None)
  \/ (exists e, into_script o = Err e).
Proof.
  intros o M. pose proof (into_script_safe o) as S. destruct (into_script o) as [s|e| |] eqn:E; try contradiction.
  - left. exists s. split; [reflexivity|]. apply into_script_iff in E. intros m Hm.
    exact (proj1 (image false o _ E M m Hm)).
  - right. now exists e.
Qed.
Print Assumptions C50_conversion_total_and_untracked.
Theorem C50_never_panics : forall o k, into_script o <> Panic k /\ into_script o <> NoFuel.
Proof. intros o k. pose proof (into_script_safe o) as S. split; intros E; rewrite E in S; exact S. Qed.
Print Assumptions C50_never_panics.
(** A declaration where a statement is expected is an error, not the unreachable arm. *)
Example C50_case : into_script (prog [ob [("type", st "WhileStatement"); ("test", ident "a");
    ("body", ob [("type", st "FunctionDeclaration")])]])
  = Err (EE_NodeTypeMismatch (lit "statement") Tg_FunctionDeclaration).
Proof. vm_compute. reflexivity. Qed.

(** *** C51 *)

(** The items of a script or function body are split after its directives. *)
Theorem C51_prologue_split : forall (A : Type) (v : list A) p a b, split_prefix v p = (a, b) <->
  v = a ++ b /\ (forall x, In x a -> p x = true) /\ (forall x r, b = x :: r -> p x = false).
Proof. intros. apply split_prefix_spec. Qed.
Print Assumptions C51_prologue_split.
Theorem C51_directives_exact : forall o s, into_script o = Ok s ->
  exists items, est_list false o "body" (map N_item items) /\ splits items (bo_dirs s) (bo_items s).
Proof. intros o s H. apply into_script_iff in H. inversion H; subst. eauto. Qed.
Print Assumptions C51_directives_exact.
(** The split is unique, keeps every item, and puts all leading string statements and
    nothing else among the directives. *)
Theorem C51_split_unique : forall l, exists ds is, splits l ds is
  /\ (forall ds' is', splits l ds' is' -> ds' = ds /\ is' = is)
  /\ length ds + length is = length l.
Proof.
  intros l. destruct (split_prefix l item_is_directive) as [a b] eqn:E.
  assert (S : splits l (filter_map item_to_directive a) b) by (apply splits_iff; rewrite E; now split).
  exists (filter_map item_to_directive a), b. split; [exact S|]. split.
  - intros ds' is' H. apply splits_iff in H. rewrite E in H. destruct H. now subst.
  - inversion S as [f i d El F N]. rewrite El. rewrite app_length. f_equal. clear - F. induction F; cbn; congruence.
Qed.
Print Assumptions C51_split_unique.
(** Three items, of which the first is a directive; a string after another statement is
    not. *)
Example C51_case : exists s, into_script (prog [stmt_of (lit_of (st "use strict")); stmt_of (ident "a");
    stmt_of (lit_of (st "b"))]) = Ok s /\ length (bo_dirs s) = 1 /\ length (bo_items s) = 2.
Proof. eexists. split; [vm_compute; reflexivity|split; reflexivity]. Qed.

(** *** C52 *)

(** [o'] is [o] without the field [k]. *)
Definition removed (o : object) (k : str) (o' : object) : Prop :=
  (forall v, ~ field o' k v) /\ forall k' v, k' <> k -> field o' k' v <-> field o k' v.
(** Extraction at a type: what values it takes for what, and what it wants otherwise. *)
Definition extracts {A} (m : str -> M object json_error A) (reads : json -> A -> Prop) (wanted : string) : Prop :=
  forall o k,
    (forall v a, field o k v -> reads v a -> exists o', m k o = Ok (a, o') /\ removed o k o')
    /\ (forall v, field o k v -> (forall a, ~ reads v a) -> exists e, m k o = Err e /\ mismatch wanted v e)
    /\ ((forall v, ~ field o k v) -> m k o = Err (MissingField k)).
(** Looking a field up at a type leaves the object alone. *)
Definition gets {A} (f : object -> str -> jres A) (reads : json -> A -> Prop) (wanted : string) : Prop :=
  forall o k,
    (forall v a, field o k v -> reads v a -> f o k = Ok a)
    /\ (forall v, field o k v -> (forall a, ~ reads v a) -> exists e, f o k = Err e /\ mismatch wanted v e)
    /\ ((forall v, ~ field o k v) -> f o k = Err (MissingField k)).
Definition nullable {A} (reads : json -> A -> Prop) (v : json) (r : option A) : Prop :=
  match r with Some a => reads v a | None => v = J_Null end.
Definition as_is {A} (c : A -> json) (v : json) (a : A) : Prop := v = c a.
(** A number of any representation, as a double. *)
Definition a_number (v : json) (f : f64) : Prop :=
  (exists z, v = J_I64 z /\ f = f64_of_Z z) \/ (exists n, v = J_U64 n /\ f = f64_of_N n) \/ v = J_F64 f.

Lemma removed_without o k : removed o k (without k o).
Proof.
  split.
  - intros v H. apply field_lookup in H. rewrite lookup_without_eq in H. discriminate H.
  - intros k' v N. rewrite !field_lookup, lookup_without; [reflexivity|]. now apply str_eqb_ne.
Qed.
Definition converts {A} (f : json -> jres A) (reads : json -> A -> Prop) (wanted : string) : Prop := forall v,
  (forall a, reads v a -> f v = Ok a)
  /\ ((forall a, ~ reads v a) -> exists e, f v = Err e /\ mismatch wanted v e).
Lemma lookup_none o k : (forall v, ~ field o k v) -> lookup k o = None.
Proof. intros H. destruct (lookup k o) as [v|] eqn:L; [|reflexivity]. apply field_lookup in L. now apply H in L. Qed.
Lemma extracts_as {A} (f : json -> jres A) reads w : converts f reads w -> extracts (extract_as f) reads w.
Proof.
  intros H o k. unfold extract_as, bind, extract_field. repeat split.
  - intros v a Hv Ha. apply field_lookup in Hv. rewrite Hv. unfold lift. rewrite (proj1 (H v) a Ha).
    eexists. split; [reflexivity|]. apply removed_without.
  - intros v Hv Ha. apply field_lookup in Hv. rewrite Hv. unfold lift. destruct (proj2 (H v) Ha) as (t & -> & Ht). now exists t.
  - intros Hv. now rewrite (lookup_none _ _ Hv).
Qed.
Lemma gets_as {A} (f : json -> jres A) reads w : converts f reads w -> gets (get_as f) reads w.
Proof.
  intros H o k. unfold get_as, get_field. repeat split.
  - intros v a Hv Ha. apply field_lookup in Hv. rewrite Hv. exact (proj1 (H v) a Ha).
  - intros v Hv Ha. apply field_lookup in Hv. rewrite Hv. exact (proj2 (H v) Ha).
  - intros Hv. now rewrite (lookup_none _ _ Hv).
Qed.
Ltac conv_ := intros v; split;
  [ intros a H; unfold nullable, as_is, a_number in H;
    repeat match goal with
      | H : _ \/ _ |- _ => destruct H as [H|H]
      | H : exists _, _ |- _ => destruct H as [? H]
      | H : _ /\ _ |- _ => destruct H as [? H]
      | a : option _ |- _ => destruct a
      end; subst; reflexivity
  | intros H; destruct v; try (eexists; split; [reflexivity|do 2 eexists; repeat split; constructor]); exfalso; unfold nullable, as_is, a_number in H;
    first [ eapply (H None); reflexivity | eapply (H (Some _)); reflexivity | eapply H; reflexivity
          | eapply (H (Some _)); left; eexists; split; reflexivity
          | eapply (H (Some _)); right; left; eexists; split; reflexivity
          | eapply (H (Some _)); right; right; reflexivity
          | eapply H; left; eexists; split; reflexivity
          | eapply H; right; left; eexists; split; reflexivity
          | eapply H; right; right; reflexivity ] ].

(** Extraction returns the field's value and removes that field only, exactly when the
    value has the type; null counts as absent in the optional variants. *)
Theorem C52_field_extraction_exact :
  extracts extract_field (fun v a => v = a) "value"
  /\ extracts extract_string (as_is J_String) "string" /\ extracts extract_string_opt (nullable (as_is J_String)) "string or null"
  /\ extracts extract_array (as_is J_Array) "array" /\ extracts extract_array_opt (nullable (as_is J_Array)) "array or null"
  /\ extracts extract_object (as_is J_Object) "object" /\ extracts extract_object_opt (nullable (as_is J_Object)) "object or null"
  /\ extracts extract_bool (as_is J_Bool) "boolean" /\ extracts extract_bool_opt (nullable (as_is J_Bool)) "boolean"
  /\ extracts extract_i64 (as_is J_I64) "i64" /\ extracts extract_i64_opt (nullable (as_is J_I64)) "i64"
  /\ extracts extract_u64 (as_is J_U64) "u64" /\ extracts extract_u64_opt (nullable (as_is J_U64)) "u64"
  /\ extracts extract_f64 (as_is J_F64) "f64" /\ extracts extract_f64_opt (nullable (as_is J_F64)) "f64"
  /\ extracts extract_number a_number "number" /\ extracts extract_number_opt (nullable a_number) "number".
Proof.
  split.
  - intros o k. unfold extract_field. repeat split.
    + intros v a Hv <-. apply field_lookup in Hv. rewrite Hv. eexists. split; [reflexivity|apply removed_without].
    + intros v Hv Ha. exfalso. exact (Ha v eq_refl).
    + intros Hv. now rewrite (lookup_none _ _ Hv).
  - repeat match goal with |- _ /\ _ => split end; apply extracts_as; conv_.
Qed.
Print Assumptions C52_field_extraction_exact.
(** Reading without removing. *)
Theorem C52_field_reading_exact :
  gets get_field (fun v a => v = a) "value"
  /\ gets get_string (as_is J_String) "string" /\ gets get_string_opt (nullable (as_is J_String)) "string or null"
  /\ gets get_array (as_is J_Array) "array" /\ gets get_array_opt (nullable (as_is J_Array)) "array or null"
  /\ gets get_object (as_is J_Object) "object" /\ gets get_object_opt (nullable (as_is J_Object)) "object or null"
  /\ gets get_bool (as_is J_Bool) "boolean" /\ gets get_bool_opt (nullable (as_is J_Bool)) "boolean or null"
  /\ gets get_i64_opt (nullable (as_is J_I64)) "i64 or null" /\ gets get_u64_opt (nullable (as_is J_U64)) "u64 or null"
  /\ gets get_f64_opt (nullable (as_is J_F64)) "f64 or null"
  /\ gets get_number a_number "number" /\ gets get_number_opt (nullable a_number) "number or null".
Proof.
  split.
  - intros o k. unfold get_field. repeat split.
    + intros v a Hv <-. apply field_lookup in Hv. now rewrite Hv.
    + intros v Hv Ha. exfalso. exact (Ha v eq_refl).
    + intros Hv. now rewrite (lookup_none _ _ Hv).
  - repeat match goal with |- _ /\ _ => split end; apply gets_as; conv_.
Qed.
Print Assumptions C52_field_reading_exact.
Example C52_case : field doc (lit "type") (st "Program") /\
  extract_string (lit "type") doc = Ok (lit "Program", [(lit "body", J_Array (doc_items []))]).
Proof. split; [apply field_lookup; reflexivity|vm_compute; reflexivity]. Qed.

(** *** C53 *)
Theorem C53_tags_round_trip : forall s t, tag_from_str s = Some t <-> tag_text t = s.
Proof. exact tag_text_iff. Qed.
Print Assumptions C53_tags_round_trip.
(** The texts that name a tag are those of the node types. *)
Theorem C53_tags_are_the_node_types : forall s,
  (exists t, tag_from_str s = Some t) <-> (exists n, In n node_types /\ s = lit n).
Proof.
  intros s. split.
  - intros (t & H). apply tag_text_iff in H as <-. destruct (tag_text_in t) as (n & Hn & ->). now exists n.
  - intros (n & Hn & ->). destruct (node_type_tag n Hn) as (t & Ht). exists t. now apply tag_text_iff.
Qed.
Print Assumptions C53_tags_are_the_node_types.
Example C53_case : tag_from_str (lit "ForOfStatement") = Some Tg_ForOfStatement /\ tag_from_str (lit "Foo") = None.
Proof. split; vm_compute; reflexivity. Qed.

(** *** C65 *)

(** Fields that are not ESTree's, such as [loc], [range] or [raw], change nothing,
    anywhere in the document. *)
Theorem C65_other_fields_ignored : forall o p, same_json (J_Object o) (J_Object p) ->
  forall s, into_script o = Ok s <-> into_script p = Ok s.
Proof. exact into_script_same. Qed.
Print Assumptions C65_other_fields_ignored.
Lemma same_extra a l : ~ In (fst a) est_fields -> same_json (ob l) (ob (a :: l)).
Proof.
  intros N. destruct a as [k0 v0]. cbn in N. apply SJ_object.
  - intros k v Hk H. exists v. split; [|constructor]. apply has_lookup in H. apply has_lookup. cbn.
    rewrite str_eqb_ne; [exact H|]. intros E. apply lit_inj in E. now subst.
  - intros k v Hk H. exists v. apply has_lookup in H. apply has_lookup. cbn in H.
    rewrite str_eqb_ne in H; [exact H|]. intros E. apply lit_inj in E. now subst.
Qed.
Definition here : list (string * json) := [("loc"%string, ob [("line", J_U64 1)])].
Example C65_case : same_json (J_Object doc) (J_Object (prog (doc_items here)))
  /\ into_script (prog (doc_items here)) = Ok doc_tree.
Proof.
  split; [|vm_compute; reflexivity].
  assert (L : ~ In "loc"%string est_fields) by (intros H; repeat (destruct H as [H|H]; [discriminate H|]); destruct H).
  apply SJ_object.
  - intros k v Hk H. apply has_lookup in H. cbn in H. destruct (str_eqb (lit k) (lit "type")) eqn:E1.
    + injection H as <-. exists (st "Program"). split; [|constructor]. apply has_lookup. cbn. now rewrite E1.
    + destruct (str_eqb (lit k) (lit "body")) eqn:E2; [|discriminate H]. injection H as <-.
      exists (J_Array (doc_items here)). split; [apply has_lookup; cbn; now rewrite E1, E2|].
      constructor. constructor; [constructor|]. constructor; [|constructor; [|constructor]].
      * apply SJ_object.
        { intros k' w Hk' H. apply has_lookup in H. cbn in H. destruct (str_eqb (lit k') (lit "type")) eqn:E3.
          - injection H as <-. eexists. split; [apply has_lookup; cbn; now rewrite E3|constructor].
          - destruct (str_eqb (lit k') (lit "expression")) eqn:E4; [|discriminate H]. injection H as <-.
            eexists. split; [apply has_lookup; cbn; now rewrite E3, E4|]. now apply same_extra. }
        { intros k' w Hk' H. apply has_lookup in H. cbn in H. destruct (str_eqb (lit k') (lit "type")) eqn:E3.
          - eexists. apply has_lookup; cbn; now rewrite E3.
          - destruct (str_eqb (lit k') (lit "expression")) eqn:E4; [|discriminate H].
            eexists. apply has_lookup; cbn; now rewrite E3, E4. }
      * now apply same_extra.
  - intros k w Hk H. apply has_lookup in H. cbn in H. destruct (str_eqb (lit k) (lit "type")) eqn:E1.
    + eexists. apply has_lookup. cbn. now rewrite E1.
    + destruct (str_eqb (lit k) (lit "body")) eqn:E2; [|discriminate H].
      eexists. apply has_lookup. cbn. now rewrite E1, E2.
Qed.

(** *** C63, C64: refuted *)

(** ESTree writes the left side of a destructuring assignment as an array pattern or an
    object pattern.  The conversion rejects both. *)
Definition destructuring (left : json) : object :=
  prog [stmt_of (ob [("type", st "AssignmentExpression"); ("operator", st "="); ("left", left);
                     ("right", ident "b")])].
Definition array_pattern : json := ob [("type", st "ArrayPattern"); ("elements", J_Array [ident "a"])].
Definition object_pattern : json := ob [("type", st "ObjectPattern"); ("properties", J_Array [])].
Theorem C63_destructuring_refuted :
  into_script (destructuring array_pattern) = Err (EE_InvalidTypeTag (lit "ArrayPattern"))
  /\ into_script (destructuring object_pattern) = Err (EE_InvalidTypeTag (lit "ObjectPattern")).
Proof. split; vm_compute; reflexivity. Qed.
Print Assumptions C63_destructuring_refuted.

(** [({ [x]: 1 })] and [({ x: 1 })] differ in the field [computed] and are converted to
    the same tree, that of the second. *)
Definition object_with (computed : bool) : object :=
  prog [stmt_of (ob [("type", st "ObjectExpression");
    ("properties", J_Array [ob [("type", st "Property"); ("kind", st "init"); ("method", J_Bool false);
       ("shorthand", J_Bool false); ("computed", J_Bool computed); ("key", ident "x");
       ("value", lit_of (J_U64 1))]])])].
Definition object_tree : script := Body None []
  [I_Stmt (S_Expr None (E_Obj None [Pr_Regular None (PK_Id None (lit "x"))
     (PV_Init (E_Number None (integer_literal 1)))]) (Explicit None))].
Theorem C64_computed_keys_refuted :
  into_script (object_with true) = Ok object_tree /\ into_script (object_with false) = Ok object_tree
  /\ ~ encodes (object_with true) object_tree.
Proof.
  split; [vm_compute; reflexivity|]. split; [vm_compute; reflexivity|]. intros [_ H].
  inversion H; subst. clear H.
  Ltac at1 := match goal with
    | A : splits _ _ _ |- _ => inversion A; subst; clear A
    | A : Forall2 directive_item [] _ |- _ => inversion A; subst; clear A
    | A : est_list _ _ _ _ |- _ => inversion A; subst; clear A
    | A : est_at _ _ _ _ |- _ => inversion A; subst; clear A
    | A : has _ _ (J_Array _) |- _ => apply has_lookup in A; vm_compute in A; first [discriminate A | injection A as <- | clear A]
    | A : has _ _ (J_Object _) |- _ => apply has_lookup in A; vm_compute in A; first [discriminate A | injection A as <- | clear A]
    | A : est_elems _ _ _ |- _ => inversion A; subst; clear A
    | A : est _ _ (N_item _) |- _ => inversion A; subst; clear A
    | A : est _ _ (N_stmt _) |- _ => inversion A; subst; clear A
    | A : est _ _ (N_prop _) |- _ => inversion A; subst; clear A
    | A : est _ _ (N_expr (E_Obj _ _)) |- _ => inversion A; subst; clear A
    | A : est_value _ (E_Obj _ _) |- _ => inversion A
    end.
  repeat at1.
  all: match goal with A : also true (has _ "computed" _) |- _ =>
         specialize (A eq_refl); apply has_lookup in A; vm_compute in A; discriminate A end.
Qed.
Print Assumptions C64_computed_keys_refuted.
