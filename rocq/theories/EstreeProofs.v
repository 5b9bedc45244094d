(** The ESTree conversion takes exactly the encodings of the specification. *)
From Coq Require Import String Ascii List NArith ZArith Bool Lia.
From Coq Require Import DecimalString.
From Verif Require Import Base F64 Word Token Punc Ast Track Node SpecTree Cover CoverProofs NodeProofs
  LexTheorems PropTree Unjson Estree SpecEstree.
Import ListNotations.
Local Open Scope nat_scope.
Local Arguments ex {A} m _ : simpl never.
Local Arguments lit _ : simpl never.

(** ** Objects as maps *)
Lemma str_eqb_iff' a b : str_eqb a b = true <-> a = b.
Proof.
  revert b. induction a as [|x a IH]; intros [|y b]; cbn; split; intros H; try discriminate; try reflexivity.
  - apply andb_prop in H as [H1 H2]. apply N.eqb_eq in H1. apply IH in H2. congruence.
  - injection H as -> ->. apply andb_true_intro. split; [apply N.eqb_refl|]. now apply IH.
Qed.
Lemma str_eqb_refl' a : str_eqb a a = true.
Proof. now apply str_eqb_iff'. Qed.
Lemma str_eqb_ne a b : a <> b -> str_eqb a b = false.
Proof. intros H. destruct (str_eqb a b) eqn:E; [|reflexivity]. now apply str_eqb_iff' in E. Qed.

Lemma field_lookup o k v : field o k v <-> lookup k o = Some v.
Proof.
  split.
  - intros (b & a & -> & H). induction b as [|[k' v'] b IH]; cbn.
    + now rewrite str_eqb_refl'.
    + cbn in H. rewrite str_eqb_ne by (intros ->; apply H; now left). apply IH. tauto.
  - induction o as [|[k' v'] o IH]; cbn; [discriminate|].
    destruct (str_eqb k k') eqn:E; intros H.
    + apply str_eqb_iff' in E. injection H as ->. subst k'. now exists [], o.
    + destruct (IH H) as (b & a & -> & Hb). exists ((k', v') :: b), a. split; [reflexivity|].
      cbn. intros [->|Hin]; [|tauto]. now rewrite str_eqb_refl' in E.
Qed.
Lemma has_lookup o k v : has o k v <-> lookup (lit k) o = Some v.
Proof. apply field_lookup. Qed.

Lemma lookup_without_eq k o : lookup k (without k o) = None.
Proof.
  induction o as [|[k' v'] o IH]; cbn; [reflexivity|].
  destruct (str_eqb k k') eqn:E; [exact IH|]. cbn. now rewrite E.
Qed.
Lemma lookup_without k k' o : str_eqb k k' = false -> lookup k (without k' o) = lookup k o.
Proof.
  intros H. induction o as [|[k2 v] o IH]; cbn; [reflexivity|].
  destruct (str_eqb k' k2) eqn:E.
  - apply str_eqb_iff' in E. subst k2. now rewrite H.
  - cbn. destruct (str_eqb k k2); [reflexivity|exact IH].
Qed.

Lemma lacks_lookup o k : lacks o k <-> contains_key (lit k) o = false.
Proof.
  unfold lacks, contains_key. split.
  - intros H. destruct (lookup (lit k) o) as [v|] eqn:E; [|reflexivity]. now apply has_lookup, H in E.
  - intros H v Hv. apply has_lookup in Hv. now rewrite Hv in H.
Qed.
Lemma contains_without k k' o : str_eqb k k' = false -> contains_key k (without k' o) = contains_key k o.
Proof. intros H. unfold contains_key. now rewrite lookup_without. Qed.

(** ** Depth *)
Definition odepth (o : object) : nat := json_depth (J_Object o).
Fixpoint adepth (l : list json) : nat :=
  match l with [] => O | x :: l' => Nat.max (json_depth x) (adepth l') end.
Fixpoint fdepth (l : object) : nat :=
  match l with [] => O | (_, x) :: l' => Nat.max (json_depth x) (fdepth l') end.
Lemma odepth_eq o : odepth o = S (fdepth o).
Proof. reflexivity. Qed.
Lemma adepth_eq l : json_depth (J_Array l) = S (adepth l).
Proof. reflexivity. Qed.
Lemma lookup_depth k o v : lookup k o = Some v -> json_depth v < odepth o.
Proof.
  rewrite odepth_eq. induction o as [|[k' v'] o IH]; cbn [lookup fdepth]; [discriminate|].
  destruct (str_eqb k k'); intros H.
  - injection H as ->. lia.
  - apply IH in H. lia.
Qed.
Lemma without_depth k o : odepth (without k o) <= odepth o.
Proof.
  rewrite !odepth_eq. induction o as [|[k' v'] o IH]; cbn [without fdepth]; [lia|].
  destruct (str_eqb k k'); cbn [fdepth]; lia.
Qed.
Lemma adepth_in j l : In j l -> json_depth j <= adepth l.
Proof.
  induction l as [|x l IH]; cbn [adepth]; [intros []|].
  intros [->|H]; [lia|]. apply IH in H. lia.
Qed.
Lemma lookup_array_depth k o l j : lookup k o = Some (J_Array l) -> In j l -> json_depth j < odepth o.
Proof. intros H Hj. apply lookup_depth in H. rewrite adepth_eq in H. apply adepth_in in Hj. lia. Qed.

(** ** The monad *)
Lemma bind_inv {S E A B} (m : M S E A) (f : A -> M S E B) s r :
  bind m f s = Ok r -> exists a s', m s = Ok (a, s') /\ f a s' = Ok r.
Proof. unfold bind. destruct (m s) as [[a s']|e|k|] eqn:Em; try discriminate. intros H. now exists a, s'. Qed.
Lemma bind_ok {S E A B} (m : M S E A) (f : A -> M S E B) s a s' :
  m s = Ok (a, s') -> bind m f s = f a s'.
Proof. unfold bind. now intros ->. Qed.
Lemma lift_inv {S E A} (r : res E A) (s : S) a s' : lift r s = Ok (a, s') -> r = Ok a /\ s' = s.
Proof. destruct r; cbn; try discriminate. intros H. injection H as -> ->. now split. Qed.
Lemma and_then_inv {E A B} (r : res E A) (f : A -> res E B) b :
  and_then r f = Ok b -> exists a, r = Ok a /\ f a = Ok b.
Proof. destruct r; cbn; try discriminate. intros H. now exists a. Qed.
Lemma run_inv {A} (m : eM A) o a : run m o = Ok a -> exists o', m o = Ok (a, o').
Proof. unfold run. destruct (m o) as [[b o']|e|k|]; try discriminate. intros H. injection H as ->. now exists o'. Qed.
Lemma run_ok {A} (m : eM A) o a o' : m o = Ok (a, o') -> run m o = Ok a.
Proof. unfold run. now intros ->. Qed.

Lemma extract_as_inv {A} (f : json -> jres A) k o a o' : ex (extract_as f k) o = Ok (a, o') ->
  exists v, lookup k o = Some v /\ f v = Ok a /\ o' = without k o.
Proof.
  unfold ex, extract_as, extract_field, bind, from_json.
  destruct (lookup k o) as [v|] eqn:E; [|discriminate].
  unfold lift. destruct (f v) as [x|e|p|] eqn:Ef; try discriminate. intros H. injection H as -> <-.
  exists v. now repeat split.
Qed.
Lemma extract_as_ok {A} (f : json -> jres A) k o v a : lookup k o = Some v -> f v = Ok a ->
  ex (extract_as f k) o = Ok (a, without k o).
Proof. intros H1 H2. unfold ex, extract_as, extract_field, bind, from_json, lift. now rewrite H1, H2. Qed.

Ltac xinv H := apply extract_as_inv in H as (? & ?L & ?F & ->).
Lemma x_object_inv k o a o' : ex (extract_object k) o = Ok (a, o') ->
  lookup k o = Some (J_Object a) /\ o' = without k o.
Proof. intros H. xinv H. destruct x; cbn in F; try discriminate. injection F as ->. now split. Qed.
Lemma x_object_opt_inv k o a o' : ex (extract_object_opt k) o = Ok (a, o') ->
  lookup k o = Some (match a with Some a => J_Object a | None => J_Null end) /\ o' = without k o.
Proof. intros H. xinv H. destruct x; cbn in F; try discriminate; injection F as <-; now split. Qed.
Lemma x_array_inv k o a o' : ex (extract_array k) o = Ok (a, o') ->
  lookup k o = Some (J_Array a) /\ o' = without k o.
Proof. intros H. xinv H. destruct x; cbn in F; try discriminate. injection F as ->. now split. Qed.
Lemma x_string_inv k o a o' : ex (extract_string k) o = Ok (a, o') ->
  lookup k o = Some (J_String a) /\ o' = without k o.
Proof. intros H. xinv H. destruct x; cbn in F; try discriminate. injection F as ->. now split. Qed.
Lemma x_bool_inv k o a o' : ex (extract_bool k) o = Ok (a, o') ->
  lookup k o = Some (J_Bool a) /\ o' = without k o.
Proof. intros H. xinv H. destruct x; cbn in F; try discriminate. injection F as ->. now split. Qed.
Lemma x_bool_opt_inv k o a o' : ex (extract_bool_opt k) o = Ok (a, o') ->
  lookup k o = Some (match a with Some a => J_Bool a | None => J_Null end) /\ o' = without k o.
Proof. intros H. xinv H. destruct x; cbn in F; try discriminate; injection F as <-; now split. Qed.
Lemma x_field_inv k o a o' : ex (extract_field k) o = Ok (a, o') ->
  lookup k o = Some a /\ o' = without k o.
Proof.
  unfold ex, extract_field, from_json. destruct (lookup k o) as [v|]; [|discriminate].
  intros H. injection H as -> <-. now split.
Qed.

Lemma x_object_ok k o a : lookup k o = Some (J_Object a) -> ex (extract_object k) o = Ok (a, without k o).
Proof. intros H. now apply (extract_as_ok _ _ _ _ _ H). Qed.
Lemma x_object_opt_ok k o a : lookup k o = Some (match a with Some a => J_Object a | None => J_Null end) ->
  ex (extract_object_opt k) o = Ok (a, without k o).
Proof. intros H. apply (extract_as_ok _ _ _ _ _ H). now destruct a. Qed.
Lemma x_array_ok k o a : lookup k o = Some (J_Array a) -> ex (extract_array k) o = Ok (a, without k o).
Proof. intros H. now apply (extract_as_ok _ _ _ _ _ H). Qed.
Lemma x_string_ok k o a : lookup k o = Some (J_String a) -> ex (extract_string k) o = Ok (a, without k o).
Proof. intros H. now apply (extract_as_ok _ _ _ _ _ H). Qed.
Lemma x_bool_ok k o a : lookup k o = Some (J_Bool a) -> ex (extract_bool k) o = Ok (a, without k o).
Proof. intros H. now apply (extract_as_ok _ _ _ _ _ H). Qed.
Lemma x_bool_opt_ok k o a : lookup k o = Some (match a with Some a => J_Bool a | None => J_Null end) ->
  ex (extract_bool_opt k) o = Ok (a, without k o).
Proof. intros H. apply (extract_as_ok _ _ _ _ _ H). now destruct a. Qed.
Lemma x_field_ok k o a : lookup k o = Some a -> ex (extract_field k) o = Ok (a, without k o).
Proof. intros H. unfold ex, extract_field, from_json. now rewrite H. Qed.

(** ** Tags *)
Lemma tag_text_iff s t : tag_from_str s = Some t <-> tag_text t = s.
Proof.
  split.
  - apply (table_text tag_from_table tag_text). reflexivity.
  - intros <-. destruct t; reflexivity.
Qed.
Lemma tag_of_iff o t : tag_of o = Ok t <-> lookup (lit "type") o = Some (J_String (tag_text t)).
Proof.
  unfold tag_of, get_string, get_as, get_field. change (fun s : str => _) with
    (fun s => match tag_from_str s with Some t => Ok t | None => @Err est_error tag (EE_InvalidTypeTag s) end).
  destruct (lookup (lit "type") o) as [v|]; cbn [and_then from_json]; [|split; discriminate].
  destruct v; cbn [into_string type_error from_json and_then]; try (split; discriminate).
  destruct (tag_from_str s) as [t'|] eqn:E.
  - apply tag_text_iff in E. subst s. split.
    + intros H. now injection H as ->.
    + intros H. assert (Et : tag_text t' = tag_text t) by congruence. f_equal.
      assert (Et' : Some t' = Some t); [|congruence].
      rewrite <- (proj2 (tag_text_iff (tag_text t') t') eq_refl), Et. now apply tag_text_iff.
  - split; [discriminate|]. intros H. assert (s = tag_text t) by congruence. subst s.
    now rewrite (proj2 (tag_text_iff _ t) eq_refl) in E.
Qed.
Lemma tag_typed o t : tag_of o = Ok t <-> has o "type" (J_String (tag_text t)).
Proof. rewrite tag_of_iff. symmetry. apply has_lookup. Qed.
Lemma tag_eqb_iff a b : tag_eqb a b = true <-> a = b.
Proof. split; [apply internal_tag_dec_bl|apply internal_tag_dec_lb]. Qed.

Lemma tag_text_in t : exists s, In s node_types /\ tag_text t = lit s.
Proof.
  destruct t; match goal with |- context [tag_text ?t] =>
    let s := eval cbv in (string_of_list_ascii (map ascii_of_N (tag_text t))) in exists s end;
  (split; [cbn; tauto|reflexivity]).
Qed.
Lemma node_type_tag s : In s node_types -> exists t, tag_text t = lit s.
Proof.
  intros H.
  assert (F : forallb (fun s => match tag_from_str (lit s) with Some _ => true | None => false end) node_types
              = true) by reflexivity.
  rewrite forallb_forall in F. apply F in H. destruct (tag_from_str (lit s)) as [t|] eqn:E; [|discriminate].
  exists t. now apply tag_text_iff.
Qed.
Lemma lit_inj a b : lit a = lit b -> a = b.
Proof.
  unfold lit. revert b. induction a as [|x a IH]; intros [|y b]; cbn; try discriminate; intros H.
  - reflexivity.
  - injection H as H1 H2. apply IH in H2. subst b. f_equal.
    rewrite <- (ascii_N_embedding x), <- (ascii_N_embedding y). now rewrite H1.
Qed.

(** ** Numbers *)
Lemma text_of_N_Z n : text_of_N n = decimal (Z.of_N n).
Proof. destruct n; reflexivity. Qed.
Lemma literal_u64 n : number_literal_of_u64 n = integer_literal (Z.of_N n).
Proof.
  unfold number_literal_of_u64, integer_literal. rewrite text_of_N_Z. f_equal.
  unfold u64_as_f64, f64_of_N, f64_of_Z. f_equal; destruct n; reflexivity.
Qed.
Lemma literal_i64 z : number_literal_of_i64 z = integer_literal z.
Proof. reflexivity. Qed.

(** ** Lists *)
Lemma Forall2_impl {A B} (P Q : A -> B -> Prop) l r :
  (forall a b, P a b -> Q a b) -> Forall2 P l r -> Forall2 Q l r.
Proof. intros H F. induction F; constructor; auto. Qed.
Lemma map_res_iff {E A B} (f : A -> res E B) l r :
  map_res f l = Ok r <-> Forall2 (fun a b => f a = Ok b) l r.
Proof.
  revert r. induction l as [|a l IH]; intros r; cbn.
  - split.
    + intros H. injection H as <-. constructor.
    + intros H. now inversion H.
  - split.
    + intros H. apply and_then_inv in H as (b & Hb & H). apply and_then_inv in H as (bs & Hbs & H).
      injection H as <-. constructor; [exact Hb|]. now apply IH.
    + intros H. inversion H as [|? b ? bs Hb Hbs]; subst. rewrite Hb. cbn. apply IH in Hbs. now rewrite Hbs.
Qed.
Lemma into_objects_iff l os : into_objects l = Ok os <-> l = map J_Object os.
Proof.
  unfold into_objects. etransitivity; [apply map_res_iff|]. revert os. induction l as [|j l IH]; intros [|o os]; cbn;
  split; intros H; try discriminate; try (now inversion H); try constructor.
  - inversion H as [|? ? ? ? Hj Hl]; subst. apply IH in Hl. subst l.
    destruct j; cbn in Hj; try discriminate. now injection Hj as ->.
  - injection H as -> H. reflexivity.
  - injection H as -> H. now apply IH.
Qed.
Lemma Forall2_map_l {A B C} (f : A -> B) (P : B -> C -> Prop) l r :
  Forall2 P (map f l) r <-> Forall2 (fun a => P (f a)) l r.
Proof.
  revert r. induction l as [|a l IH]; intros r; cbn; split; intros H; inversion H; subst; constructor; auto;
  now apply IH.
Qed.
Definition item_of {A} (f : object -> eres A) (j : json) (a : A) : Prop :=
  exists o, j = J_Object o /\ f o = Ok a.
Lemma extract_list_iff {A} (f : object -> eres A) k o r o' :
  extract_list f k o = Ok (r, o') <->
  exists js, lookup k o = Some (J_Array js) /\ o' = without k o /\ Forall2 (item_of f) js r.
Proof.
  unfold extract_list. split.
  - intros H. apply bind_inv in H as (l & s & H1 & H). apply x_array_inv in H1 as [L ->].
    apply bind_inv in H as (os & s & H1 & H). apply lift_inv in H1 as [H1 ->].
    apply into_objects_iff in H1. subst l. apply lift_inv in H as [H ->].
    apply map_res_iff in H. exists (map J_Object os). repeat split; [exact L|].
    apply Forall2_map_l. revert H. apply Forall2_impl. intros a b Hb. now exists a.
  - intros (js & L & -> & F). rewrite (bind_ok _ _ _ _ _ (x_array_ok _ _ _ L)).
    assert (exists os : list object, js = map J_Object os /\ Forall2 (fun o a => f o = Ok a) os r) as (os & -> & F').
    { clear L. induction F as [|j a js r (x & -> & Hx) F (os & -> & F')].
      - exists []. split; [reflexivity|constructor].
      - exists (x :: os). split; [reflexivity|]. now constructor. }
    rewrite (bind_ok _ _ _ os (without k o)); [|now rewrite (proj2 (into_objects_iff _ _) eq_refl)].
    apply map_res_iff in F'. now rewrite F'.
Qed.

(** ** Leaves *)
Lemma into_id_iff o i : into_id o = Ok i <-> est_id o i.
Proof.
  unfold into_id. split.
  - intros H. apply run_inv in H as (o' & H). apply bind_inv in H as (t & s & H1 & H).
    apply lift_inv in H1 as [Ht ->]. destruct (tag_eqb t Tg_Identifier) eqn:Et; cbn in H; [|discriminate].
    apply tag_eqb_iff in Et. subst t. apply tag_typed in Ht.
    apply bind_inv in H as (x & s & H1 & H). apply x_string_inv in H1 as [L ->]. injection H as <- <-.
    constructor; [exact Ht|]. now apply has_lookup.
  - intros H. inversion H as [? s Ht Hn]; subst. apply (tag_typed o Tg_Identifier) in Ht.
    unfold run, bind. rewrite Ht. cbn. apply has_lookup in Hn. now rewrite (x_string_ok _ _ _ Hn).
Qed.
Lemma extract_id_iff k o i o' : extract_id (lit k) o = Ok (i, o') <-> est_id_at o k i /\ o' = without (lit k) o.
Proof.
  unfold extract_id. split.
  - intros H. apply bind_inv in H as (x & s & H1 & H). apply x_object_inv in H1 as [L ->].
    apply lift_inv in H as [H ->]. apply into_id_iff in H. split; [|reflexivity].
    apply (EIA _ _ x); [now apply has_lookup|exact H].
  - intros [H ->]. inversion H as [x ? L Hi]; subst. apply has_lookup in L. apply into_id_iff in Hi.
    rewrite (bind_ok _ _ _ _ _ (x_object_ok _ _ _ L)). now rewrite Hi.
Qed.
Lemma extract_id_opt_iff k o i o' :
  extract_id_opt (lit k) o = Ok (i, o') <-> est_id_opt o k i /\ o' = without (lit k) o.
Proof.
  unfold extract_id_opt. split.
  - intros H. apply bind_inv in H as (x & s & H1 & H). apply x_object_opt_inv in H1 as [L ->].
    destruct x as [x|].
    + apply bind_inv in H as (y & s & H1 & H). apply lift_inv in H1 as [H1 ->]. injection H as <- <-.
      apply into_id_iff in H1. split; [|reflexivity]. constructor.
      apply (EIA _ _ x); [now apply has_lookup|exact H1].
    + injection H as <- <-. split; [|reflexivity]. constructor. now apply has_lookup.
  - intros [H ->]. inversion H as [L|j Hj]; subst.
    + apply has_lookup in L. now rewrite (bind_ok _ _ _ _ _ (x_object_opt_ok _ _ None L)).
    + inversion Hj as [x ? L Hi]; subst. apply has_lookup in L. apply into_id_iff in Hi.
      rewrite (bind_ok _ _ _ _ _ (x_object_opt_ok _ _ (Some x) L)). unfold bind. now rewrite Hi.
Qed.
Lemma extract_patt_iff k o p o' :
  extract_patt (lit k) o = Ok (p, o') <-> exists i, p = Simple i /\ est_id_at o k i /\ o' = without (lit k) o.
Proof.
  unfold extract_patt, into_patt. split.
  - intros H. apply bind_inv in H as (x & s & H1 & H). apply x_object_inv in H1 as [L ->].
    apply lift_inv in H as [H ->]. apply and_then_inv in H as (i & Hi & H). injection H as <-.
    apply into_id_iff in Hi. exists i. repeat split.
    apply (EIA _ _ x); [now apply has_lookup|exact Hi].
  - intros (i & -> & H & ->). inversion H as [x ? L Hi]; subst. apply has_lookup in L. apply into_id_iff in Hi.
    rewrite (bind_ok _ _ _ _ _ (x_object_ok _ _ _ L)). now rewrite Hi.
Qed.

Lemma into_regexp_iff o e o' : into_regexp o = Ok (e, o') <->
  exists r p f, lookup (lit "regex") o = Some (J_Object r) /\ lookup (lit "pattern") r = Some (J_String p)
    /\ lookup (lit "flags") r = Some (J_String f) /\ e = E_RegExp None (RegExpLiteral p f)
    /\ o' = without (lit "regex") o.
Proof.
  unfold into_regexp. split.
  - intros H. apply bind_inv in H as (r & s & H1 & H). apply x_object_inv in H1 as [L ->].
    apply bind_inv in H as ([p r'] & s & H1 & H). apply lift_inv in H1 as [H1 ->].
    apply x_string_inv in H1 as [L1 ->].
    apply bind_inv in H as ([f r'] & s & H1 & H). apply lift_inv in H1 as [H1 ->].
    apply x_string_inv in H1 as [L2 ->]. rewrite lookup_without in L2 by reflexivity.
    injection H as <- <-. now exists r, p, f.
  - intros (r & p & f & L & L1 & L2 & -> & ->). rewrite (bind_ok _ _ _ _ _ (x_object_ok _ _ _ L)).
    unfold bind. rewrite (x_string_ok _ _ _ L1). cbn [lift].
    rewrite <- (lookup_without _ (lit "pattern")) in L2 by reflexivity.
    now rewrite (x_string_ok _ _ _ L2).
Qed.
Lemma into_lit_iff o e : into_lit o = Ok e <-> est_value o e.
Proof.
  unfold into_lit. split.
  - intros H. apply run_inv in H as (o' & H). apply bind_inv in H as (v & s & H1 & H).
    apply x_field_inv in H1 as [L ->]. apply bind_inv in H as (o2 & s & H1 & H). injection H1 as <- <-.
    apply has_lookup in L.
    assert (RE : v = J_Null \/ (exists x, v = J_Object x) -> into_regexp (without (lit "value") o) = Ok (e, o') ->
                 est_value o e).
    { intros Hv R. apply into_regexp_iff in R as (r & p & f & L1 & L2 & L3 & -> & _).
      rewrite lookup_without in L1 by reflexivity.
      apply (EV_regexp o r p f); try (now apply has_lookup).
      destruct Hv as [->|[x ->]]; [now left|right; now exists x]. }
    destruct v as [|b|z|n|f|s|a|x].
    + destruct (contains_key (lit "regex") (without (lit "value") o)) eqn:C; cbn [negb] in H.
      * apply RE; [now left|exact H].
      * injection H as <- <-. rewrite contains_without in C by reflexivity. constructor; [exact L|].
        now apply lacks_lookup.
    + destruct b; injection H as <- <-; now constructor.
    + injection H as <- <-. now apply EV_i64.
    + injection H as <- <-. rewrite literal_u64. now apply EV_u64.
    + injection H as <- <-. now apply EV_f64.
    + injection H as <- <-. now constructor.
    + discriminate H.
    + apply RE; [right; now exists x|exact H].
  - intros H. unfold run.
    inversion H as [L K|L|L|s L|z L|n L|f L|r p f L L1 L2 L3]; subst e;
    try (apply has_lookup in L; rewrite (bind_ok _ _ _ _ _ (x_field_ok _ _ _ L));
         rewrite (bind_ok _ _ _ _ _ (eq_refl : get _ = Ok (_, _)))).
    + apply lacks_lookup in K. rewrite contains_without by reflexivity. now rewrite K.
    + reflexivity.
    + reflexivity.
    + reflexivity.
    + reflexivity.
    + cbn. now rewrite literal_u64.
    + reflexivity.
    + apply has_lookup in L1. apply has_lookup in L2. apply has_lookup in L3.
      assert (R : into_regexp (without (lit "value") o) =
                  Ok (E_RegExp None (RegExpLiteral p f), without (lit "regex") (without (lit "value") o))).
      { apply into_regexp_iff. exists r, p, f. rewrite lookup_without by reflexivity. now repeat split. }
      assert (C : contains_key (lit "regex") (without (lit "value") o) = true).
      { rewrite contains_without by reflexivity. unfold contains_key. now rewrite L1. }
      destruct L as [L|[v L]]; apply has_lookup in L; rewrite (bind_ok _ _ _ _ _ (x_field_ok _ _ _ L));
      rewrite (bind_ok _ _ _ _ _ (eq_refl : get _ = Ok (_, _))).
      * rewrite C. cbn [negb]. now rewrite R.
      * now rewrite R.
Qed.

Lemma name_string_from s : name_string (name_from s) = s.
Proof. exact (name_from_string s). Qed.

Lemma into_prop_key_iff o k : into_prop_key o = Ok k <-> est_key false o k.
Proof.
  unfold into_prop_key. split.
  - intros H. apply and_then_inv in H as (t & Ht & H). apply tag_typed in Ht.
    destruct (tag_eqb t Tg_Identifier) eqn:Et.
    + apply and_then_inv in H as (i & Hi & H). injection H as <-. apply into_id_iff in Hi.
      inversion Hi as [? s Ti Hn]; subst. cbn [id_name]. rewrite name_string_from. now constructor.
    + assert (Nt : t <> Tg_Identifier) by (intros ->; now rewrite (proj2 (tag_eqb_iff _ _) eq_refl) in Et).
      apply and_then_inv in H as (e & He & H). apply into_lit_iff in He.
      destruct (tag_text_in t) as (s & Hs & Es). rewrite Es in Ht.
      assert (Ns : s <> "Identifier"%string).
      { intros ->. apply Nt. assert (X : Some t = Some Tg_Identifier); [|congruence].
        apply tag_text_iff in Es. rewrite <- Es. reflexivity. }
      assert (Al : forall X, also false X) by (intros X; unfold also; discriminate).
      destruct e; try discriminate H.
      * assert (l = None) by (inversion He; reflexivity). subst l. injection H as <-.
        apply (EK_number _ _ s); auto.
      * assert (l = None) by (inversion He; reflexivity). subst l. injection H as <-.
        apply (EK_string _ _ s); auto.
  - intros H.
    assert (G : forall t e, In t node_types -> t <> "Identifier"%string -> typed o t -> est_value o e ->
      exists tg, tag_of o = Ok tg /\ tag_eqb tg Tg_Identifier = false /\ into_lit o = Ok e).
    { intros t e Hi Hn Ht He. destruct (node_type_tag t Hi) as (tg & Etg). exists tg. repeat split.
      - apply tag_typed. now rewrite Etg.
      - destruct (tag_eqb tg Tg_Identifier) eqn:E; [|reflexivity]. apply tag_eqb_iff in E. subst tg.
        exfalso. apply Hn. apply lit_inj. symmetry. exact Etg.
      - now apply into_lit_iff. }
    inversion H as [s Ht Hn|t n Hi Hn Ht _ He|t s Hi Hn Ht _ He]; subst.
    + pose proof (proj2 (tag_typed o Tg_Identifier) Ht) as T. rewrite T. cbn [and_then].
      change (tag_eqb Tg_Identifier Tg_Identifier) with true. cbv iota.
      rewrite (proj2 (into_id_iff o (Id None (name_from s)))) by (now constructor).
      cbn [and_then id_name]. now rewrite name_string_from.
    + destruct (G _ _ Hi Hn Ht He) as (tg & T & E & Lit). rewrite T. cbn [and_then]. rewrite E, Lit. reflexivity.
    + destruct (G _ _ Hi Hn Ht He) as (tg & T & E & Lit). rewrite T. cbn [and_then]. rewrite E, Lit. reflexivity.
Qed.

(** ** Parameters *)
Lemma into_patt_iff o p : into_patt o = Ok p <-> est_param (J_Object o) p.
Proof.
  unfold into_patt. split.
  - intros H. apply and_then_inv in H as (i & Hi & H). injection H as <-. constructor. now apply into_id_iff.
  - intros H. inversion H as [? i Hi]; subst. apply into_id_iff in Hi. now rewrite Hi.
Qed.
Lemma est_param_obj j p : est_param j p -> exists o, j = J_Object o.
Proof. intros H. inversion H. now exists o. Qed.
Lemma params_map os ps : map_res into_patt os = Ok ps <-> Forall2 est_param (map J_Object os) ps.
Proof.
  etransitivity; [apply map_res_iff|]. etransitivity; [|symmetry; apply Forall2_map_l]. split; apply Forall2_impl; intros a b; apply into_patt_iff.
Qed.
Lemma params_objs js ps : Forall2 est_param js ps -> exists os : list object, js = map J_Object os.
Proof.
  induction 1 as [|j p js ps Hj F (os & ->)]; [now exists []|].
  destruct (est_param_obj _ _ Hj) as (o & ->). now exists (o :: os).
Qed.
Lemma Forall2_impl_in {A B} (P Q : A -> B -> Prop) l r :
  (forall a b, In a l -> P a b -> Q a b) -> Forall2 P l r -> Forall2 Q l r.
Proof. intros H F. induction F; constructor; [apply H; cbn; auto|]. apply IHF. intros; apply H; cbn; auto. Qed.

Lemma extract_params_iff k o ps o' : extract_params (lit k) o = Ok (ps, o') <->
  exists js, has o k (J_Array js) /\ est_params js ps /\ o' = without (lit k) o.
Proof.
  unfold extract_params. split.
  - intros H. apply bind_inv in H as (l & s & H1 & H). apply x_array_inv in H1 as [L ->].
    apply bind_inv in H as (os & s & H1 & H). apply lift_inv in H1 as [H1 ->].
    apply into_objects_iff in H1. subst l. exists (map J_Object os).
    split; [now apply has_lookup|].
    apply bind_inv in H as ([os' rest] & s & H1 & H).
    apply bind_inv in H as (ps' & s' & H2 & H). apply lift_inv in H2 as [H2 ->].
    apply params_map in H2. injection H as <- <-.
    destruct (rev os) as [|last before] eqn:Er.
    + injection H1 as <- <- <-. split; [|reflexivity]. now constructor.
    + apply bind_inv in H1 as (t & s1 & H1 & H3). apply lift_inv in H1 as [Ht ->].
      destruct (tag_eqb t Tg_RestElement) eqn:Et.
      * apply tag_eqb_iff in Et. subst t. apply tag_typed in Ht.
        apply bind_inv in H3 as (p & s1 & H1 & H3). apply lift_inv in H1 as [H1 ->].
        injection H3 as <- <- <-. split; [|reflexivity].
        apply run_inv in H1 as (o2 & H1). apply extract_patt_iff in H1 as (i & -> & Hi & _).
        assert (Eo : os = rev before ++ [last]) by (rewrite <- (rev_involutive os), Er; reflexivity).
        rewrite Eo, map_app. cbn [map]. now constructor.
      * injection H3 as <- <- <-. split; [|reflexivity]. now constructor.
  - intros (js & L & P & ->). apply has_lookup in L. rewrite (bind_ok _ _ _ _ _ (x_array_ok _ _ _ L)).
    inversion P as [? qs F|js' qs lo i F Ht Hi]; subst.
    + destruct (params_objs _ _ F) as (os & ->). apply params_map in F.
      rewrite (bind_ok _ _ _ os (without (lit k) o)); [|now rewrite (proj2 (into_objects_iff _ _) eq_refl)].
      rewrite (bind_ok _ _ _ (os, None) (without (lit k) o)).
      * cbn [lift]. unfold bind. now rewrite F.
      * destruct (rev os) as [|last before] eqn:Er; [reflexivity|].
        assert (Eo : os = rev before ++ [last]) by (rewrite <- (rev_involutive os), Er; reflexivity).
        assert (exists p, into_patt last = Ok p) as (p & Hp).
        { apply map_res_iff in F. rewrite Eo in F.
          apply Forall2_app_inv_l in F as (l1 & l2 & _ & F & _). inversion F as [|? p ? ? Hp]; subst. now exists p. }
        unfold into_patt in Hp. apply and_then_inv in Hp as (i & Hi & _). apply into_id_iff in Hi.
        inversion Hi as [? s Ti _]; subst. apply (tag_typed last Tg_Identifier) in Ti.
        unfold bind. rewrite Ti. reflexivity.
    + destruct (params_objs _ _ F) as (os & ->). apply params_map in F.
      rewrite (bind_ok _ _ _ (os ++ [lo]) (without (lit k) o)).
      2:{ rewrite (proj2 (into_objects_iff _ (os ++ [lo]))); [reflexivity|]. now rewrite map_app. }
      rewrite rev_app_distr. cbn [rev app]. apply (tag_typed lo Tg_RestElement) in Ht.
      assert (A : run (extract_patt (lit "argument")) lo = Ok (Simple i)).
      { apply (run_ok _ _ _ (without (lit "argument") lo)). apply extract_patt_iff. now exists i. }
      unfold bind. rewrite Ht. cbn [lift]. change (tag_eqb Tg_RestElement Tg_RestElement) with true. cbv iota.
      rewrite A. cbn [lift ret]. rewrite rev_involutive, F. reflexivity.
Qed.

(** ** Splitting the directives *)
Lemma directive_iff i : item_is_directive i = true <-> is_directive i.
Proof.
  split.
  - destruct i as [d|s]; [discriminate|]. destruct s; try discriminate. destruct e; try discriminate.
    intros _. exists (Dir l s0 s). now exists l0.
  - intros (d & l & ->). reflexivity.
Qed.
Lemma to_directive_iff i d : item_to_directive i = Some d <-> directive_item d i.
Proof.
  split.
  - destruct i as [x|s]; [discriminate|]. destruct s; try discriminate. destruct e; try discriminate.
    intros H. injection H as <-. now exists l0.
  - intros (l & ->). cbn. destruct d; reflexivity.
Qed.
Lemma position_none {A} (p : A -> bool) v : position p v = None <-> forall x, In x v -> p x = false.
Proof.
  induction v as [|x v IH]; cbn; [split; [intros _ x []|reflexivity]|].
  destruct (p x) eqn:E.
  - split; [discriminate|]. intros H. rewrite (H x) in E by auto. discriminate.
  - destruct (position p v); cbn; split; intros H; try discriminate; try reflexivity.
    + assert (X : Some n = None) by (apply IH; intros y Hy; apply H; auto). discriminate.
    + intros y [<-|Hy]; [exact E|]. apply IH; auto.
Qed.
Lemma split_prefix_spec {A} (v : list A) (p : A -> bool) a b : split_prefix v p = (a, b) <->
  v = a ++ b /\ (forall x, In x a -> p x = true) /\ (forall x r, b = x :: r -> p x = false).
Proof.
  unfold split_prefix. revert a b. induction v as [|x v IH]; intros a b; cbn.
  - split.
    + intros H. injection H as <- <-. repeat split; [intros x []|discriminate].
    + intros (H & _). symmetry in H. apply app_eq_nil in H as [-> ->]. reflexivity.
  - destruct (p x) eqn:E; cbn.
    + destruct (position (fun x0 => negb (p x0)) v) as [n|] eqn:Ep; cbn.
      * specialize (IH (firstn n v) (skipn n v)). destruct IH as [IH _]. specialize (IH eq_refl).
        destruct IH as (H1 & H2 & H3). split.
        -- intros H. injection H as <- <-. repeat split.
           ++ cbn. now rewrite <- H1.
           ++ cbn. intros y [<-|Hy]; auto.
           ++ exact H3.
        -- intros (Hv & Ha & Hb). destruct a as [|y a].
           ++ cbn in Hv. subst b. rewrite (Hb _ _ eq_refl) in E. discriminate.
           ++ injection Hv as <- Hv.
              assert (Sp : (firstn n v, skipn n v) = (a, b)).
              { (* both split the list at the first failing element *)
                clear - H1 H2 H3 Hv Ha Hb.
                assert (G : forall a1 b1 a2 b2 : list A, a1 ++ b1 = a2 ++ b2 ->
                  (forall x, In x a1 -> p x = true) -> (forall x r, b1 = x :: r -> p x = false) ->
                  (forall x, In x a2 -> p x = true) -> (forall x r, b2 = x :: r -> p x = false) ->
                  (a1, b1) = (a2, b2)).
                { induction a1 as [|y1 a1 IH]; intros b1 [|y2 a2] b2 Heq P1 Q1 P2 Q2; cbn in Heq.
                  - now subst.
                  - subst b1. specialize (P2 y2 (or_introl eq_refl)). rewrite (Q1 _ _ eq_refl) in P2. discriminate.
                  - subst b2. specialize (P1 y1 (or_introl eq_refl)). rewrite (Q2 _ _ eq_refl) in P1. discriminate.
                  - injection Heq as <- Heq.
                    assert (X : (a1, b1) = (a2, b2)); [|congruence].
                    apply IH; auto; intros z Hz; [apply P1|apply P2]; cbn; auto. }
                apply G; auto; [congruence|]. intros y Hy. apply Ha. cbn. auto. }
              congruence.
      * pose proof (proj1 (position_none _ _) Ep) as N. split.
        -- intros H. injection H as <- <-. rewrite app_nil_r. repeat split.
           ++ intros y [<-|Hy]; [exact E|]. apply N in Hy. now destruct (p y).
           ++ discriminate.
        -- intros (Hv & Ha & Hb). destruct b as [|y b].
           ++ rewrite app_nil_r in Hv. now subst a.
           ++ assert (Iy : In y (x :: v)) by (rewrite Hv; apply in_or_app; right; now left).
              exfalso.
              destruct Iy as [<-|Iy]; [rewrite (Hb _ _ eq_refl) in E; discriminate|].
              apply N in Iy. rewrite (Hb _ _ eq_refl) in Iy. discriminate.
    + split.
      * intros H. injection H as <- <-. repeat split; [intros y []|]. intros y r H. injection H as <- _. exact E.
      * intros (Hv & Ha & Hb). destruct a as [|y a].
        -- cbn in Hv. now subst b.
        -- injection Hv as <- Hv. rewrite (Ha x) in E by (now left). discriminate.
Qed.
Lemma filter_map_all l ds : Forall2 directive_item ds l -> filter_map item_to_directive l = ds.
Proof.
  induction 1 as [|d i ds l H F IH]; cbn; [reflexivity|]. apply to_directive_iff in H. rewrite H, IH. reflexivity.
Qed.
Lemma filter_map_dirs l : (forall i, In i l -> item_is_directive i = true) ->
  Forall2 directive_item (filter_map item_to_directive l) l.
Proof.
  induction l as [|i l IH]; intros H; cbn; [constructor|].
  destruct (proj1 (directive_iff i) (H i (or_introl eq_refl))) as (d & Hd).
  rewrite (proj2 (to_directive_iff i d) Hd). constructor; [exact Hd|]. apply IH. intros j Hj. apply H. cbn; auto.
Qed.
(** The split of [extract_script]. *)
Lemma splits_iff l ds is : splits l ds is <->
  (let '(front, items) := split_prefix l item_is_directive in
   filter_map item_to_directive front = ds /\ items = is).
Proof.
  destruct (split_prefix l item_is_directive) as [front items] eqn:E.
  pose proof (proj1 (split_prefix_spec _ _ _ _) E) as (H1 & H2 & H3). split.
  - intros H. inversion H as [fr it ds' Hl Hf Hn]; subst it ds'.
    assert (X : split_prefix l item_is_directive = (fr, is)).
    { apply split_prefix_spec. repeat split; [exact Hl| |].
      - intros i Hi. apply directive_iff. clear - Hf Hi.
        induction Hf as [|d j ds fr Hd Hf IH]; [destruct Hi|]. destruct Hi as [<-|Hi]; [now exists d|auto].
      - intros i r Hi. destruct (item_is_directive i) eqn:D; [|reflexivity]. exfalso. apply (Hn i r Hi).
        now apply directive_iff. }
    rewrite E in X. injection X as -> ->. split; [now apply filter_map_all|reflexivity].
  - intros [<- <-]. apply (SP _ front); [exact H1|now apply filter_map_dirs|].
    intros i r Hi D. apply directive_iff in D. rewrite (H3 i r Hi) in D. discriminate.
Qed.
