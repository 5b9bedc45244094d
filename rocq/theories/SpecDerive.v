(** Vocabulary for statements about the derive macros: values of declared types. *)
From Coq Require Import String Ascii List NArith Bool.
From Verif Require Import Base Word Token Punc Ast Node Derive Easter.
Import ListNotations.
Local Open Scope string_scope.
Local Open Scope list_scope.
Local Open Scope nat_scope.

(** [v] is built with the struct or variant of this path and fields. *)
Definition built (path : list ident) (d : variant_data) (v : val) : Prop :=
  match d, v with
  | Vd_Struct fs, V_Struct p l => p = path /\ map fst l = map fst fs
  | Vd_Tuple ts, V_Tuple p l => p = path /\ length l = length ts
  | Vd_Unit, V_Unit p => p = path
  | _, _ => False
  end.
(** The structs and variants of a declaration, with their paths. *)
Definition variants (d : macro_input) : list (list ident * variant_data) :=
  match mi_body d with
  | B_Struct data => [([mi_ident d], data)]
  | B_Enum vs => map (fun v => ([mi_ident d; fst v], snd v)) vs
  end.
(** Rust accepts a declaration only if the names of its variants differ, and those of the
    fields of each. *)
Definition declarable (d : macro_input) : Prop :=
  NoDup (map fst (variants d))
  /\ forall p fs, In (p, Vd_Struct fs) (variants d) -> NoDup (map fst fs).

(** Two values built alike whose fields are related one by one. *)
Inductive fieldwise (R : val -> val -> Prop) : val -> val -> Prop :=
| fw_struct : forall p fs fs',
    Forall2 (fun a b => fst a = fst b /\ R (snd a) (snd b)) fs fs' ->
    fieldwise R (V_Struct p fs) (V_Struct p fs')
| fw_tuple : forall p fs fs', Forall2 R fs fs' -> fieldwise R (V_Tuple p fs) (V_Tuple p fs')
| fw_unit : forall p, fieldwise R (V_Unit p) (V_Unit p).

(** A struct or variant that can carry a location. *)
Definition trackable (d : variant_data) : Prop :=
  match d with
  | Vd_Struct fs => In ("location", location_type) fs
  | Vd_Tuple ts => ts <> []
  | Vd_Unit => False
  end.

(** What the generated methods return for a value built with [vd]: the place of the
    field [location]; or the first field, or what the method returns for it. *)
Definition tracked_place (vd : variant_data) (v : val) (call : val -> option place) (p : place) : Prop :=
  match vd, v with
  | Vd_Struct _, V_Struct _ l => exists i, p = [i] /\ nth_error (map fst l) i = Some "location"
  | Vd_Tuple (t :: _), V_Tuple _ (w :: _) =>
      (t = location_type -> p = [0]) /\ (t <> location_type -> exists q, call w = Some q /\ p = 0 :: q)
  | _, _ => False
  end.

(** ** Running the methods, with enough time *)
Definition untracks (P : list type_decl) (v r : val) : Prop :=
  exists k0, forall k, k0 <= k -> untrack_val P k v = Some r.
Definition tracks (P : list type_decl) (m : mutability) (v : val) (p : place) : Prop :=
  exists k0, forall k, k0 <= k -> tracking_val P m k v = Some p.

(** ** Values of types *)

(** Arguments for type parameters. *)
Fixpoint subst_ty (s : list (ident * rty)) (t : rty) : rty :=
  match t with
  | RTy x [] => match find (fun p => String.eqb x (fst p)) s with Some p => snd p | None => t end
  | RTy x args => RTy x (map (subst_ty s) args)
  end.
Definition data_type (d : data) : ident :=
  match d with
  | Da_Bool _ => "bool"
  | Da_String _ => "String"
  | Da_Name _ => "Name"
  | Da_StringLit _ => "StringLiteral"
  | Da_NumberLit _ => "NumberLiteral"
  | Da_RegExpLit _ => "RegExpLiteral"
  | Da_Unop _ => "UnopTag"
  | Da_Binop _ => "BinopTag"
  | Da_Logop _ => "LogopTag"
  | Da_Assop _ => "AssopTag"
  | Da_Semi _ => "Semi"
  end.
(** [v] is a value of type [t]. *)
Inductive typed (P : list type_decl) : rty -> val -> Prop :=
| ty_data : forall d, typed P (Ty (data_type d)) (V_Data d)
| ty_loc : forall l, typed P Loc (V_Loc l)
| ty_none : forall t, t <> Ty "Span" -> typed P (Opt t) V_None
| ty_some : forall t v, t <> Ty "Span" -> typed P t v -> typed P (Opt t) (V_Some v)
| ty_vec : forall t vs, Forall (typed P t) vs -> typed P (Vec t) (V_Vec vs)
| ty_box : forall t v, typed P t v -> typed P (Bx t) v
| ty_alias : forall x t v, In (x, t) aliases -> typed P t v -> typed P (Ty x) v
| ty_struct : forall d args path fs l,
    In d P -> length args = length (mi_params (td_input d)) ->
    In (path, Vd_Struct fs) (variants (td_input d)) ->
    Forall2 (fun f v => fst f = fst v
              /\ typed P (subst_ty (combine (map fst (mi_params (td_input d))) args) (snd f)) (snd v)) fs l ->
    typed P (RTy (mi_ident (td_input d)) args) (V_Struct path l)
| ty_tuple : forall d args path ts l,
    In d P -> length args = length (mi_params (td_input d)) ->
    In (path, Vd_Tuple ts) (variants (td_input d)) ->
    Forall2 (fun t v =>
              typed P (subst_ty (combine (map fst (mi_params (td_input d))) args) t) v) ts l ->
    typed P (RTy (mi_ident (td_input d)) args) (V_Tuple path l).
