(** The procedural macros of derive/src/lib.rs, and what the code they generate does.

    The first part models the macros: from the declaration of a type to the [impl] they
    generate.  Of [syn]'s syntax trees only what the macros read and build is kept.  Of
    [quote!] only the parts filled in are kept: the trait, the type, its parameters and the
    arms of [match *self].

    The second part gives a meaning to the generated code: which arm of the match a value
    selects, what its names are bound to, and what the calls do.  It is Rust's, restricted
    to the patterns and expressions the macros build. *)
From Coq Require Import String Ascii List NArith Bool Decimal DecimalString.
From Verif Require Import Base Word Token Punc.
Import ListNotations.
Local Open Scope string_scope.
Local Open Scope list_scope.
Local Open Scope nat_scope.

(** * The macros *)

Definition ident := string.

(** [syn::Ty]: paths with type arguments *)
Inductive rty : Type := RTy (head : ident) (args : list rty).

(** derive/src/lib.rs:26-37 [location_type]; the macros compare with it *)
Definition location_type : rty := RTy "Option" [RTy "Span" []].
Definition is_location_type (t : rty) : bool :=
  match t with
  | RTy o [RTy s []] => String.eqb o "Option" && String.eqb s "Span"
  | _ => false
  end.

(** [syn::VariantData], [syn::Body], [syn::MacroInput]; a type parameter with its bounds *)
Inductive variant_data : Type :=
| Vd_Struct (fields : list (ident * rty))
| Vd_Tuple (fields : list rty)
| Vd_Unit.
Inductive item_body : Type :=
| B_Struct (d : variant_data)
| B_Enum (variants : list (ident * variant_data)).
Record macro_input : Type := MacroInput {
  mi_ident : ident; mi_params : list (ident * list ident); mi_body : item_body }.

(** The generated code: patterns, expressions, arms. *)
Inductive mutability : Type := Immutable | Mutable.
Inductive subpat : Type :=
| Sub_Ref (m : mutability) (x : ident)
| Sub_Wild.
Inductive pat : Type :=
| Pat_Struct (path : list ident) (fields : list (ident * subpat)) (rest : bool)
| Pat_Tuple (path : list ident) (pats : list subpat)
| Pat_Path (path : list ident).
Inductive gexpr : Type :=
| G_Var (x : ident)
| G_Method (m : ident) (recv : gexpr)
| G_Block (stmts : list gexpr).
Record arm : Type := Arm { arm_pat : pat; arm_body : gexpr }.
Record impl : Type := Impl {
  im_trait : ident; im_params : list (ident * list ident); im_type : ident; im_arms : list arm }.

(** A macro returns code or panics with a message. *)
Definition expansion (A : Type) : Type := (A + string)%type.

(** derive/src/lib.rs:47-90 [expand_tracking_data].  A tuple without fields: [fields.len()
    - 1] (68) underflows. *)
Definition expand_tracking_data (path : list ident) (data : variant_data) (m : mutability)
  : expansion arm :=
  match data with
  | Vd_Struct fields =>
      if existsb (fun f => String.eqb (fst f) "location" && is_location_type (snd f)) fields
      then inl (Arm (Pat_Struct path [("location", Sub_Ref m "location")] true) (G_Var "location"))
      else inr "Struct does not containt `location: Option<Span>`"
  | Vd_Tuple [] => inr "attempt to subtract with overflow"
  | Vd_Tuple (t :: ts) =>
      inl (Arm (Pat_Tuple path (Sub_Ref m "location" :: repeat Sub_Wild (length ts)))
               (if is_location_type t then G_Var "location"
                else G_Method (match m with Immutable => "tracking_ref" | Mutable => "tracking_mut" end)
                              (G_Var "location")))
  | Vd_Unit => inr "Empty unit is not trackable"
  end.

Fixpoint collect {A B} (f : A -> expansion B) (l : list A) : expansion (list B) :=
  match l with
  | [] => inl []
  | a :: l =>
      match f a with
      | inr e => inr e
      | inl b => match collect f l with inr e => inr e | inl bs => inl (b :: bs) end
      end
  end.

(** derive/src/lib.rs:92-138 [expand_tracking], 199-205 [expand_tracking_ref],
    [expand_tracking_mut] *)
Definition expand_tracking (d : macro_input) (m : mutability) : expansion impl :=
  let arms :=
    match mi_body d with
    | B_Struct data =>
        match expand_tracking_data [mi_ident d] data m with inl a => inl [a] | inr e => inr e end
    | B_Enum vs => collect (fun v => expand_tracking_data [mi_ident d; fst v] (snd v) m) vs
    end in
  match arms with
  | inl arms =>
      inl (Impl (match m with Immutable => "TrackingRef" | Mutable => "TrackingMut" end)
                (mi_params d) (mi_ident d) arms)
  | inr e => inr e
  end.

(** derive/src/lib.rs:160 [format!("_f{}", i)] *)
Definition field_ident (i : nat) : ident := String.append "_f" (NilEmpty.string_of_uint (Nat.to_uint i)).

(** derive/src/lib.rs:140-197 [expand_untrack_data] *)
Definition untrack_call (x : ident) : gexpr := G_Method "untrack" (G_Var x).
Definition expand_untrack_data (path : list ident) (data : variant_data) : arm :=
  match data with
  | Vd_Struct fields =>
      Arm (Pat_Struct path (map (fun f => (fst f, Sub_Ref Mutable (fst f))) fields) false)
          (G_Block (map (fun f => untrack_call (fst f)) fields))
  | Vd_Tuple fields =>
      let idents := map field_ident (seq 0 (length fields)) in
      Arm (Pat_Tuple path (map (Sub_Ref Mutable) idents)) (G_Block (map untrack_call idents))
  | Vd_Unit => Arm (Pat_Path path) (G_Block [])
  end.

(** derive/src/lib.rs:207-250 [expand_untrack] *)
Definition expand_untrack (d : macro_input) : impl :=
  Impl "Untrack" (map (fun p => (fst p, snd p ++ ["Untrack"])) (mi_params d)) (mi_ident d)
    (match mi_body d with
     | B_Struct data => [expand_untrack_data [mi_ident d] data]
     | B_Enum vs => map (fun v => expand_untrack_data [mi_ident d; fst v] (snd v)) vs
     end).

(** * The generated code *)

(** Data without a declaration here: joker's words and literals, [bool], [String], the
    operator tags, and [Semi]. *)
Inductive data : Type :=
| Da_Bool (b : bool)
| Da_String (s : str)
| Da_Name (n : name)
| Da_StringLit (s : string_literal)
| Da_NumberLit (n : number_literal)
| Da_RegExpLit (r : regexp_literal)
| Da_Unop (t : unop_tag)
| Da_Binop (t : binop_tag)
| Da_Logop (t : logop_tag)
| Da_Assop (t : assop_tag)
| Da_Semi (s : semi).

(** Values: of declared types, with the path of the struct or variant; [Option<Span>]; other
    options; vectors.  A box is what it contains. *)
Inductive val : Type :=
| V_Struct (path : list ident) (fields : list (ident * val))
| V_Tuple (path : list ident) (fields : list val)
| V_Unit (path : list ident)
| V_Loc (l : loc)
| V_None
| V_Some (v : val)
| V_Vec (vs : list val)
| V_Data (d : data).

(** The fields of a value of a declared type, and the value with others. *)
Definition val_fields (v : val) : list val :=
  match v with
  | V_Struct _ fs => map snd fs
  | V_Tuple _ fs => fs
  | _ => []
  end.
Definition with_fields (v : val) (fs : list val) : val :=
  match v with
  | V_Struct p old => V_Struct p (combine (map fst old) fs)
  | V_Tuple p _ => V_Tuple p fs
  | _ => v
  end.
(** The first segment of the path names the type. *)
Definition val_type (v : val) : option ident :=
  match v with
  | V_Struct (t :: _) _ | V_Tuple (t :: _) _ | V_Unit (t :: _) => Some t
  | _ => None
  end.

(** Matching: the names of a pattern are bound to fields, by position. *)
Definition bindings := list (ident * (mutability * nat)).
Fixpoint path_eqb (a b : list ident) : bool :=
  match a, b with
  | [], [] => true
  | x :: a, y :: b => String.eqb x y && path_eqb a b
  | _, _ => false
  end.
Fixpoint index_of (x : ident) (l : list ident) : option nat :=
  match l with
  | [] => None
  | y :: l => if String.eqb x y then Some 0 else option_map S (index_of x l)
  end.
Definition bind_sub (s : subpat) (i : nat) : bindings :=
  match s with Sub_Ref m x => [(x, (m, i))] | Sub_Wild => [] end.
Fixpoint bind_named (names : list ident) (fs : list (ident * subpat)) : option bindings :=
  match fs with
  | [] => Some []
  | (f, s) :: fs =>
      match index_of f names, bind_named names fs with
      | Some i, Some e => Some (bind_sub s i ++ e)
      | _, _ => None
      end
  end.
Fixpoint bind_tuple (ps : list subpat) (i : nat) : bindings :=
  match ps with
  | [] => []
  | p :: ps => bind_sub p i ++ bind_tuple ps (S i)
  end.
(** Without [..] a struct pattern has to name every field; a tuple pattern has to have as
    many patterns as there are fields. *)
Definition match_pat (p : pat) (v : val) : option bindings :=
  match p, v with
  | Pat_Struct path fs rest, V_Struct path' l =>
      if path_eqb path path'
         && (rest || forallb (fun x => existsb (String.eqb x) (map fst fs)) (map fst l))
      then bind_named (map fst l) fs else None
  | Pat_Tuple path ps, V_Tuple path' l =>
      if path_eqb path path' && Nat.eqb (length ps) (length l) then Some (bind_tuple ps 0) else None
  | Pat_Path path, V_Unit path' => if path_eqb path path' then Some [] else None
  | _, _ => None
  end.
Fixpoint select (arms : list arm) (v : val) : option (bindings * gexpr) :=
  match arms with
  | [] => None
  | a :: arms =>
      match match_pat (arm_pat a) v with Some e => Some (e, arm_body a) | None => select arms v end
  end.

(** A name, used for reading or for writing. *)
Fixpoint resolve (e : bindings) (m : mutability) (x : ident) : option nat :=
  match e with
  | [] => None
  | (y, (m', i)) :: e =>
      if String.eqb x y then
        match m, m' with Mutable, Immutable => None | _, _ => Some i end
      else resolve e m x
  end.

Fixpoint replace {A} (i : nat) (a : A) (l : list A) : list A :=
  match i, l with
  | _, [] => []
  | O, _ :: l => a :: l
  | S i, b :: l => b :: replace i a l
  end.

(** The body of a generated [untrack], given what [untrack] does to the fields. *)
Fixpoint run_calls (call : val -> option val) (e : bindings) (stmts : list gexpr) (fs : list val)
  : option (list val) :=
  match stmts with
  | [] => Some fs
  | G_Method meth (G_Var x) :: stmts =>
      if String.eqb meth "untrack" then
        match resolve e Mutable x with
        | Some i =>
            match nth_error fs i with
            | Some w =>
                match call w with
                | Some w' => run_calls call e stmts (replace i w' fs)
                | None => None
                end
            | None => None
            end
        | None => None
        end
      else None
  | _ => None
  end.
Definition run_untrack (call : val -> option val) (arms : list arm) (v : val) : option val :=
  match select arms v with
  | Some (e, G_Block stmts) => option_map (with_fields v) (run_calls call e stmts (val_fields v))
  | _ => None
  end.

(** A reference to a place inside a value: the way down, by field positions.  The body of a
    generated [tracking_ref] or [tracking_mut], given what the method returns for the
    fields. *)
Definition place := list nat.
Definition run_tracking (m : mutability) (call : val -> option place) (arms : list arm) (v : val)
  : option place :=
  match select arms v with
  | Some (e, G_Var x) => option_map (fun i => [i]) (resolve e m x)
  | Some (e, G_Method meth (G_Var x)) =>
      if String.eqb meth (match m with Immutable => "tracking_ref" | Mutable => "tracking_mut" end) then
        match resolve e m x with
        | Some i =>
            match nth_error (val_fields v) i with
            | Some w => option_map (cons i) (call w)
            | None => None
            end
        | None => None
        end
      else None
  | _ => None
  end.

(** Reading and writing through a reference. *)
Fixpoint read_place (p : place) (v : val) : option val :=
  match p with
  | [] => Some v
  | i :: p => match nth_error (val_fields v) i with Some w => read_place p w | None => None end
  end.
Fixpoint write_place (p : place) (x : val) (v : val) : option val :=
  match p with
  | [] => Some x
  | i :: p =>
      match nth_error (val_fields v) i with
      | Some w =>
          option_map (fun w' => with_fields v (replace i w' (val_fields v))) (write_place p x w)
      | None => None
      end
  end.

(** * Programs *)

(** A declared type with the traits derived for it. *)
Record type_decl : Type := TypeDecl { td_input : macro_input; td_derives : list ident }.
Definition find_type (P : list type_decl) (t : ident) : option type_decl :=
  find (fun d => String.eqb t (mi_ident (td_input d))) P.
Definition derives (d : type_decl) (trait : ident) : bool := existsb (String.eqb trait) (td_derives d).

Definition map_opt {A B} (f : A -> option B) : list A -> option (list B) :=
  fix go l :=
    match l with
    | [] => Some []
    | a :: l =>
        match f a with
        | Some b => match go l with Some bs => Some (b :: bs) | None => None end
        | None => None
        end
    end.

(** [tracking_ref] and [tracking_mut]: joker/src/track.rs:50-56 for [Option<Span>];
    easter/src/patt.rs:40-56, written by hand, for [Patt]; derived ones. *)
Definition tracking_trait (m : mutability) : ident :=
  match m with Immutable => "TrackingRef" | Mutable => "TrackingMut" end.
Fixpoint tracking_val (P : list type_decl) (m : mutability) (k : nat) (v : val) : option place :=
  match k with
  | O => None
  | S k =>
      match v with
      | V_Loc _ => Some []
      | V_Tuple ["Patt"; _] [w] => option_map (cons 0) (tracking_val P m k w)
      | _ =>
          match val_type v with
          | Some t =>
              match find_type P t with
              | Some d =>
                  if derives d (tracking_trait m) then
                    match expand_tracking (td_input d) m with
                    | inl i => run_tracking m (tracking_val P m k) (im_arms i) v
                    | inr _ => None
                    end
                  else None
              | None => None
              end
          | None => None
          end
      end
  end.

(** joker/src/token.rs:103-105,141-143,165-167; joker/src/track.rs:97-99; easter/src/punc.rs:14-18.
    Strings, names and tags have no [untrack]. *)
Definition untrack_data (d : data) : option data :=
  match d with
  | Da_Bool _ | Da_StringLit _ | Da_NumberLit _ | Da_RegExpLit _ => Some d
  | Da_Semi _ => Some (Da_Semi (Explicit None))
  | _ => None
  end.

(** Written by hand: easter/src/id.rs:14-16, obj.rs:16-18, punc.rs:81-85
    [self.location = None]; obj.rs:34-38 [*self.tracking_mut() = None]. *)
Definition untrack_by_hand (P : list type_decl) (k : nat) (t : ident) (v : val) : option val :=
  if String.eqb t "Id" || String.eqb t "DotKey" || String.eqb t "Op" then
    match v with
    | V_Struct _ fs =>
        match index_of "location" (map fst fs) with
        | Some i => write_place [i] (V_Loc None) v
        | None => None
        end
    | _ => None
    end
  else if String.eqb t "PropKey" then
    match tracking_val P Mutable k v with
    | Some p => write_place p (V_Loc None) v
    | None => None
    end
  else None.

(** [untrack]: joker/src/track.rs:62-95 for boxes, options, locations and vectors; data;
    derived; by hand. *)
Fixpoint untrack_val (P : list type_decl) (k : nat) (v : val) : option val :=
  match k with
  | O => None
  | S k =>
      match v with
      | V_Loc _ => Some (V_Loc None)
      | V_None => Some V_None
      | V_Some w => option_map V_Some (untrack_val P k w)
      | V_Vec vs => option_map V_Vec (map_opt (untrack_val P k) vs)
      | V_Data d => option_map V_Data (untrack_data d)
      | _ =>
          match val_type v with
          | Some t =>
              match find_type P t with
              | Some d =>
                  if derives d "Untrack" then
                    run_untrack (untrack_val P k) (im_arms (expand_untrack (td_input d))) v
                  else untrack_by_hand P k t v
              | None => None
              end
          | None => None
          end
      end
  end.
