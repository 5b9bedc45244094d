(** Typed access to JSON values.  Models crates/unjson.  [serde_json::Value] is
    external: a value is a tree, an object a finite map.  [get_i64], [get_u64] and
    [get_f64] are not modelled: they go through conversions of serde_json. *)
From Coq Require Import String Ascii List NArith ZArith Bool.
From Verif Require Import Base F64 Word.
Import ListNotations.

(** serde_json's [Value]: numbers keep the representation they were read in.  Integers
    are unbounded here. *)
Inductive json : Type :=
| J_Null
| J_Bool (b : bool)
| J_I64 (z : Z)
| J_U64 (n : N)
| J_F64 (f : f64)
| J_String (s : str)
| J_Array (a : list json)
| J_Object (o : list (str * json)).

(** unjson/src/ty.rs:16-17 [Array], [Object].  A [BTreeMap] is a list of entries here;
    the first entry with a key is the one that counts. *)
Definition array : Type := list json.
Definition object : Type := list (str * json).

(** [BTreeMap::get], [contains_key] and [remove] (std) *)
Fixpoint lookup (k : str) (o : object) : option json :=
  match o with
  | [] => None
  | (k', v) :: o' => if str_eqb k k' then Some v else lookup k o'
  end.
Fixpoint without (k : str) (o : object) : object :=
  match o with
  | [] => []
  | (k', v) :: o' => if str_eqb k k' then without k o' else (k', v) :: without k o'
  end.
Definition contains_key (k : str) (o : object) : bool :=
  match lookup k o with Some _ => true | None => false end.

(** unjson/src/ty.rs:7-14 *)
Inductive ty : Type := Ty_Null | Ty_Boolean | Ty_String | Ty_Number | Ty_Object | Ty_Array.

(** unjson/src/ty.rs:23-36 [ty] *)
Definition ty_of (v : json) : ty :=
  match v with
  | J_Null => Ty_Null
  | J_String _ => Ty_String
  | J_Object _ => Ty_Object
  | J_I64 _ => Ty_Number
  | J_U64 _ => Ty_Number
  | J_F64 _ => Ty_Number
  | J_Array _ => Ty_Array
  | J_Bool _ => Ty_Boolean
  end.

(** unjson/src/ty.rs:38-49 [Display] *)
Definition ty_text (t : ty) : str :=
  lit match t with
      | Ty_Null => "null"
      | Ty_String => "string"
      | Ty_Object => "object"
      | Ty_Number => "number"
      | Ty_Array => "array"
      | Ty_Boolean => "boolean"
      end.

(** unjson/src/error.rs:7-13 *)
Inductive json_error : Type :=
| TypeMismatch (expected : str) (t : ty)
| MissingField (name : str)
| IndexOutOfBounds (len index : nat)
| WrongArrayLength (expected actual : nat)
| IllegalString (expected actual : str).

Definition jres (A : Type) : Type := res json_error A.

(** [*v as f64] for integers: the nearest double *)
Definition i64_as_f64 (z : Z) : f64 := f64_of_Z z.
Definition u64_as_f64 (n : N) : f64 := f64_of_N n.

(** unjson/src/error.rs:37-39 [type_error] *)
Definition type_error {A} (expected : string) (v : json) : jres A := Err (TypeMismatch (lit expected) (ty_of v)).

(** unjson/src/unjson.rs:33-40 [as_number] *)
Definition as_number (v : json) : jres f64 :=
  match v with
  | J_I64 z => Ok (i64_as_f64 z)
  | J_U64 n => Ok (u64_as_f64 n)
  | J_F64 f => Ok f
  | _ => type_error "number" v
  end.
(** unjson/src/unjson.rs:42-48 *)
Definition as_str_opt (v : json) : jres (option str) :=
  match v with J_Null => Ok None | J_String s => Ok (Some s) | _ => type_error "string or null" v end.
(** unjson/src/unjson.rs:50-56 *)
Definition as_array_opt (v : json) : jres (option array) :=
  match v with J_Null => Ok None | J_Array a => Ok (Some a) | _ => type_error "array or null" v end.
(** unjson/src/unjson.rs:58-64 *)
Definition as_object_opt (v : json) : jres (option object) :=
  match v with J_Null => Ok None | J_Object o => Ok (Some o) | _ => type_error "object or null" v end.
(** unjson/src/unjson.rs:66-72 *)
Definition as_bool_opt (v : json) : jres (option bool) :=
  match v with J_Null => Ok None | J_Bool b => Ok (Some b) | _ => type_error "boolean or null" v end.
(** unjson/src/unjson.rs:74-80 *)
Definition as_i64_opt (v : json) : jres (option Z) :=
  match v with J_Null => Ok None | J_I64 z => Ok (Some z) | _ => type_error "i64 or null" v end.
(** unjson/src/unjson.rs:82-88 *)
Definition as_u64_opt (v : json) : jres (option N) :=
  match v with J_Null => Ok None | J_U64 n => Ok (Some n) | _ => type_error "u64 or null" v end.
(** unjson/src/unjson.rs:90-96 *)
Definition as_f64_opt (v : json) : jres (option f64) :=
  match v with J_Null => Ok None | J_F64 f => Ok (Some f) | _ => type_error "f64 or null" v end.
(** unjson/src/unjson.rs:98-106 *)
Definition as_number_opt (v : json) : jres (option f64) :=
  match v with
  | J_Null => Ok None
  | J_I64 z => Ok (Some (i64_as_f64 z))
  | J_U64 n => Ok (Some (u64_as_f64 n))
  | J_F64 f => Ok (Some f)
  | _ => type_error "number or null" v
  end.

(** unjson/src/unjson.rs:130-135 *)
Definition into_array (v : json) : jres array :=
  match v with J_Array a => Ok a | _ => type_error "array" v end.
(** unjson/src/unjson.rs:137-143 *)
Definition into_array_opt (v : json) : jres (option array) :=
  match v with J_Array a => Ok (Some a) | J_Null => Ok None | _ => type_error "array or null" v end.
(** unjson/src/unjson.rs:145-150 *)
Definition into_string (v : json) : jres str :=
  match v with J_String s => Ok s | _ => type_error "string" v end.
(** unjson/src/unjson.rs:152-158 *)
Definition into_string_opt (v : json) : jres (option str) :=
  match v with J_String s => Ok (Some s) | J_Null => Ok None | _ => type_error "string or null" v end.
(** unjson/src/unjson.rs:160-165 *)
Definition into_object (v : json) : jres object :=
  match v with J_Object o => Ok o | _ => type_error "object" v end.
(** unjson/src/unjson.rs:167-173 *)
Definition into_object_opt (v : json) : jres (option object) :=
  match v with J_Object o => Ok (Some o) | J_Null => Ok None | _ => type_error "object or null" v end.
(** unjson/src/unjson.rs:175-180 *)
Definition to_bool (v : json) : jres bool :=
  match v with J_Bool b => Ok b | _ => type_error "boolean" v end.
(** unjson/src/unjson.rs:182-188 *)
Definition to_bool_opt (v : json) : jres (option bool) :=
  match v with J_Bool b => Ok (Some b) | J_Null => Ok None | _ => type_error "boolean" v end.
(** unjson/src/unjson.rs:190-195 *)
Definition to_i64 (v : json) : jres Z :=
  match v with J_I64 z => Ok z | _ => type_error "i64" v end.
(** unjson/src/unjson.rs:197-203 *)
Definition to_i64_opt (v : json) : jres (option Z) :=
  match v with J_I64 z => Ok (Some z) | J_Null => Ok None | _ => type_error "i64" v end.
(** unjson/src/unjson.rs:205-210 *)
Definition to_u64 (v : json) : jres N :=
  match v with J_U64 n => Ok n | _ => type_error "u64" v end.
(** unjson/src/unjson.rs:212-218 *)
Definition to_u64_opt (v : json) : jres (option N) :=
  match v with J_U64 n => Ok (Some n) | J_Null => Ok None | _ => type_error "u64" v end.
(** unjson/src/unjson.rs:220-225 *)
Definition to_f64 (v : json) : jres f64 :=
  match v with J_F64 f => Ok f | _ => type_error "f64" v end.
(** unjson/src/unjson.rs:227-233 *)
Definition to_f64_opt (v : json) : jres (option f64) :=
  match v with J_F64 f => Ok (Some f) | J_Null => Ok None | _ => type_error "f64" v end.
(** unjson/src/unjson.rs:235-242 *)
Definition to_number (v : json) : jres f64 :=
  match v with
  | J_I64 z => Ok (i64_as_f64 z)
  | J_U64 n => Ok (u64_as_f64 n)
  | J_F64 f => Ok f
  | _ => type_error "number" v
  end.
(** unjson/src/unjson.rs:244-252 *)
Definition to_number_opt (v : json) : jres (option f64) :=
  match v with
  | J_I64 z => Ok (Some (i64_as_f64 z))
  | J_U64 n => Ok (Some (u64_as_f64 n))
  | J_F64 f => Ok (Some f)
  | J_Null => Ok None
  | _ => type_error "number" v
  end.

(** [Result::and_then] (std) *)
Definition and_then {E A B} (r : res E A) (f : A -> res E B) : res E B :=
  match r with Ok a => f a | Err e => Err e | Panic k => Panic k | NoFuel => NoFuel end.

(** unjson/src/unjson.rs:288-293 [get_field]; 295-360 the typed variants; [as_str],
    [as_array], [as_object], [as_bool] of serde_json succeed on the type they name *)
Definition get_field (o : object) (k : str) : jres json :=
  match lookup k o with Some v => Ok v | None => Err (MissingField k) end.
Definition get_as {A} (f : json -> jres A) (o : object) (k : str) : jres A := and_then (get_field o k) f.
Definition get_string := get_as into_string.
Definition get_string_opt := get_as as_str_opt.
Definition get_array := get_as into_array.
Definition get_array_opt := get_as as_array_opt.
Definition get_object := get_as into_object.
Definition get_object_opt := get_as as_object_opt.
Definition get_bool := get_as to_bool.
Definition get_bool_opt := get_as as_bool_opt.
Definition get_i64_opt := get_as as_i64_opt.
Definition get_u64_opt := get_as as_u64_opt.
Definition get_f64_opt := get_as as_f64_opt.
Definition get_number := get_as as_number.
Definition get_number_opt := get_as as_number_opt.

(** unjson/src/unjson.rs:393-398 [extract_field]; the object is the state *)
Definition extract_field (k : str) : M object json_error json :=
  fun o => match lookup k o with Some v => Ok (v, without k o) | None => Err (MissingField k) end.
(** unjson/src/unjson.rs:400-462: [extract_field] followed by a conversion *)
Definition lift {S E A} (r : res E A) : M S E A :=
  fun s => match r with Ok a => Ok (a, s) | Err e => Err e | Panic k => Panic k | NoFuel => NoFuel end.
Definition extract_as {A} (f : json -> jres A) (k : str) : M object json_error A :=
  v <- extract_field k ;; lift (f v).
Definition extract_string := extract_as into_string.
Definition extract_string_opt := extract_as into_string_opt.
Definition extract_array := extract_as into_array.
Definition extract_array_opt := extract_as into_array_opt.
Definition extract_object := extract_as into_object.
Definition extract_object_opt := extract_as into_object_opt.
Definition extract_bool := extract_as to_bool.
Definition extract_bool_opt := extract_as to_bool_opt.
Definition extract_i64 := extract_as to_i64.
Definition extract_i64_opt := extract_as to_i64_opt.
Definition extract_u64 := extract_as to_u64.
Definition extract_u64_opt := extract_as to_u64_opt.
Definition extract_f64 := extract_as to_f64.
Definition extract_f64_opt := extract_as to_f64_opt.
Definition extract_number := extract_as to_number.
Definition extract_number_opt := extract_as to_number_opt.
