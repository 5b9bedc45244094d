(** Character classes.  Models joker/src/char.rs. *)
From Coq Require Import String Ascii List NArith Bool.
From Verif Require Import Base.
Import ListNotations.
Open Scope N_scope.

(** What the code takes from outside the repository: the two Unicode property
    tests of crate [ucd], and whether the build has overflow checks (the cargo
    [dev] profile has, [release] has not). *)
Record env : Type := Env {
  id_start_u : N -> bool;        (* ucd::Codepoint::is_id_start *)
  id_continue_u : N -> bool;     (* ucd::Codepoint::is_id_continue *)
  overflow_checks : bool
}.

Definition c_lf : N := 10.
Definition c_cr : N := 13.
Definition c_ls : N := 8232.  (* U+2028 *)
Definition c_ps : N := 8233.  (* U+2029 *)

(** joker/src/char.rs:16-21 *)
Definition is_es_newline (c : N) : bool :=
  (c =? 10) || (c =? 13) || (c =? 8232) || (c =? 8233).

(** joker/src/char.rs:23-31 *)
Definition is_es_whitespace (c : N) : bool :=
  (c =? 9) || (c =? 11) || (c =? 12) || (c =? 32) || (c =? 160)
  || (c =? 5760)                                          (* U+1680 *)
  || (c =? 8192) || (c =? 8193) || (c =? 8194) || (c =? 8195) || (c =? 8196)
  || (c =? 8197) || (c =? 8198) || (c =? 8201) || (c =? 8202)
  || (c =? 8239)                                          (* U+202F *)
  || (c =? 8287)                                          (* U+205F *)
  || (c =? 12288)                                         (* U+3000 *)
  || (c =? 65279).                                        (* U+FEFF *)

Section WithEnv.
Context (V : env).

(** joker/src/char.rs:33-38 *)
Definition is_es_identifier_start (c : N) : bool :=
  (c =? 36) || (c =? 95) || id_start_u V c.

(** joker/src/char.rs:40-45 *)
Definition is_es_identifier_continue (c : N) : bool :=
  (c =? 36) || (c =? 95) || (c =? 8204) || (c =? 8205) || id_continue_u V c.
End WithEnv.

(** joker/src/char.rs:47-57 *)
Definition unescape (c : N) : N :=
  if c =? chr "n" then 10
  else if c =? chr "r" then 13
  else if c =? chr "t" then 9
  else if c =? chr "b" then 8
  else if c =? chr "v" then 11
  else if c =? chr "f" then 12
  else c.

Definition between (lo c hi : N) : bool := (lo <=? c) && (c <=? hi).

(** joker/src/char.rs:59-66 *)
Definition is_es_hex_digit (c : N) : bool :=
  between 48 c 57 || between 97 c 102 || between 65 c 70.
(** joker/src/char.rs:68-73 *)
Definition is_es_dec_digit (c : N) : bool := between 48 c 57.
(** joker/src/char.rs:75-80 *)
Definition is_es_oct_digit (c : N) : bool := between 48 c 55.
(** joker/src/char.rs:82-84 *)
Definition is_es_bin_digit (c : N) : bool := (c =? 48) || (c =? 49).

(** std [char::to_digit] (for ASCII alphanumerics; other characters have no digit value). *)
Definition to_digit (c radix : N) : option N :=
  let d := if between 48 c 57 then Some (c - 48)
           else if between 97 c 122 then Some (c - 87)
           else if between 65 c 90 then Some (c - 55)
           else None in
  match d with
  | Some d => if d <? radix then Some d else None
  | None => None
  end.

(** std [char::from_u32]. *)
Definition from_u32 (n : N) : option N :=
  if (n <? 55296) || (between 57344 n 1114111) then Some n else None.

(** std [char::is_lowercase] / [is_alphabetic], restricted to ASCII: the code only
    applies them to one of [x X o O b B] (lexer.rs:330,334). *)
Definition is_lowercase (c : N) : bool := between 97 c 122.
Definition is_alphabetic (c : N) : bool := between 97 c 122 || between 65 c 90.

(** A concrete environment (ASCII identifiers only), used in examples. *)
Definition ascii_alpha (c : N) : bool := between 97 c 122 || between 65 c 90.
Definition env_ascii : env :=
  Env ascii_alpha (fun c => ascii_alpha c || between 48 c 57 || (c =? 95)) false.
Definition env_ascii_checked : env :=
  Env ascii_alpha (fun c => ascii_alpha c || between 48 c 57 || (c =? 95)) true.

(** What is assumed of the Unicode tables where it matters: the ASCII range is
    right, line terminators and whitespace are not identifier characters, and
    identifier starts are identifier continuations. *)
Record ucd_ok (V : env) : Prop := {
  ucd_start_ascii : forall c, c < 128 -> id_start_u V c = ascii_alpha c;
  ucd_cont_ascii : forall c, c < 128 ->
      id_continue_u V c = (ascii_alpha c || between 48 c 57 || (c =? 95));
  ucd_start_cont : forall c, id_start_u V c = true -> id_continue_u V c = true;
  ucd_cont_newline : forall c, is_es_newline c = true -> id_continue_u V c = false;
  ucd_cont_space : forall c, is_es_whitespace c = true -> id_continue_u V c = false
}.
