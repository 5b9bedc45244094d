(** Reinterpreting expressions as assignment targets and patterns.
    Models easter/src/cover.rs. *)
From Coq Require Import String Ascii List NArith Bool.
From Verif Require Import Base Word Token Punc Ast Track.
Import ListNotations.

(** easter/src/cover.rs:10-13 *)
Inductive cover_error : Type :=
| InvalidAssignTarget (l : loc)
| InvalidPropPatt (l : loc).

(** Results here are [inl error] or [inr value]. *)
Definition cres (A : Type) : Type := (cover_error + A)%type.

(** easter/src/cover.rs:39-46 [into_assign_target] *)
Definition into_assign_target (e : expr) : cres target :=
  match e with
  | E_Id i => inr (AT_Id i)
  | E_Dot l o k => inr (AT_Dot l o k)
  | E_Brack l o k => inr (AT_Brack l o k)
  | _ => inl (InvalidAssignTarget (expr_loc e))
  end.

(** What becomes of one element of an array literal (cover.rs:66-82): a hole, an
    expression with its conversion, or a spread with its location and the
    conversion of its argument (only used for the last element). *)
Inductive celt : Type :=
| CHole
| CElt (r : cres (patt target))
| CSpread (l : loc) (r : cres (patt target)).

(** easter/src/cover.rs:76-82: all elements but a final rest *)
Fixpoint cover_elts (es : list celt) : cres (list (option (patt target))) :=
  match es with
  | [] => inr []
  | e :: es' =>
      match e with
      | CSpread l _ => inl (InvalidAssignTarget l)
      | CHole => match cover_elts es' with inl x => inl x | inr ps => inr (None :: ps) end
      | CElt (inl x) => inl x
      | CElt (inr p) => match cover_elts es' with inl x => inl x | inr ps => inr (Some p :: ps) end
      end
  end.

(** easter/src/cover.rs:63-84: pop the last element, convert it first if it is a
    spread without location, then the others in order *)
Definition cover_arr (l : loc) (es : list celt) : cres (patt target) :=
  match rev es with
  | CSpread None r :: es' =>
      match r with
      | inl x => inl x
      | inr p =>
          match cover_elts (rev es') with
          | inl x => inl x
          | inr ps => inr (Compound (C_Arr l ps (Some (RestPatt None p))))
          end
      end
  | _ =>
      match cover_elts es with
      | inl x => inl x
      | inr ps => inr (Compound (C_Arr l ps None))
      end
  end.

(** easter/src/cover.rs:57-60 *)
Fixpoint cover_props (ps : list (cres (prop_patt target))) : cres (list (prop_patt target)) :=
  match ps with
  | [] => inr []
  | inl x :: _ => inl x
  | inr p :: ps' => match cover_props ps' with inl x => inl x | inr qs => inr (p :: qs) end
  end.

(** easter/src/cover.rs:54-87 [into_assign_patt]; 95-106 [into_assign_prop] *)
Fixpoint into_assign_patt (e : expr) : cres (patt target) :=
  match e with
  | E_Obj l props =>
      match cover_props (map into_assign_prop props) with
      | inl x => inl x
      | inr ps => inr (Compound (C_Obj l ps))
      end
  | E_Arr l es =>
      cover_arr l (map (fun oe => match oe with None => CHole | Some i => into_celt i end) es)
  | _ =>
      match into_assign_target e with
      | inl x => inl x
      | inr t => inr (Simple t)
      end
  end
with into_celt (i : eli) : celt :=
  match i with
  | L_Expr e => CElt (into_assign_patt e)
  | L_Spread l e => CSpread l (into_assign_patt e)
  end
with into_assign_prop (p : prop) : cres (prop_patt target) :=
  match p with
  | Pr_Regular l k v =>
      match into_prop_val v with
      | Some (inr q) => inr (PP_Regular l k q)
      | Some (inl x) => inl x
      | None => inl (InvalidPropPatt l)
      end
  | Pr_Shorthand i => inr (PP_Shorthand i)
  | Pr_Method f => inl (InvalidPropPatt (fn_loc f))
  end
with into_prop_val (v : prop_val) : option (cres (patt target)) :=
  match v with
  | PV_Init e => Some (into_assign_patt e)
  | PV_Get _ _ => None
  | PV_Set _ _ _ => None
  end.
