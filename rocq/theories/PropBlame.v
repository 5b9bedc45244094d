(** What the errors of the ESTree conversion say (C76). *)
From Coq Require Import String Ascii List NArith ZArith Bool.
From Verif Require Import Base F64 Word Token Punc Ast Track Node SpecTree Unjson Estree SpecEstree SpecBlame
  EstreeProofs EstreeConv EstreeComp EstreeImg EstreeMake EstreeSafe EstreeExtra EstreeBlame EstreeFault EstreeRefuse PropEstree.
Import ListNotations.
Local Open Scope string_scope.
Local Open Scope list_scope.
Local Arguments lit _ : simpl never.

(** *** C76 *)

(** An error of the conversion describes a fault that some part of the document has. *)
Theorem C76_errors_describe_faults : forall o e, into_script o = Err e -> fault o e.
Proof. exact into_script_blame. Qed.
Print Assumptions C76_errors_describe_faults.

(** A document is refused exactly when it has a fault; a faultless one is taken for a script. *)
Theorem C76_refused_iff_faulty : forall o,
  ((exists e, fault o e) <-> (exists e, into_script o = Err e))
  /\ ((forall e, ~ fault o e) <-> (exists s, into_script o = Ok s)).
Proof.
  intros o. pose proof (into_script_safe o) as S. pose proof (into_script_blame o) as B.
  assert (R : forall e s, fault o e -> into_script o = Ok s -> False).
  { intros e s F E. apply into_script_iff in E. exact (fault_refused _ _ F s E). }
  destruct (into_script o) as [s|e| |] eqn:E; try contradiction; split; split.
  - intros [e F]. destruct (R e s F eq_refl).
  - intros [e H]. discriminate H.
  - eauto.
  - intros _ e F. exact (R e s F eq_refl).
  - eauto.
  - eauto.
  - intros H. destruct (H e). now apply B.
  - intros [s H]. discriminate H.
Qed.
Print Assumptions C76_refused_iff_faulty.

(** The faults are real: no document that encodes a script has one. *)
Theorem C76_encodings_are_faultless : forall o s e, encodes o s -> ~ fault o e.
Proof. intros o s e [_ H] F. exact (fault_refused _ _ F s (est_mono _ _ H)). Qed.
Print Assumptions C76_encodings_are_faultless.

(** [for (let x = 1 in y);] with the parts as given. *)
Definition loop_in (kind : string) (decls : list json) (body : json) : json :=
  ob [("type", st "ForInStatement");
      ("left", ob [("type", st "VariableDeclaration"); ("kind", st kind); ("declarations", J_Array decls)]);
      ("right", ident "y"); ("body", body)].
Definition decl_of (x : string) (v : json) : json :=
  ob [("type", st "VariableDeclarator"); ("id", ident x); ("init", v)].
Definition empty : json := ob [("type", st "EmptyStatement")].

Example C76_case :
  into_script (prog [loop_in "let" [decl_of "x" J_Null] empty])
    = Ok (Body None [] [I_Stmt (S_ForIn None (FI_Let None (Simple (idn "x"))) (E_Id (idn "y")) (S_Empty None))])
  /\ into_script (prog [empty; loop_in "let" [decl_of "x" (ident "z")] empty])
    = Err (EE_UnexpectedInitializer (E_Id (idn "z")))
  /\ into_script (prog [loop_in "let" [] empty]) = Err (EE_Json (WrongArrayLength 1 0))
  /\ into_script (prog [loop_in "for" [decl_of "x" J_Null] empty])
    = Err (EE_Json (IllegalString (lit "var or let") (lit "for")))
  /\ into_script (prog [loop_in "let" [decl_of "x" J_Null] (J_Array [])])
    = Err (EE_Json (TypeMismatch (lit "object") Ty_Array))
  /\ into_script (prog [loop_in "let" [decl_of "x" J_Null] (ident "z")])
    = Err (EE_NodeTypeMismatch (lit "statement") Tg_Identifier)
  /\ into_script (prog [stmt_of (ob [("type", st "AssignmentExpression"); ("operator", st "=");
        ("left", lit_of (J_I64 1)); ("right", ident "y")])]) = Err (EE_InvalidLHS (lit "left")).
Proof. vm_compute. repeat split. Qed.
(** The fault of the third document, from the specification alone. *)
Example C76_case_fault : exists e, fault (prog [loop_in "let" [] empty]) e.
Proof.
  exists (EE_Json (WrongArrayLength 1 0)).
  pose (D := prog [loop_in "let" [] empty]). fold D.
  assert (P1 : part D R_body D) by constructor.
  assert (P2 : exists x, loop_in "let" [] empty = J_Object x /\ part D (R_item true) x).
  { eexists. split; [reflexivity|]. eapply P_element; [exact P1|left; apply A_body|apply has_lookup; reflexivity|now left]. }
  destruct P2 as (x & Ex & P2).
  assert (P3 : exists y, has x "left" (J_Object y) /\ part D R_for_in y).
  { injection Ex as <-. eexists. split; [apply has_lookup; reflexivity|].
    eapply P_object; [exact P2|left; eapply (A_item true _ "ForInStatement")|]; [apply has_lookup; reflexivity|now left|].
    apply has_lookup. reflexivity. }
  destruct P3 as (y & Hy & P3). eapply F_length; [exact P3|].
  injection Ex as <-. apply has_lookup in Hy. vm_compute in Hy. injection Hy as <-.
  apply (BL_for R_for_in _ []); [now left|apply has_lookup; reflexivity|apply has_lookup; reflexivity|discriminate].
Qed.
