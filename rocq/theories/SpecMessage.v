(** Specification of the texts of positions and errors, independent of the model. *)
From Coq Require Import String Ascii List NArith Bool.
From Verif Require Import Base Word Token Ast Cover PState Unjson Estree SpecReader.
Import ListNotations.
Local Open Scope string_scope.
Local Open Scope list_scope.
Local Open Scope N_scope.

(** The digits of numerals: 0 to 9, then a to f. *)
Definition symbols : str := lit "0123456789abcdef".
Definition digit (base c d : N) : Prop := d < base /\ nth_error symbols (N.to_nat d) = Some c.

(** [valued base s n]: the digits [s] have the value [n]. *)
Inductive valued (base : N) : str -> N -> Prop :=
| V_one c d : digit base c d -> valued base [c] d
| V_more s n c d : valued base s n -> digit base c d -> valued base (s ++ [c]) (n * base + d).

(** The numeral of [n]: its digits, without needless zeros. *)
Definition numeral (base : N) (s : str) (n : N) : Prop :=
  valued base s n /\ (hd_error s = Some 48 -> s = [48]).

(** ** Kinds of errors *)
(** [lex_alike]: two errors of the lexer of the same kind. *)
Inductive lex_alike : lex_error -> lex_error -> Prop :=
| LA_escape a b : lex_alike (IncompleteWordEscape a) (IncompleteWordEscape b)
| LA_comment : lex_alike UnterminatedComment UnterminatedComment
| LA_regexp a b : lex_alike (UnterminatedRegExp a) (UnterminatedRegExp b)
| LA_exponent a b : lex_alike (MissingExponent a) (MissingExponent b)
| LA_string a b : lex_alike (UnterminatedString a) (UnterminatedString b)
| LA_binary : lex_alike MissingBinaryDigits MissingBinaryDigits
| LA_octal : lex_alike MissingOctalDigits MissingOctalDigits
| LA_hex : lex_alike MissingHexDigits MissingHexDigits
| LA_char a b : lex_alike (IllegalChar a) (IllegalChar b)
| LA_digit a b : lex_alike (InvalidDigit a) (InvalidDigit b)
| LA_unicode a b : lex_alike (IllegalUnicode a) (IllegalUnicode b)
| LA_id a b : lex_alike (IdAfterNumber a) (IdAfterNumber b)
| LA_number a b : lex_alike (DigitAfterNumber a) (DigitAfterNumber b)
| LA_word a b : lex_alike (ReservedWordWithEscapes a) (ReservedWordWithEscapes b).

(** [lex_same]: of the same kind, about the same character, code unit or word. *)
Inductive lex_same : lex_error -> lex_error -> Prop :=
| LS_escape a b : lex_same (IncompleteWordEscape a) (IncompleteWordEscape b)
| LS_regexp a b : lex_same (UnterminatedRegExp a) (UnterminatedRegExp b)
| LS_exponent a b : lex_same (MissingExponent a) (MissingExponent b)
| LS_string a b : lex_same (UnterminatedString a) (UnterminatedString b)
| LS_id a b : lex_same (IdAfterNumber a) (IdAfterNumber b)
| LS_number a b : lex_same (DigitAfterNumber a) (DigitAfterNumber b)
| LS_equal e : lex_same e e.

Inductive cover_alike : cover_error -> cover_error -> Prop :=
| CA_target a b : cover_alike (InvalidAssignTarget a) (InvalidAssignTarget b)
| CA_prop a b : cover_alike (InvalidPropPatt a) (InvalidPropPatt b).

(** [alike]: two errors of the parser of the same kind. *)
Inductive alike : perror -> perror -> Prop :=
| PA_token a b : alike (UnexpectedToken a) (UnexpectedToken b)
| PA_asi a b : alike (FailedASI a) (FailedASI b)
| PA_lex a b : lex_alike a b -> alike (LexError a) (LexError b)
| PA_return a b : alike (TopLevelReturn a) (TopLevelReturn b)
| PA_break a b : alike (IllegalBreak a) (IllegalBreak b)
| PA_continue a b : alike (IllegalContinue a) (IllegalContinue b)
| PA_label a b : alike (InvalidLabel a) (InvalidLabel b)
| PA_label_type a b : alike (InvalidLabelType a) (InvalidLabelType b)
| PA_keyword a b x y : alike (ContextualKeyword a x) (ContextualKeyword b y)
| PA_binding a b x y : alike (IllegalStrictBinding a x) (IllegalStrictBinding b y)
| PA_directive a b x y : alike (UnexpectedDirective a x) (UnexpectedDirective b y)
| PA_module a b : alike (UnexpectedModule a) (UnexpectedModule b)
| PA_import a b : alike (ImportInScript a) (ImportInScript b)
| PA_export a b : alike (ExportInScript a) (ExportInScript b)
| PA_for_let a b : alike (ForOfLetExpr a) (ForOfLetExpr b)
| PA_default a b : alike (DuplicateDefault a) (DuplicateDefault b)
| PA_with a b : alike (StrictWith a) (StrictWith b)
| PA_throw a b : alike (ThrowArgument a) (ThrowArgument b)
| PA_try a b : alike (OrphanTry a) (OrphanTry b)
| PA_left a b x y : cover_alike x y -> alike (InvalidLHS a x) (InvalidLHS b y)
| PA_feature a b : alike (UnsupportedFeature a) (UnsupportedFeature b)
| PA_param a b : alike (CompoundParamWithUseStrict a) (CompoundParamWithUseStrict b).

(** [est_same]: equal errors of the conversion from ESTree, except for trees and fields
    that messages do not show. *)
Inductive est_same : est_error -> est_error -> Prop :=
| ES_equal e : est_same e e
| ES_initializer a b : est_same (EE_UnexpectedInitializer a) (EE_UnexpectedInitializer b)
| ES_left a b : est_same (EE_InvalidLHS a) (EE_InvalidLHS b)
| ES_constant a b : est_same (EE_UninitializedPattern (Simple a)) (EE_UninitializedPattern (Simple b)).

(** [in_order m l]: the text [m] contains the texts [l], one after the other. *)
Fixpoint in_order (m : str) (l : list str) : Prop :=
  match l with
  | [] => True
  | x :: l' => exists before after, m = before ++ x ++ after /\ in_order after l'
  end.
