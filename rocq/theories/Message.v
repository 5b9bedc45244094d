(** The texts of errors and positions.
    Models [Display], [Debug] and [std::error::Error] of joker/src/error.rs,
    joker/src/track.rs, easter/src/cover.rs, src/error.rs, unjson/src/error.rs and
    estree/src/error.rs.

    [write_fmt] into a [String] does not fail, so a text is the returned value.  The
    [Debug] form of a character and of a string (std: quotes and escapes chosen by
    tables of Unicode) are parameters [dbg_char] and [dbg_str]. *)
From Coq Require Import String Ascii List NArith Bool.
From Verif Require Import Base Word Token Ast Cover PState Unjson Estree.
Import ListNotations.
Local Open Scope string_scope.
Local Open Scope list_scope.
Local Open Scope N_scope.

(** std: [{}] and [{:x}] of unsigned integers.  The digits from the last to the first;
    the bit length bounds their number. *)
Definition digit_char (d : N) : N := if d <? 10 then 48 + d else 87 + d.
Fixpoint put_digits (fuel : nat) (base n : N) (acc : str) : str :=
  let acc' := digit_char (n mod base) :: acc in
  match fuel with
  | O => acc'
  | S f => if n / base =? 0 then acc' else put_digits f base (n / base) acc'
  end.
Definition put_num (base n : N) : str := put_digits (N.to_nat (N.size n)) base n [].

(** std: [{:04x}]: at least four digits, with zeros in front *)
Definition pad4 (s : str) : str := repeat 48 (4 - List.length s)%nat ++ s.

(** joker/src/track.rs:20-24 [Debug for Posn].  [+ 1] on [u32] overflows at 2^32 - 1
    (not modelled: a text has fewer lines and columns, see [P_overflow]). *)
Definition posn_text (p : posn) : str :=
  put_num 10 (line p + 1) ++ lit ":" ++ put_num 10 (column p + 1).

(** joker/src/track.rs:32-36 [Debug for Span] *)
Definition span_text (s : span) : str :=
  posn_text (sp_start s) ++ lit ".." ++ posn_text (sp_end s).

(** joker/src/word.rs:31 derived [Debug for Reserved]: the name of the constructor *)
Definition reserved_debug (r : reserved) : str :=
  lit match r with
      | R_Null => "Null" | R_True => "True" | R_False => "False" | R_Break => "Break"
      | R_Case => "Case" | R_Catch => "Catch" | R_Class => "Class" | R_Const => "Const"
      | R_Continue => "Continue" | R_Debugger => "Debugger" | R_Default => "Default"
      | R_Delete => "Delete" | R_Do => "Do" | R_Else => "Else" | R_Export => "Export"
      | R_Extends => "Extends" | R_Finally => "Finally" | R_For => "For"
      | R_Function => "Function" | R_If => "If" | R_Import => "Import" | R_In => "In"
      | R_Instanceof => "Instanceof" | R_New => "New" | R_Return => "Return"
      | R_Super => "Super" | R_Switch => "Switch" | R_This => "This" | R_Throw => "Throw"
      | R_Try => "Try" | R_Typeof => "Typeof" | R_Var => "Var" | R_Void => "Void"
      | R_While => "While" | R_With => "With" | R_Enum => "Enum"
      end.

(** joker/src/error.rs:37-54 [description] *)
Definition lex_description (e : lex_error) : str :=
  lit match e with
      | IncompleteWordEscape _ => "incomplete word escape"
      | UnterminatedComment => "unterminated block comment"
      | UnterminatedRegExp _ => "unterminated regexp literal"
      | MissingExponent _ => "missing exponent"
      | UnterminatedString _ => "unterminated string"
      | MissingBinaryDigits => "missing binary digits"
      | MissingOctalDigits => "missing octal digits"
      | MissingHexDigits => "missing hex digits"
      | IllegalChar _ => "illegal character"
      | InvalidDigit _ => "invalid digit"
      | IllegalUnicode _ => "illegal code unit"
      | IdAfterNumber _ => "identifier starts immediately after numeric literal"
      | DigitAfterNumber _ => "numeric literal starts immediately after previous numeric literal"
      | ReservedWordWithEscapes _ => "reserved word with escapes"
      end.

(** joker/src/error.rs:24-34 [Display] *)
Definition lex_display (dbg_char : N -> str) (e : lex_error) : str :=
  match e with
  | IllegalChar ch | InvalidDigit ch => lex_description e ++ lit ": " ++ dbg_char ch
  | ReservedWordWithEscapes w => lex_description e ++ lit ": " ++ reserved_debug w
  | IllegalUnicode u => lex_description e ++ lit ": \u{" ++ pad4 (put_num 16 u) ++ lit "}"
  | _ => lex_description e
  end.

(** easter/src/cover.rs:22-27 [description] *)
Definition cover_description (e : cover_error) : str :=
  lit match e with
      | InvalidAssignTarget _ => "invalid assignment pattern"
      | InvalidPropPatt _ => "invalid object property in assignment pattern"
      end.
(** easter/src/cover.rs:15-19 [Display] *)
Definition cover_display (e : cover_error) : str := cover_description e.

(** src/error.rs:41-66 [description] *)
Definition description (e : perror) : str :=
  match e with
  | UnexpectedToken _ => lit "unexpected token"
  | FailedASI _ => lit "failed ASI"
  | LexError err => lex_description err
  | TopLevelReturn _ => lit "top level return"
  | IllegalBreak _ => lit "illegal break"
  | IllegalContinue _ => lit "illegal continue"
  | InvalidLabel _ => lit "invalid label"
  | InvalidLabelType _ => lit "invalid label type"
  | ContextualKeyword _ _ => lit "contextual keyword"
  | IllegalStrictBinding _ _ => lit "illegal strict binding"
  | UnexpectedDirective _ _ => lit "unexpected directive"
  | UnexpectedModule _ => lit "unexpected module"
  | ImportInScript _ => lit "import in script"
  | ExportInScript _ => lit "export in script"
  | ForOfLetExpr _ => lit "for-of-let expr"
  | DuplicateDefault _ => lit "duplicate default"
  | StrictWith _ => lit "strict with"
  | ThrowArgument _ => lit "throw argument"
  | OrphanTry _ => lit "orphan try"
  | InvalidLHS _ err => cover_description err
  | UnsupportedFeature _ => lit "unsupported feature"
  | CompoundParamWithUseStrict _ => lit "compound param with use strict"
  end.

(** src/error.rs:68-74 [cause]: an error of the lexer or of the conversion to patterns *)
Definition cause (e : perror) : option (lex_error + cover_error) :=
  match e with
  | LexError joker_err => Some (inl joker_err)
  | InvalidLHS _ cover_err => Some (inr cover_err)
  | _ => None
  end.

(** src/error.rs:78-82 [Display] *)
Definition display (e : perror) : str := description e.

(** unjson/src/error.rs:15-35 [Display] *)
Definition json_display (dbg_str : str -> str) (e : json_error) : str :=
  match e with
  | TypeMismatch expected ty => lit "expected " ++ expected ++ lit ", got " ++ ty_text ty
  | MissingField name => lit "missing object field '" ++ name ++ lit "'"
  | IndexOutOfBounds len index =>
      lit "array index " ++ put_num 10 (N.of_nat index) ++ lit " out of bounds (length "
      ++ put_num 10 (N.of_nat len) ++ lit ")"
  | WrongArrayLength expected actual =>
      lit "expected array of length " ++ put_num 10 (N.of_nat expected)
      ++ lit ", got array of length " ++ put_num 10 (N.of_nat actual)
  | IllegalString expected actual => lit "expected " ++ expected ++ lit ", got " ++ dbg_str actual
  end.

(** estree/src/error.rs:22-50 [Display]; the text of a tag is estree/src/tag.rs:57-61 *)
Definition est_display (dbg_str : str -> str) (e : est_error) : str :=
  match e with
  | EE_Json err => json_display dbg_str err
  | EE_InvalidTypeTag actual => lit "expected node type tag, got " ++ actual
  | EE_NodeTypeMismatch expected actual =>
      lit "expected " ++ expected ++ lit " node, got " ++ tag_text actual
  | EE_UnexpectedInitializer _ => lit "unexpected initializer in for-in loop"
  | EE_InvalidLHS _ => lit "invalid left-hand side of assignment"
  | EE_UninitializedPattern p =>
      let ty := match p with
                | Compound (C_Arr _ _ _) => "array"
                | Compound (C_Obj _ _) => "object"
                | Simple _ => "constant"
                end in
      lit "uninitialized " ++ lit ty ++ lit " pattern in declarator"
  end.
