# Formal model of dherman/esprit in Rocq (Coq 8.16.1)

## 1. What is modelled, and how

The development is in `rocq/theories`, logical root `Verif`.  Model files hold
definitions only; each definition cites the file and lines of `/repo` it models.

| Layer | Model file(s) | Code modelled |
|---|---|---|
| characters, positions | `Chars.v`, `Base.v` | `joker/src/char.rs`, `joker/src/track.rs` |
| f64 | `F64.v` | the fragment of IEEE binary64 used by `token.rs`, `lit.rs` |
| words, tokens | `Word.v`, `Token.v` | `joker/src/word.rs`, `token.rs`, `error.rs` |
| reader | `Reader.v` | `joker/src/reader.rs` |
| lexer | `Lexer.v` | `joker/src/lexer.rs` lines 13-724, complete |
| AST | `Punc.v`, `Ast.v`, `Track.v`, `AstEq.v` | `easter/src/*.rs` |
| derive macros | `Derive.v`, `Easter.v` | `derive/src/lib.rs`; the type declarations of `easter/src/*.rs` |
| cover grammar | `Cover.v` | `easter/src/cover.rs` |
| operator stack | `Stack.v` | `src/stack.rs` |
| parser | `PState.v`, `Parser.v`, `Api.v` | `src/{parser,state,track,context,tokens,expr,atom,error,lib}.rs` |
| JSON, ESTree | `Unjson.v`, `Estree.v` | `crates/unjson/src`, `crates/estree/src` |

Conventions.

* A `char` is an `N` (its code point); a `String` is a `list N`.
* `Result` and panics: every fallible function returns
  `res E A := Ok a | Err e | Panic k | NoFuel`.  `Panic` stands for every Rust
  panic (`unwrap` on `None`, `unreachable!`, `unimplemented!`, failed
  `debug_assert!`, arithmetic overflow when overflow checks are on).
* Loops are fuelled; `NoFuel` is a model artefact which is *proved* unreachable
  for the fuel the entry points use.
* Mutable state (`&mut self`) is threaded explicitly.
* External code is a parameter: Unicode identifier tables (crate `ucd`) and the
  overflow-check build flag live in a record `env` over which theorems quantify.
* `u32` positions are unbounded `N`.  A theorem bounds every position by the input
  length, so the model is exact for inputs shorter than 2^32 characters.

The parser is written with open recursion: each parsing function takes a record
holding the two recursive entry points (assignment expression, statement list
item) and the loop fuel; one fixpoint ties the knot.  Each function's lemma is then
stated separately, under the hypothesis that the record satisfies the invariant.

## 2. Plan per property

Numbers refer to `properties.jsonl`.

* C01, C02: concrete reader (buffer + iterator) refines the abstract reader
  (remaining text, position) for every sequence of operations; the position is
  compared with a declarative function of the consumed prefix.
* C03, C04, C05, C21: induction over the trivia loop; a declarative `trivia`
  grammar and a tiling relation on the input.
* C06: laws over arbitrary operation sequences of the token buffer.
* C07, C27, C28, C57: one Hoare-style pass over every parser function: fuel
  suffices, no parser-level panic, look-ahead at most two, context restored.
* C08-C10, C16, C17: per-literal specification relations between the characters of
  the span and the token.
* C11, C12: integer model of binary64 rounding.  C12 is refuted.
* C13-C15: finite tables plus string reasoning.  C15 is refuted (escaped spelling).
* C18 refuted with witnesses; C19 is the exact characterisation.
* C20 refuted (U+2007 and U+2008 are missing); the exact set is proved.
* C22, C23: invariant of the operator stack; uniqueness by induction on trees.
* C24-C26: structural induction on expressions.  C26 is refuted for trees with
  locations (which is what the parser builds) and proved for trees without.
* C29, C30: refuted with witnesses; C31 proved.  `RestProofs.v`, `PropRest.v`: C30 fails behind every
  accepted script: a derivation cannot tell the end of the text from a closing brace, and
  what follows a line terminator has no influence on the tokens before it.  `PortProofs.v`, `PropPorts.v`: for every text
  with an import or export behind directives and items, `module` panics and `program`
  panics or fails, by running the loops over the items as in C67.
* C35: besides the witness, `PropDirective.v` shows for every directive of every tree that
  the text compared with `use strict` starts with a quote.
* C32, C33: a relational (two-run) pass over every parser function.
* C34, C36, C38, C39, C41, C42, C44: further passes over every parser function, with
  declarative predicates on trees.
* C35, C37, C40, C43, C54, C55, C56: refuted with witnesses computed in the model, each
  with the strongest true variant where there is one.  For C43 that variant is proved
  over every parsed tree in the pass of C41 and C42 (`LocProofs`): all kinds of nodes but
  the seven named in `SpecLoc` (`starts_first`, `ends_last`) enclose what is below them.
* C56: besides the witness, `PropDivision.v` shows for every text that begins with a string
  literal and a division operator that no entry point parses the operator: a symbolic run of
  the directive prologue, with the exactness of the lexer (C66) for the two tokens.
* C40: besides the witness, `PropEnd.v` shows that line terminators behind an accepted text
  change neither verdict nor tree, and that the property holds in both directions for every
  text whose last token is not `break`, `continue` or `return`.  `EndText.v` relates the
  tokens of a text with and without a final line terminator, `EndProofs.v` shows that
  derivations do not look at the difference; C72 brings it back to the parser, with its
  hypotheses (no slash, no label nested in itself).
* C45-C47: structural induction on the mutually inductive AST.
* C48, C53: finite tables, plus strings.
* C49-C52: ESTree conversion against an independent encoder.

* C58, C66, C21: completeness of the lexer: every lexeme of the grammar is read
  (converse of C03), so the lexer decides exactly the grammar of `SpecLexer`;
  texts with the same lexemes then have the same tokens.
* C59: leaf nodes cover the text of their token.
* C60-C62: refuted with witnesses.  C60 also for every `new new f(..).x;`, by deriving its
  tree and applying completeness (`PropNew`); C61 for every loop of that form (below);
  C62 (and C37) for every `n: { n: c break n`: the inner label replaces the outer one and is
  removed with it (`PropLabel`).  `Refuse.v`: a text whose item is refused is refused by
  every entry point with the same error.
* C54, C55, C58: refuted by a witness; `PropEscape.v` proves how far the failure goes
  (only lone surrogates are altered, only escapes break the syntax of identifiers, only
  classes may contain line terminators).
* C63, C64: refuted for every document of the kind (`PropKeys.v`): every part of an
  accepted document is accepted as what is expected at its place, so a pattern at any
  depth is refused; and documents that differ in which property keys are computed are
  converted alike (induction over encodings); C65: induction over documents.
* C27 (number of steps): the parser is run in a counting monad (`Cost.v`, a copy of
  the definitions of `PState.v`, `Parser.v` and `Api.v`); forgetting the count gives
  the original (`CostErase.v`), and an amortised argument over every method pays for
  each step with the tokens consumed (`CostProofs.v`).
* C67: completeness of the parser: every derivation of the grammar is found by the
  entry points.  The grammar `GX sure` of `SpecGrammar` is used twice.  With
  `sure = false` it is the grammar that soundness (C34 and others) is stated for.
  With `sure = true` it also excludes the places where the code is known to reject or
  misread a program: a `/` or `/=` in a place where the parser asks for the next token
  with the wrong goal (C68), and a label nested in an equal label (C62).
* C68: refuted with a witness, and for every text that begins with `for (let` and a
  division operator: none of the four entry points returns a tree, whatever follows
  (`PropForLet`).  C61: the completeness lemmas for the parts of a `for-in` loop carry the
  parser up to the comma behind its object, where it fails (`PropForIn`).  C69: unambiguity, from soundness and completeness.
* C70: layout independence of the parse.  The instrumented parser (`Cost.v`) records
  the flag with which each token is requested.  A relation between a recorded run on
  one text and a run on another with the same tokens is preserved by every method
  (`LayProofs.v`); trees, tokens and errors are compared with their positions erased
  (`SpecBlank.v`).
* C71: honest errors.  The postconditions of `LocProofs.v` say for every method not
  only where the nodes it returns lie, but also that an error it returns carries a
  delivered token, a word or a place of the text (`SpecError.v`), that the deferred
  checks do, and that a panic of the lexer is one of reading the text's tokens.
* C72: exact acceptance.  `ExactProofs.v` shows that every derivation of a text without
  slashes whose nested labels differ meets the side conditions under which C67 finds it;
  with the soundness of C44 this is an equivalence.  The same file shows where script()
  can stop (the true part of C30).  `PropComments.v` widens the equivalence, and C40, to
  texts with slashes in comments and strings: a token that is no division and no regular
  expression does not depend on the lexer's mode.
* C73: decimal literals.  `Rounding.v` shows that the model of the standard library's
  decimal parsing returns the nearest double, as stated over the rationals in
  `SpecNumber.v`; `F64More.v` shows that the fold over the digits of a literal of another
  radix is exact when its value is a double (the true part of C12).  The true part of
  C15 follows from C13 and C14.
* C74: the derive macros as functions from declarations to match arms, with a semantics
  of the arms they generate (`Derive.v`); induction over fields and variants.
* C75: the declarations of easter transcribed (`Easter.v`); trees of `Ast.v` as values of
  these declarations.  Structural induction shows that running the generated methods
  agrees with the functions of `Track.v` that all other theorems use.
* C76: `SpecBlame.v` says which parts a document has and in which role, what each role
  asks of an object, and which errors describe a departure from it.  `EstreeBlame.v`
  follows every conversion function with the fields already taken out of the object;
  `EstreeFault.v` and `EstreeRefuse.v` show that all parts of an accepted document are
  in order.  The names of node types, operators and JSON types in the errors are the
  tables that C48 and C53 are about.
* C77, C78: exact locations.  The predicate on trees that the pass of `LocProofs.v`
  carries also says that a node of the kinds listed in `SpecLoc.v` starts with its first
  and ends with its last part, or with its own tokens.
* C79-C82: messages.  `Message.v` models the texts of positions, locations and errors.
  Numerals are shown to have the value they print, so texts can be taken apart again;
  the messages of the ESTree conversion are told apart by a table of their beginnings,
  for the errors that C76 says can occur.

* C83: reading on after an error.  `Resume.v` is the lexer once more, with errors that
  leave the lexer behind as the code does; `ResumeErase.v` shows that forgetting it gives
  `Lexer.v` back.  Every function moves the reader forward when it fails
  (`ResumeProofs.v`); with the specification of tokens, which holds from any place of the
  text, this gives what a client sees that asks again after errors.
* C85: `SpecJoin.v`: when a text ends with its line, when another starts afresh, and the text with
  all but its line terminators blanked.  `JoinProofs.v`: a derivation carries over when the end of the
  text is replaced by the first token of another statement, unless it ends with a statement list, which
  the lists of both texts prolong (`G_joined`, `items_joined`); the tokens of both texts are those of the
  whole (`tiles_join`).  `PropJoin.v`: the theorems, by C44 and C67.
  `PropJoinText.v`: when the second text begins with a line terminator its result alone is enough, for
  it has the same tokens behind blanks (`tiles_pad`), these decide the result but for positions (C70),
  and equality but for positions gives equality but for locations (`BlankTree.v`).
* C84: `Machine.v` is the reader once more, with the additions of `u32` in the order of
  the code.  Lines and columns never exceed offsets, so nothing overflows before the
  offset does; without checks remainders modulo 2^32 commute with the additions.

## 3. Files

| Purpose | Files |
|---|---|
| model | `Base Chars F64 Word Token Reader Lexer Punc Ast Track Cover Stack PState Parser Api LexClient AstEq Derive Easter Unjson Estree Message`; with a count of steps `Cost`; with the lexer left by errors `Resume`; with positions of machine words `Machine` |
| specification (no model functions; only data types and, for `env`, the Unicode tables) | `SpecReader SpecLexer SpecClient SpecLayout SpecStack Node SpecTree SpecGrammar SpecParser SpecPlace SpecEntry SpecLoc SpecEq SpecEstree SpecBlame SpecBlank SpecError SpecExact SpecJoin SpecNumber SpecDerive SpecMessage SpecKeys`, `SpecResume` (whose sessions call the modelled `read_token`) |
| proofs: reader, lexer | `Wp ReaderProofs LexWp LexLit LexerProofs LexTheorems F64Proofs F64More Rounding`; completeness `LexComp LexComp2 LexExact LexLayout`; after errors `ResumeErase ResumeProofs ResumeObject`; machine words `MachineProofs` |
| proofs: operator stack, trees, cover grammar | `StackProofs NodeProofs TreeProofs CoverProofs` |
| proofs: parser | `ParserWp ParserK ParserOps ParserExpr ParserStmt ParserTop GrammarProps` (soundness for the grammar), `KeepProofs SimProofs SimTop` (context and two-run simulation), `LocProofs LeafProofs` (locations, what errors carry), `CompBase CompTok CompExpr CompFun CompStmt CompTop CompEntry` (completeness for the grammar), `CostErase CostProofs` (number of steps), `LayBase LayBlank LayProofs` (two texts with the same tokens), `ExactProofs` (derivations of texts without slashes), `EndProofs EndText` (the end of the text), `RestProofs` (a closing brace in its place), `JoinProofs BlankTree` (another text in its place), `PortProofs` (imports and exports), `Refuse` (a refused item makes the text refused) |
| proofs: derive macros | `DeriveProofs EasterProofs EasterInj` |
| proofs: comparison, ESTree | `EqProofs`, `EstreeProofs EstreeConv EstreeComp EstreeImg EstreeMake EstreeSafe EstreeExtra EstreeBlame EstreeFault EstreeRefuse`, `EstreeKeys EstreeSits` (what is never read, what is always read) |
| proofs: messages | `MessageProofs` |
| the property theorems, each followed by `Print Assumptions` and an example | `PropReader` (C01, C02), `PropLexer` (C03-C06, C08-C20, C54, C55, C58), `PropLayout` (C21, C66), `PropBlank` (C70), `PropTree` (C22-C26, C45, C46, C48), `PropComplete` (C67, C69), `PropCost` (C27), `PropParser` (C07, C27, C28, C31, C34, C36, C38, C39, C44), `PropStrict` (C32, C33, C57), `PropLoc` (C41, C42, C43, C59, C77, C78), `PropError` (C71), `PropExact` (C72, C30), `PropEscape` (C54, C55, C58), `PropEnd` (C40), `PropRest` (C30), `PropJoin PropJoinText` (C85), `PropPorts` (C29), `PropDirective` (C35), `PropDivision` (C56), `PropForLet` (C68), `PropForIn` (C61), `PropNew` (C60), `PropLabel` (C62, C37), `PropComments` (C72, C40 for texts with comments), `PropNumber` (C73, C12, C15), `PropEq` (C47), `PropDerive` (C74, C75), `PropEstree` (C49-C53, C63-C65), `PropKeys` (C63, C64), `PropBlame` (C76), `PropMessage` (C79-C82), `PropResume` (C83), `PropMachine` (C84), `PropRefuted` (C29, C30, C35, C37, C40, C43, C56, C60-C62, C68) |

## 4. Trusted base

* Coq's kernel, including its virtual machine (`vm_compute`, used for concrete
  witnesses and finite tables).
* `Print Assumptions` is run on every property theorem in the `Prop*` files and
  answers `Closed under the global context` for each: no theorem depends on any
  axiom.  A library listing of the loaded modules also shows the fields of
  `Coq.ssr.ssrunder.Under_rel` (`Under_rel`, `Over_rel`, `Under_rel_from_rel`,
  `Under_relE`, `over_rel`, `over_rel_done`, `under_rel_done`): these are the fields of
  a module type of the standard library which is loaded with `ssreflect`; no theorem
  uses them.  No axiom, parameter or section-less variable is declared, and no proof is
  admitted.
* The correspondence between the Rust text and the model, by citation in the
  comment of each definition, and the simplifications stated there.

Modelled completely: the reader; the lexer; words, tokens and number values; the
AST with its tracking, comparison and cover-grammar functions; the derive macros, from
parsed declaration to the generated implementation (not `syn`, `quote` and the printing
of code), and the generated methods with a semantics of their own; the operator stack;
the parser with its context and error values; the entry points; the JSON field
access of `unjson`; the conversion functions of `estree`.

Not modelled:

* `Debug` formatting of trees, tokens and errors.  Modelled are the texts of operators,
  tags, positions, locations and reserved words, and `Display` and `description` of all
  errors; the quoted forms of characters and strings (std) are parameters there.
* `serde_json`: parsing of JSON text and the number conversions behind `get_i64`,
  `get_u64` and `get_f64`.  The model starts at a JSON value; JSON integers are
  unbounded, and theorems about conversion say `machine` where they need the range
  of the Rust type.
* The `Deserialize` wrapper of `estree`, which calls the modelled conversion.
* Test-only code (`joker/src/test.rs` and the test directories).
* Memory and stack exhaustion (the parser is recursive).
* The buffer of looked-ahead tokens holds exactly as many as requested; a real `VecDeque`
  may hold more.  That it is full is proved never to happen (C07), so nothing depends on it.
* Using a `Parser` again after it has returned an error: the type is private to the crate
  and each entry point makes a new one.  (For the `Lexer`, which is public, see C83.)
* `u32` wrap-around of positions (inputs of 2^32 characters and more) in the lexer and the
  parser, which only copy the positions of the reader.  For the reader see C84.

## 5. Reading the theorems

* `NoFuel` is excluded by theorems (C05 for the lexer, C27 for the parser, C50 for
  ESTree); `Panic` is characterised by C18/C19 and C28.
* Theorems about the parser quantify over every text and every table `V` with
  `ucd_ok V`: on ASCII the tables are exact, every start character is a part
  character, and no line terminator or whitespace is a part character;
  `ucd_ok_ascii` shows that an ASCII table meets it.
* A property that is false of the code has a theorem named `..._refuted`, which
  exhibits an input, and status `partial` with a note that starts with REFUTED.
* Labels are not part of the context flags that C57 proves restored: `with_labels`
  removes a label that was already there (C62).

## 6. Seeded bugs

`seeded/LOG.jsonl` records edits of the model and the theorems that stopped
proving.  The experiments run in a scratch copy: the edit is applied, the whole
development is rebuilt, each proof that fails is replaced by an admitted one, and
`Print Assumptions` on the property theorems then tells which of them depend on
failed proofs.
