{"id": "C01", "title": "Reader lookahead is transparent", "statement": "However calls that look ahead by up to four characters and calls that consume one character are interleaved, the characters consumed are exactly the input characters in order, a look-ahead of n returns the n-th character not yet consumed (nothing past the end), and looking ahead never changes the reported position.", "quantifier": "every input string and every interleaving of look-ahead and consume calls", "why_tests_cant": "the interleavings are unbounded", "anchors": ["crates/joker/src/reader.rs:Reader::peek", "crates/joker/src/reader.rs:Reader::next"]}
{"id": "C02", "title": "Source positions are exact", "statement": "After consuming any prefix of the input, the reported offset is the number of characters consumed, the line is the number of line terminators in it (CR LF counting once, when the LF is consumed) and the column is the number of characters consumed since the last counted line terminator.", "quantifier": "every input string and every prefix of it", "why_tests_cant": "any mixture of CR, LF, CRLF, U+2028, U+2029 is possible", "anchors": ["crates/joker/src/reader.rs:Reader::next", "crates/joker/src/track.rs:Posn"]}
{"id": "C03", "title": "Tokens tile the input", "statement": "Reading tokens until EOF partitions the input: every token's span is inside the input, spans are in increasing order and do not overlap, and what lies between two tokens (and before the first, after the last) is nothing but whitespace, line terminators and comments.", "quantifier": "every input and every choice of the operator/regexp flag at each read for which the lexer returns tokens", "why_tests_cant": "inputs are unbounded and the flag varies per token", "anchors": ["crates/joker/src/lexer.rs:Lexer::read_next_token", "crates/joker/src/lexer.rs:SpanTracker::end"]}
{"id": "C04", "title": "The newline flag is exact", "statement": "A token's newline flag is set if and only if at least one line terminator character lies between the end of the previous token and the start of this one, including inside a block comment.", "quantifier": "every lexer state and input", "why_tests_cant": "depends on arbitrary runs of trivia", "anchors": ["crates/joker/src/lexer.rs:Lexer::read_next_token", "crates/joker/src/lexer.rs:Lexer::skip_block_comment", "crates/joker/src/token.rs:Token"]}
{"id": "C05", "title": "The lexer always terminates and consumes", "statement": "Every token request returns (a token, an error, or a panic) after finitely many steps bounded by the characters left; every token other than EOF consumes at least one character; at the end of the input every further request yields EOF again at the same position.", "quantifier": "every lexer state, every input, both flag values", "why_tests_cant": "non-termination cannot be observed by testing", "anchors": ["crates/joker/src/lexer.rs:Lexer::read_next_token"]}
{"id": "C06", "title": "Token push-back is transparent", "statement": "Peeking never changes the sequence of tokens subsequently read; reading after a peek returns the peeked token; pushing back the token just read restores the previous sequence; re-reading after a successful peek never panics.", "quantifier": "every lexer state and every sequence of peek/read/unread calls", "why_tests_cant": "sequences of operations are unbounded", "anchors": ["crates/joker/src/lexer.rs:Lexer::peek_token", "crates/joker/src/lexer.rs:Lexer::read_token", "crates/joker/src/lexer.rs:Lexer::unread_token", "crates/joker/src/lexer.rs:Lexer::reread_token"]}
{"id": "C07", "title": "The two-token look-ahead buffer never overflows", "statement": "While parsing, the token look-ahead buffer never holds more than two tokens, so the buffer-full assertion never fires.", "quantifier": "every input and every entry point (script, strict, module, program)", "why_tests_cant": "depends on all paths through the parser", "anchors": ["crates/joker/src/lexer.rs:Lexer::unread_token", "src/parser.rs:Parser::match_directive_opt", "src/parser.rs:Parser::stmt_list_item"]}
{"id": "C08", "title": "String literal source is verbatim", "statement": "The source field of a string literal token is exactly the characters of the input covered by the token's span, quotes, escapes and line continuations included.", "quantifier": "every input on which a string token is returned", "why_tests_cant": "all escape sequences in all orders", "anchors": ["crates/joker/src/lexer.rs:Lexer::read_string", "crates/joker/src/lexer.rs:Lexer::read_string_escape", "crates/joker/src/token.rs:StringLiteral"]}
{"id": "C09", "title": "String literal value is the cooked value", "statement": "The value field of a string literal token is the concatenation of the values of its parts: ordinary characters stand for themselves, simple, octal (at most three digits, at most 255), hexadecimal and unicode escapes for the character with that code ('?' when there is none), and line continuations for nothing.", "quantifier": "every string token the lexer returns", "why_tests_cant": "all escape sequences in all orders", "anchors": ["crates/joker/src/lexer.rs:Lexer::read_string_escape", "crates/joker/src/lexer.rs:Lexer::read_unicode_escape_seq", "crates/joker/src/char.rs:unescape"]}
{"id": "C10", "title": "Number literals are lossless", "statement": "Rendering the NumberSource stored in a number token (radix prefix and its case, digits, fraction, exponent letter, sign and digits) gives back exactly the characters covered by the token's span.", "quantifier": "every input on which a number token is returned", "why_tests_cant": "unbounded digit strings", "anchors": ["crates/joker/src/lexer.rs:Lexer::read_number", "crates/joker/src/lexer.rs:Lexer::read_radix_int", "crates/joker/src/lexer.rs:Lexer::read_exp_part", "crates/joker/src/token.rs:NumberSource"]}
{"id": "C11", "title": "Integer literals below 2^53 have their exact value", "statement": "The value of a binary, octal, legacy octal or hexadecimal literal whose mathematical value is below 2^53 is exactly that value, and computing it never panics; the same holds for decimal integer literals without exponent under the documented contract of f64 parsing.", "quantifier": "every digit string", "why_tests_cant": "unbounded digit strings, including leading zeros", "anchors": ["crates/joker/src/token.rs:NumberSource::value"]}
{"id": "C12", "title": "Large radix literals are correctly rounded", "statement": "A hexadecimal, octal or binary literal evaluates to the double nearest to its mathematical value.", "quantifier": "every digit string", "why_tests_cant": "counterexamples need more than 53 significant bits", "anchors": ["crates/joker/src/token.rs:NumberSource::value"]}
{"id": "C13", "title": "Reserved words are recognised exactly", "statement": "A word spelled without escapes is a keyword token if and only if it is one of the reserved words, and then it is that one; spelled with an escape it is rejected; every other word becomes an identifier with exactly that text.", "quantifier": "every word, with and without escapes", "why_tests_cant": "the set of words is infinite", "anchors": ["crates/joker/src/word.rs:Map::tokenize", "crates/joker/src/word.rs:Reserved::name", "crates/joker/src/lexer.rs:Lexer::read_word"]}
{"id": "C14", "title": "Contextual names are canonical", "statement": "Names built from text are canonical: converting any text to a name and back gives the text, equal names have equal text, and equal texts give equal names when no escapes are used; every atom and every reserved word survives the round trip through its text, and no text is both.", "quantifier": "every string, atom and reserved word", "why_tests_cant": "the set of strings is infinite", "anchors": ["crates/joker/src/word.rs:Name::from", "crates/joker/src/word.rs:Atom::name", "crates/joker/src/word.rs:Reserved::name"]}
{"id": "C15", "title": "Identifier identity does not depend on spelling", "statement": "Two identifier tokens whose texts are equal after decoding escapes carry equal names.", "quantifier": "every pair of identifier spellings", "why_tests_cant": "escape spellings are unbounded", "anchors": ["crates/joker/src/word.rs:Map::tokenize", "crates/joker/src/lexer.rs:Lexer::read_word_escape"]}
{"id": "C16", "title": "Punctuators obey longest match", "statement": "When the lexer returns a punctuator token, its text is a punctuator spelling, it is the input at the token's span, and no longer punctuator spelling is a prefix of the input there.", "quantifier": "every input and position", "why_tests_cant": "all continuations of each prefix", "anchors": ["crates/joker/src/lexer.rs:Lexer::read_next_token", "crates/joker/src/lexer.rs:Lexer::read_punc2_3"]}
{"id": "C17", "title": "Regular expression literals are verbatim and well delimited", "statement": "A regexp token's pattern is exactly the input text between its opening slash and the first slash that is neither escaped nor inside a class, it contains no line terminator outside a class, and when the flags are spelled without escapes they are the identifier characters that follow.", "quantifier": "every input on which a regexp token is returned", "why_tests_cant": "unbounded nesting of classes and escapes", "anchors": ["crates/joker/src/lexer.rs:Lexer::read_regexp", "crates/joker/src/lexer.rs:Lexer::read_regexp_class", "crates/joker/src/lexer.rs:Lexer::read_regexp_backslash"]}
{"id": "C18", "title": "The lexer never panics", "statement": "Lexing any input returns a token or an error value, never a panic.", "quantifier": "every input", "why_tests_cant": "panics hide at ends of input inside literals", "anchors": ["crates/joker/src/lexer.rs:Lexer::reread", "crates/joker/src/lexer.rs:Lexer::read_regexp", "crates/joker/src/lexer.rs:Lexer::read_unicode_escape_seq", "crates/joker/src/lexer.rs:add_digits"]}
{"id": "C19", "title": "Lexer panics are confined", "statement": "The only ways token reading can panic are: end of input inside a regular expression literal body or class, end of input inside a braced unicode escape, and (with overflow checks on) a braced unicode escape of eight or more digits.", "quantifier": "every input, both build profiles", "why_tests_cant": "needs every path through the lexer", "anchors": ["crates/joker/src/lexer.rs:Lexer::reread", "crates/joker/src/lexer.rs:add_digits"]}
{"id": "C20", "title": "Whitespace is the ECMAScript whitespace set", "statement": "The characters skipped as whitespace are exactly TAB, VT, FF, ZWNBSP and the Unicode space separators.", "quantifier": "every character", "why_tests_cant": "the character set is large and the table is hand-written", "anchors": ["crates/joker/src/char.rs:is_es_whitespace"]}
{"id": "C21", "title": "Whitespace and comments are insignificant", "statement": "Replacing the trivia before a token by any other trivia of the same newline-ness yields the same token (value and newline flag), with its span shifted accordingly.", "quantifier": "every input, every token position, every replacement trivia", "why_tests_cant": "infinitely many layouts", "anchors": ["crates/joker/src/lexer.rs:Lexer::read_next_token"]}
{"id": "C22", "title": "Operator parsing keeps operands and operators in order", "statement": "For every sequence of operands separated by infix operators, the expression built reads back, left to right, exactly that sequence.", "quantifier": "every sequence length, every operators", "why_tests_cant": "unbounded sequences", "anchors": ["src/stack.rs:Stack::extend", "src/stack.rs:Stack::finish"]}
{"id": "C23", "title": "Operator parsing respects precedence and left associativity, uniquely", "statement": "In the expression built from a flat infix sequence, no operator directly contains as left operand a looser-binding one, nor as right operand one that binds no tighter, with the binding strengths documented in grammar.md; and it is the only tree over that sequence with this property.", "quantifier": "every sequence of operands and operators", "why_tests_cant": "exponentially many trees per sequence", "anchors": ["src/stack.rs:Infix::groups_left", "crates/easter/src/punc.rs:BinopTag::precedence", "crates/easter/src/punc.rs:LogopTag::precedence", "grammar.md"]}
{"id": "C24", "title": "Assignment targets are converted losslessly", "statement": "Reinterpreting an expression as an assignment target succeeds exactly for identifiers, dot and bracket accesses, keeps every part and location, and otherwise reports the location of the offending expression.", "quantifier": "every expression", "why_tests_cant": "the expression type is infinite", "anchors": ["crates/easter/src/cover.rs:into_assign_target"]}
{"id": "C25", "title": "Assignment patterns are converted losslessly", "statement": "When an expression is successfully reinterpreted as an assignment pattern, reading the pattern back as an expression gives the original expression, so nothing is dropped, reordered or renamed.", "quantifier": "every expression, of any nesting depth", "why_tests_cant": "unbounded nesting", "anchors": ["crates/easter/src/cover.rs:into_assign_patt", "crates/easter/src/cover.rs:into_assign_prop"]}
{"id": "C26", "title": "Array rest patterns are accepted", "statement": "An array literal whose last element is a spread of a valid target is accepted as an assignment pattern.", "quantifier": "every such array literal, however it was produced", "why_tests_cant": "parser-produced and hand-built trees differ in locations", "anchors": ["crates/easter/src/cover.rs:into_assign_patt", "src/parser.rs:Parser::expr_list_item"]}
{"id": "C27", "title": "Parsing always terminates", "statement": "script, strict, module and program return (a tree, an error or a panic) on every input, in a number of steps bounded by a linear function of its length (a step is a token operation, an access to the state of the parser, a return, or the consumption of one character).", "quantifier": "every input string, all four entry points", "why_tests_cant": "non-termination cannot be observed by testing", "anchors": ["src/parser.rs:Parser", "src/lib.rs"]}
{"id": "C28", "title": "The parser itself never panics", "statement": "Apart from panics raised while lexing, script and strict never panic; module and program panic only at an import or export keyword at the start of a top-level item.", "quantifier": "every input string, all four entry points", "why_tests_cant": "unwrap, unreachable and debug assertions on all paths", "anchors": ["src/parser.rs:Parser::unexpected", "src/parser.rs:Parser::statement", "src/parser.rs:Parser::new_id", "src/state.rs:reread", "src/parser.rs:Parser::more_module_items"]}
{"id": "C29", "title": "module and program accept import and export", "statement": "module and program never panic on inputs containing import or export declarations.", "quantifier": "every input", "why_tests_cant": "which inputs reach it depends on parsing context", "anchors": ["src/parser.rs:Parser::more_module_items"]}
{"id": "C30", "title": "script consumes its whole input", "statement": "When script or strict return a tree, the whole input has been consumed up to EOF.", "quantifier": "every input", "why_tests_cant": "trailing garbage is unbounded", "anchors": ["src/parser.rs:Parser::script_body", "src/tokens.rs:follow_statement_list"]}
{"id": "C31", "title": "program and module consume their whole input", "statement": "When program or module return a tree, the whole input has been consumed up to EOF.", "quantifier": "every input", "why_tests_cant": "trailing garbage is unbounded", "anchors": ["src/parser.rs:Parser::program_items", "src/parser.rs:Parser::more_module_items"]}
{"id": "C32", "title": "Deciding strictness later equals deciding it first", "statement": "If program returns an ambiguous program then its script() is what script returns on the same input; its strict() is what strict returns (same tree or the same error); its module() is what module returns (same tree or same error).", "quantifier": "every input", "why_tests_cant": "relates unboundedly many runs of two parsers", "anchors": ["src/parser.rs:Program::script", "src/parser.rs:Program::strict", "src/parser.rs:Program::module", "src/parser.rs:Parser::strict_check", "src/error.rs:Check::perform"]}
{"id": "C33", "title": "Strict mode only rejects", "statement": "If strict accepts an input, then script accepts it with the same tree; if module accepts an input, strict accepts it with the same items.", "quantifier": "every input", "why_tests_cant": "relates all pairs of runs", "anchors": ["src/parser.rs:Parser::strict_check", "src/parser.rs:Parser::script", "src/parser.rs:Parser::module"]}
{"id": "C34", "title": "Strict trees contain no sloppy-only constructs", "statement": "A tree returned by strict or module contains no with statement, binds no identifier token spelled eval or arguments, and uses none of the identifiers implements, interface, let, package, private, protected, public, static, yield (nor await, for module) written without escapes.", "quantifier": "every accepted input", "why_tests_cant": "all positions where identifiers can occur", "anchors": ["src/parser.rs:Parser::new_id", "src/parser.rs:Parser::with_statement", "src/atom.rs"]}
{"id": "C35", "title": "A use strict directive turns on strict mode", "statement": "A script or function body that begins with the directive \"use strict\" is parsed under strict rules.", "quantifier": "every script with such a directive", "why_tests_cant": "any body after the directive", "anchors": ["src/parser.rs:Parser::body_directives", "crates/easter/src/stmt.rs:Dir::pragma"]}
{"id": "C36", "title": "break, continue and return are well placed", "statement": "In every returned tree an unlabelled break is inside a loop or switch, an unlabelled continue inside a loop, return inside a function, a labelled break or continue names an enclosing label in the same function, and a labelled continue names a label attached to a loop.", "quantifier": "every accepted input", "why_tests_cant": "unbounded nesting of loops, labels and functions", "anchors": ["src/parser.rs:Parser::break_statement", "src/parser.rs:Parser::continue_statement", "src/parser.rs:Parser::return_statement", "src/context.rs"]}
{"id": "C37", "title": "Labels are scoped lexically", "statement": "Every break or continue to a label that lexically encloses it (within the same function, of the right kind) is accepted.", "quantifier": "every nesting of labels", "why_tests_cant": "nested duplicates are unusual", "anchors": ["src/context.rs:with_labels"]}
{"id": "C38", "title": "switch has at most one default; try has a handler", "statement": "In every returned tree each switch statement has at most one default clause, and each try statement has a catch or a finally block.", "quantifier": "every accepted input", "why_tests_cant": "unbounded numbers of clauses", "anchors": ["src/parser.rs:Parser::switch_cases", "src/parser.rs:Parser::try_statement"]}
{"id": "C39", "title": "Semicolons are inserted only where allowed", "statement": "In a returned tree a statement is marked as having an inserted semicolon only if the token after it is preceded by a line terminator, or is a closing brace or EOF (or it is a do-while); an explicit semicolon records the position of a semicolon token in the input.", "quantifier": "every accepted input", "why_tests_cant": "every statement at every position", "anchors": ["src/track.rs:end_with_auto_semi"]}
{"id": "C40", "title": "A final line terminator never matters", "statement": "Appending a line terminator to an input does not turn a rejected script into an accepted one.", "quantifier": "every input", "why_tests_cant": "relates pairs of inputs", "anchors": ["src/state.rs:has_arg_same_line", "src/parser.rs:Parser::break_statement"]}
{"id": "C41", "title": "Every node is tracked", "statement": "Every node of a tree returned by script, strict, module or program carries a location.", "quantifier": "every accepted input, every node", "why_tests_cant": "all node kinds at all depths", "anchors": ["src/track.rs:span", "src/parser.rs:Parser"]}
{"id": "C42", "title": "Locations are well formed", "statement": "Every location in a returned tree has start offset at most end offset, and both lie within the input.", "quantifier": "every accepted input, every node", "why_tests_cant": "arbitrary layouts", "anchors": ["src/track.rs", "crates/joker/src/track.rs:span"]}
{"id": "C43", "title": "A node's location covers its children", "statement": "The location of every node in a returned tree encloses the locations of its sub-nodes.", "quantifier": "every accepted input", "why_tests_cant": "all node kinds", "anchors": ["src/parser.rs:Parser::more_conditional", "src/track.rs:span"]}
{"id": "C44", "title": "The tree matches the token sequence", "statement": "When script returns a tree, the tokens consumed form a sentence of the grammar and the tree is a derivation of exactly that token sequence: every token is accounted for, in order, in the position the grammar gives it.", "quantifier": "every accepted input", "why_tests_cant": "the language is infinite", "anchors": ["src/parser.rs:Parser", "grammar.md"]}
{"id": "C45", "title": "untrack erases every location and nothing else", "statement": "After untrack no location remains anywhere in a tree, untracking again changes nothing, and two trees that differ only in locations and semicolon marks become identical.", "quantifier": "every tree", "why_tests_cant": "trees are unbounded; one forgotten field suffices to break it", "anchors": ["crates/joker/src/track.rs:Untrack", "crates/derive/src/lib.rs:expand_untrack", "crates/easter/src"]}
{"id": "C46", "title": "Tracking reference and mutation agree", "statement": "For every node, setting its location and then reading it returns what was set, setting the location it already has changes nothing, and setting twice keeps the last; untracking makes it read as absent.", "quantifier": "every node of every kind", "why_tests_cant": "many node kinds with delegation", "anchors": ["crates/derive/src/lib.rs:expand_tracking", "crates/easter/src/patt.rs"]}
{"id": "C47", "title": "Tree equality is an equivalence", "statement": "Comparison of expressions and trees is reflexive (for trees without NaN literals), symmetric and transitive, ignores the spelling of literals and the order of regexp flags, and identifies new X with new X().", "quantifier": "every pair and triple of trees", "why_tests_cant": "hand-written comparison over all node kinds", "anchors": ["crates/easter/src/expr.rs:PartialEq", "crates/joker/src/token.rs:PartialEq"]}
{"id": "C48", "title": "Operators survive the round trip through text", "statement": "Parsing the text of every binary, logical and assignment operator gives that operator back, and any text that parses prints as itself; unary operators parse from their spelling injectively.", "quantifier": "every operator and every string", "why_tests_cant": "the set of strings is infinite", "anchors": ["crates/easter/src/punc.rs:FromStr", "crates/easter/src/punc.rs:Display"]}
{"id": "C49", "title": "ESTree conversion inverts the ESTree encoding", "statement": "Encoding any script tree (without locations, in the ESTree-expressible subset) as ESTree JSON and converting the JSON back yields the same tree.", "quantifier": "every tree in the subset", "why_tests_cant": "trees are unbounded", "anchors": ["crates/estree/src"]}
{"id": "C50", "title": "ESTree conversion yields untracked trees and never panics", "statement": "Converting any JSON value to a script returns a tree or an error, never panics, and a returned tree contains no locations.", "quantifier": "every JSON value", "why_tests_cant": "all malformed documents", "anchors": ["crates/estree/src/stmt.rs", "crates/estree/src/node.rs"]}
{"id": "C51", "title": "Directive prologues are split exactly", "statement": "Splitting a list of statements into directives and body keeps every element in order, the first part being the longest prefix of string-literal expression statements.", "quantifier": "every list of statements", "why_tests_cant": "unbounded lists", "anchors": ["crates/estree/src/stmt.rs", "crates/estree/src/prog.rs"]}
{"id": "C52", "title": "JSON field extraction is exact", "statement": "Extracting a field from a JSON object returns that field's value and removes that field only; typed extraction succeeds exactly when the value has the requested type, and optional extraction treats null as absent. A failure names the missing field, or the type wanted and the type found.", "quantifier": "every object and field name", "why_tests_cant": "unbounded objects", "anchors": ["crates/unjson/src/unjson.rs", "crates/unjson/src/ty.rs"]}
{"id": "C53", "title": "ESTree tags survive the round trip through text", "statement": "Parsing the name of every ESTree node type gives that type back, and a parsed type prints as the text it came from.", "quantifier": "every tag and every string", "why_tests_cant": "the set of strings is infinite", "anchors": ["crates/estree/src/tag.rs"]}
{"id": "C54", "title": "String escapes outside Unicode are not silently altered", "statement": "A string literal whose escapes denote code points that are not Unicode scalar values is not accepted with a different value.", "quantifier": "every string literal", "why_tests_cant": "depends on the numeric value of escapes", "anchors": ["crates/joker/src/lexer.rs:Lexer::read_string_escape"]}
{"id": "C55", "title": "Identifier escapes respect identifier syntax", "statement": "Every identifier token's text is a valid IdentifierName even when spelled with escapes.", "quantifier": "every identifier token", "why_tests_cant": "escapes can denote any character", "anchors": ["crates/joker/src/lexer.rs:Lexer::read_word_escape"]}
{"id": "C56", "title": "Division after a leading string literal is parsed as division", "statement": "A script that starts with a string literal followed by a division operator is parsed with that operator.", "quantifier": "every such script", "why_tests_cant": "depends on lookahead mode", "anchors": ["src/parser.rs:Parser::match_directive_opt"]}
{"id": "C57", "title": "Parsing context is restored", "statement": "After any expression, statement or function has been parsed successfully, the in-operator permission, loop, switch, function and strictness flags are what they were before it.", "quantifier": "every construct at every nesting depth", "why_tests_cant": "unbounded nesting", "anchors": ["src/context.rs", "src/parser.rs:Parser::iteration_body", "src/parser.rs:Parser::function_body"]}
{"id": "C58", "title": "Regular expression literals stay on one line", "statement": "A regular expression token never contains a line terminator.", "quantifier": "every input on which a regexp token is returned", "why_tests_cant": "any character may occur at any place of the pattern", "anchors": ["crates/joker/src/lexer.rs:Lexer::read_regexp_class_char", "crates/joker/src/lexer.rs:Lexer::read_regexp_char"]}
{"id": "C59", "title": "Leaf nodes are at their tokens", "statement": "Every identifier, literal, key and operator node of a returned tree carries the location of a token of the input, and that token is the identifier, literal, key or operator of the node's name, value or tag.", "quantifier": "every accepted input, every such node", "why_tests_cant": "all nestings, layouts and token values", "anchors": ["src/parser.rs:Parser", "crates/joker/src/track.rs:TrackingRef", "crates/joker/src/token.rs:Token"]}
{"id": "C60", "title": "Nested new groups as in ECMAScript", "statement": "In nested new expressions a property access behind the arguments of the inner new belongs to that inner new expression, as ECMAScript's MemberExpression says.", "quantifier": "every nested new expression", "why_tests_cant": "unbounded nesting of new, accesses and arguments", "anchors": ["src/parser.rs:Parser::new_expression", "src/parser.rs:Parser::more_new_expression"]}
{"id": "C61", "title": "The object of for-in is any expression", "statement": "for (x in e) s is accepted for every Expression e, including a comma expression.", "quantifier": "every for-in statement", "why_tests_cant": "all expressions", "anchors": ["src/parser.rs:Parser::more_for_in"]}
{"id": "C62", "title": "Labels are not repeated", "statement": "A label set that contains the same label twice, directly or through nesting, is rejected, and an enclosing label stays available behind a nested statement.", "quantifier": "every nesting of labelled statements", "why_tests_cant": "unbounded nesting", "anchors": ["src/context.rs:WithContext::with_labels", "src/parser.rs:Parser::labelled_statement"]}
{"id": "C63", "title": "Standard ESTree destructuring assignments are converted", "statement": "An ESTree document in which an assignment destructures with an ArrayPattern or ObjectPattern converts to the corresponding assignment.", "quantifier": "every ESTree document", "why_tests_cant": "documents are unbounded; it fails for every such document", "anchors": ["crates/estree/src/tag.rs", "crates/estree/src/expr.rs"]}
{"id": "C64", "title": "Computed property keys are not confused with plain ones", "statement": "Converting an object literal whose property has a computed key does not yield the tree of the literal with the plain key.", "quantifier": "every object literal in a document", "why_tests_cant": "documents are unbounded; it fails for every computed identifier key", "anchors": ["crates/estree/src/obj.rs"]}
{"id": "C65", "title": "Fields ESTree does not define are ignored", "statement": "Adding, changing or removing fields that ESTree gives no meaning (loc, range, raw and so on) anywhere in a document does not change whether it converts, nor the tree.", "quantifier": "every pair of documents that agree on the ESTree fields at every level", "why_tests_cant": "all documents and all extra fields", "anchors": ["crates/estree/src", "crates/unjson/src/unjson.rs"]}
{"id": "C66", "title": "The lexer reads exactly the lexical grammar", "statement": "A request for tokens succeeds with a given token list exactly when the text splits into lexemes of the lexical grammar with those tokens, separated by whitespace and comments; the split is unique, and an error means that none exists.", "quantifier": "every input text, every sequence of operator/operand requests", "why_tests_cant": "both directions range over all texts; a rejected valid literal or an accepted invalid one can hide anywhere", "anchors": ["crates/joker/src/lexer.rs:Lexer::read_token", "crates/joker/src/lexer.rs:Lexer::read_next_token", "crates/joker/src/lexer.rs:Lexer::read_number", "crates/joker/src/lexer.rs:Lexer::read_string"]}
{"id": "C67", "title": "Every program of the grammar is accepted", "statement": "If the tokens of a text form a program of the syntactic grammar, in which no label is nested inside a statement with the same label and no token that starts with a slash stands where the parser reads slashes the other way, then script, strict, module and program return the tree of that program, up to locations; an error or a panic of an entry point therefore means that the text is no such program.", "quantifier": "every input text, every derivation of its tokens in the grammar, each entry point", "why_tests_cant": "the programs of the language are infinitely many; a valid program that is rejected or parsed as another one can have any shape and depth", "anchors": ["src/parser.rs:Parser::script", "src/parser.rs:Parser::module", "src/parser.rs:Parser::program", "src/parser.rs:Parser::statement", "src/parser.rs:Parser::assignment_expression"]}
{"id": "C68", "title": "Division by a variable called let in a for head", "statement": "In sloppy code the head of a for loop may be any expression, also one in which a variable called let is divided by something.", "quantifier": "every sloppy program whose for head starts with let and a slash", "why_tests_cant": "depends on the interplay of look-ahead and the lexer's goal in all loop heads", "anchors": ["src/parser.rs:Parser::for_let"]}
{"id": "C69", "title": "The grammar is unambiguous", "statement": "A sequence of tokens forms at most one program: two derivations of the same tokens, in the same mode, have the same tree up to locations. What the parser returns is therefore the only reading of the text.", "quantifier": "every text, every two derivations of its tokens, each mode", "why_tests_cant": "ranges over pairs of derivations of unbounded size (dangling else, semicolon insertion, operator grouping, new with and without arguments)", "anchors": ["src/parser.rs:Parser::script", "grammar.md"]}
{"id": "C70", "title": "Layout does not change the parse", "statement": "Two texts with the same tokens (in particular, texts that differ only in whitespace and comments, with line terminators in the same gaps) get the same answer from every entry point, apart from positions: the same tree, the same error, or a rejection by the lexer for both. More precisely, the answer depends only on the tokens that were read to find it.", "quantifier": "every pair of texts with the same tokens up to location, each entry point", "why_tests_cant": "ranges over pairs of texts and all rewritings of the whitespace and comments between any of their tokens", "anchors": ["src/parser.rs:Parser", "src/lexer.rs:Lexer", "src/lib.rs"]}
{"id": "C71", "title": "Errors are honest", "statement": "What an error carries can be found in the text. The token of an unexpected-token, semicolon-insertion or statement error is one that reading the text delivers, and of the kind the error speaks of (a break token for an illegal break, a token on the same line for a failed semicolon insertion, and so on). The name and place of a label, keyword or binding error are those of an identifier of the text. The places of invalid assignment targets and top-level returns begin and end in the text. A lexical error or panic is one that reading the text's tokens gives. The same holds of the checks a Program keeps for later.", "quantifier": "every text, each entry point and each method of the returned program, every error and panic", "why_tests_cant": "ranges over every ill-formed text and every place at which parsing it can stop", "anchors": ["src/error.rs:Error", "src/parser.rs:Parser", "src/track.rs:end_with_auto_semi", "crates/easter/src/cover.rs"]}
{"id": "C72", "title": "Acceptance is exactly the grammar", "statement": "For a text without a slash and a tree in which no label is nested inside one of the same name, the parser returns that tree if and only if the grammar derives it from the text: script, strict, module and program accept no more and no less than their grammar. The grammar says nothing about how the parser works, and the two conditions are those that the known defects (slashes after some tokens, repeated labels) make necessary.", "quantifier": "every text without a slash, every tree with distinct nested labels, each entry point", "why_tests_cant": "an equivalence over all texts and all trees; tests can only show single acceptances", "anchors": ["src/lib.rs", "src/parser.rs:Parser"]}
{"id": "C73", "title": "Decimal literals denote the nearest double", "statement": "The value of a decimal literal, with or without fraction and exponent, is the double nearest to its mathematical value; of two equally near ones the one with even significand; and infinity only when the value lies beyond all doubles by at least half a unit of the last place.", "quantifier": "every text and every decimal literal in it, of any length and exponent", "why_tests_cant": "literals are unboundedly long, and the interesting ones are the halfway cases", "anchors": ["crates/joker/src/token.rs:NumberSource::value", "crates/joker/src/lexer.rs:Lexer::read_number"]}
{"id": "C74", "title": "Derived tracking methods do what the declaration says", "statement": "Deriving Untrack for a struct or enum gives a method that calls untrack exactly once on every field of the value and changes nothing else, for a type parameterised with one more bound per parameter. Deriving TrackingRef or TrackingMut succeeds exactly if every struct form has a field location: Option<Span> and every tuple form has a field (otherwise compilation stops), and the method returns a reference to that field, to the first field if it is an Option<Span>, or else to what the method returns for the first field.", "quantifier": "every struct and enum declaration, every value of it, every behaviour of the methods of the fields", "why_tests_cant": "a macro runs on declarations not yet written; tests only cover the types that exist", "anchors": ["crates/derive/src/lib.rs:Context::expand_tracking", "crates/derive/src/lib.rs:Context::expand_untrack"]}
{"id": "C75", "title": "Derived methods of syntax trees agree with their meaning", "statement": "For every syntax tree, tracking_ref and tracking_mut return a reference to the location of that very node, through which it can be read and overwritten without other effect, and untrack erases exactly the locations and semicolon marks; every type declaration that derives the methods is accepted by the macros.", "quantifier": "every syntax tree of every type of the AST", "why_tests_cant": "trees nest without bound and the methods recurse through generated code for some thirty types", "anchors": ["crates/easter/src/expr.rs:Expr", "crates/easter/src/stmt.rs:Stmt", "crates/easter/src/patt.rs:Patt", "crates/derive/src/lib.rs:Context"]}
{"id": "C76", "title": "Conversion errors describe faults of the document", "statement": "When a document is refused, the error describes a fault that some part of the document has: it names a field that this part must have and lacks, or the type wanted and the type found there, or the node type, operator or kind that is not allowed in its place, the wrong number of declarations or parameters, the unexpected or missing initializer, or the side of an assignment that is no target. A document is refused exactly when it has such a fault.", "quantifier": "every JSON object", "why_tests_cant": "the faulty part may lie anywhere in an unbounded document, among any other parts", "anchors": ["crates/estree/src/expr.rs:IntoExpr", "crates/estree/src/stmt.rs:IntoStmt", "crates/estree/src/decl.rs:IntoDecl", "crates/estree/src/obj.rs:IntoObj", "crates/estree/src/fun.rs:IntoFun", "crates/estree/src/error.rs:Error", "crates/unjson/src/error.rs:Error"]}
{"id": "C77", "title": "The parts of a compound set its location", "statement": "In every tree that a parse returns, a node that has no token of its own in front of its first part starts exactly where that part starts, and a node that has no token of its own behind its last part ends exactly where that part ends: unary, binary and logical operations, assignments, sequences, calls, members, properties, labelled statements, declarators with an initializer and pattern, loop heads, and the wrappers around them. In particular the location of a binary operation or an assignment runs from the start of its left side to the end of its right side.", "quantifier": "every input text, every entry point and every node of the resulting tree", "why_tests_cant": "operands nest without bound and each carries white space and comments around it; only a proof over all trees excludes a location that is off for some shape", "anchors": ["src/parser.rs:Parser::more_expressions", "src/stack.rs:Stack::reduce", "src/expr.rs:Deref::append_to", "crates/joker/src/track.rs:span"]}
{"id": "C78", "title": "Bracketed nodes begin and end with their tokens", "statement": "In every tree that a parse returns, array and object literals and the assignment patterns made from them begin at their opening and end at their closing bracket, calls and new expressions with arguments end at the closing parenthesis, bracketed members at the closing bracket, new expressions begin at the word new, new.target runs from new to target, and the heads of loops begin at var, let or const and end at their semicolon; each of these tokens is one that the lexer delivers for the text.", "quantifier": "every input text, every entry point and every node of the resulting tree", "why_tests_cant": "any expression may stand between the two tokens, and white space and comments may surround them", "anchors": ["src/parser.rs:Parser::array_literal", "src/parser.rs:Parser::object_literal", "src/expr.rs:Arguments::append_to", "src/parser.rs:Parser::for_var"]}
{"id": "C79", "title": "Printed positions identify places", "statement": "The debug form of a position is its line number, a colon and its column number, both decimal, counted from one, without needless zeros; two places of a text have the same printed position only if they are the same place, and two nodes of parses of a text have the same printed location only if they have the same location.", "quantifier": "every text, every index in it, every pair of nodes of trees parsed from it", "why_tests_cant": "lines and columns are unbounded and line ends come in five forms; that no two places share a line and a column depends on the whole text before them", "anchors": ["crates/joker/src/track.rs:Debug for Posn", "crates/joker/src/track.rs:Debug for Span", "crates/joker/src/reader.rs:Reader::next"]}
{"id": "C80", "title": "Descriptions tell the kinds of parse errors", "statement": "Two errors of the parser have the same description exactly if they are of the same kind, where an error from the lexer or from the conversion to patterns keeps its own kind; the displayed text is the description; an error has a cause exactly if it comes from the lexer or from that conversion, and then it has the description of its cause.", "quantifier": "every pair of errors with any payload", "why_tests_cant": "errors carry tokens, names and trees of any size; a test compares a few", "anchors": ["src/error.rs:Error", "crates/easter/src/cover.rs:Error", "crates/joker/src/error.rs:Error"]}
{"id": "C81", "title": "Messages of the lexer tell what is wrong", "statement": "The displayed text of a lexer error begins with its description and determines the kind of the error and the illegal character, invalid digit, code unit or reserved word it is about, provided the quoted form of characters tells characters apart; code units are shown with at least four hexadecimal digits of their value.", "quantifier": "every pair of lexer errors, every injective quoting of characters", "why_tests_cant": "there are a million characters and four billion code units", "anchors": ["crates/joker/src/error.rs:Display for Error"]}
{"id": "C82", "title": "Messages of the ESTree conversion tell what is wrong", "statement": "If two documents are refused with the same message then the errors are of the same kind and name the same field, the same wanted and found types, strings, lengths or node types (the tree of an initializer and the field of an invalid left side are not shown), provided the quoted form of strings tells strings apart; a message states first what is wanted and then what is found.", "quantifier": "every pair of JSON documents that are refused", "why_tests_cant": "messages are put together from free text of the document, so two of them could coincide for some strings", "anchors": ["crates/estree/src/error.rs:Display for Error", "crates/unjson/src/error.rs:Display for Error", "crates/estree/src/tag.rs:Display for Tag"]}
{"id": "C83", "title": "A client can go on reading after a lexical error", "statement": "A client that asks the lexer for further tokens after an error stays on the text: the lexer's position is that of a place in the text, further tokens are the next tokens of the rest of the text from there, an error uses up some text, no new kinds of panics appear, and with at most one request more than there are characters the end of the input is reported.", "quantifier": "every source text, every sequence of requests and flags, whatever errors are returned in between", "why_tests_cant": "there are infinitely many texts and each can be left at any error; progress must hold for all of them", "anchors": ["crates/joker/src/lexer.rs:read_token", "crates/joker/src/lexer.rs:peek_token", "crates/joker/src/lexer.rs:read_next_token"]}
{"id": "C84", "title": "Positions are exact for every text a machine word can count", "statement": "For inputs of less than 2^32 characters the 32-bit offsets, lines and columns reported are exact and no addition overflows. For longer ones a build without overflow checks still yields the right characters and positions modulo 2^32, and a build with checks panics when character number 2^32 is read, not earlier.", "quantifier": "every text of any length, every interleaving of looking ahead and reading, both kinds of builds", "why_tests_cant": "the limit is at four billion characters, and lines and columns could overflow before offsets do", "anchors": ["crates/joker/src/reader.rs:Iterator::next", "crates/joker/src/track.rs:Posn"]}
{"id": "C85", "title": "Programs can be written one behind the other", "statement": "Let a text be a whole script or module, end with a line terminator and not with the word let. If another program is written behind it, then script, strict and module accept the two together, and return the directives and statements of the first followed by the statements of the second. This holds of second texts that are accepted when the first is blanked out, or alone if they begin with a line terminator, that have a statement, and whose first token can neither continue a statement nor be a directive; the texts have slashes in comments and strings only and do not repeat a label inside itself.", "quantifier": "every pair of such texts, of any length", "why_tests_cant": "every construct can be the last of the first text, where automatic semicolon insertion and the search for a continuation look at what follows; no finite set of pairs covers the combinations", "anchors": ["src/parser.rs:Parser::script", "src/parser.rs:Parser::module", "src/parser.rs:Parser::statement_list", "src/tokens.rs:follow_statement_list"]}
