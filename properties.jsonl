{"id": "C01", "title": "Parsing always terminates", "statement": "Calling next() on a Parser repeatedly reaches None after finitely many calls, whatever the input, also when items are errors and the caller carries on, and also for self-referential macros.", "quantifier": "every input string; every macro definition the input makes; continuing through any number of Err items", "why_tests_cant": "non-termination needs the one input that loops; a finite test suite only ever sees inputs that stop", "anchors": ["src/parser.rs: Parser::next, InnerParser::parse, MAX_EXPANSION_DEPTH, MAX_EXPANSION_BYTES", "src/parser/macros.rs: try_expand_in"]}
{"id": "C02", "title": "The iterator is fused", "statement": "Once next() has returned None it returns None on every later call.", "quantifier": "every input, every number of further calls", "why_tests_cant": "the state after exhaustion depends on the whole history of the stack", "anchors": ["src/parser.rs: Parser::next"]}
{"id": "C03", "title": "Begin and End events are balanced in every error-free stream", "statement": "If no item of the stream is an error, the Begin and End events of the whole stream form a correctly nested bracket sequence.", "quantifier": "every input whose stream has no Err item, including inputs with macros, environments, scripts and arguments", "why_tests_cant": "hundreds of commands each stage their own events and arguments nest to any depth", "anchors": ["src/event.rs: Event::Begin, Event::End, Grouping", "src/parser.rs: Parser::next, handle_argument", "src/parser/primitives.rs: handle_primitive"]}
{"id": "C04", "title": "No prefix of the stream closes a group that was not opened", "statement": "In every prefix of the item stream, also after errors, the number of End events never exceeds the number of Begin events.", "quantifier": "every input, every prefix of its stream, before and after Err items", "why_tests_cant": "consumers process the stream incrementally, so each of the unboundedly many prefixes matters", "anchors": ["src/parser.rs: Parser::next", "src/event.rs: Event::End"]}
{"id": "C05", "title": "The stream stays balanced after an error", "statement": "A consumer which carries on after an Err item (as push_mathml does) still sees every Begin matched by an End.", "quantifier": "every input, including malformed ones", "why_tests_cant": "error recovery depends on what was staged when the error happened", "anchors": ["src/parser.rs: Parser::next (buffer is not cleared on Err)", "src/parser/primitives.rs: font_group"]}
{"id": "C06", "title": "Visual and Script events are followed by exactly the elements they require", "statement": "In an error-free stream every Visual and Script event is followed by exactly the number of elements its documentation promises (1 for SquareRoot and Negation, 2 for Root, Fraction, Subscript and Superscript, 3 for SubSuperscript) inside the same group.", "quantifier": "every input whose stream has no Err item", "why_tests_cant": "any command may be used as an argument or script base of any other", "anchors": ["src/event.rs: Event, Visual, ScriptType (documented invariants)", "src/parser.rs: InnerParser::parse", "src/parser/primitives.rs: handle_primitive"]}
{"id": "C07", "title": "Alignment and NewLine events occur only directly inside an environment that allows them", "statement": "In an error-free stream an Alignment or NewLine event never occurs at top level, inside a Normal or LeftRight group, or where an element is expected.", "quantifier": "every input whose stream has no Err item", "why_tests_cant": "depends on arbitrary nesting of environments, groups and commands", "anchors": ["src/event.rs: EnvironmentFlow", "src/parser/primitives.rs: handle_char_token, handle_primitive, font_group"]}
{"id": "C08", "title": "A row never has more alignment marks than its environment allows", "statement": "Between two NewLine events (or the ends) of one environment, the parser emits at most the allowed number of Alignment events of that environment (columns-1 for array, 2*pairs-1 for alignat, 1 for cases, split and the like, 65535 for matrices and align, 0 for gather) and otherwise reports an error. (Up to the first error of the stream; after it the nesting of the events is not that of the source, C05.)", "quantifier": "every input, every environment instance, every row", "why_tests_cant": "the count is threaded through all the parsing of the row, including macros and nested environments", "anchors": ["src/parser.rs: AlignmentCount", "src/parser/primitives.rs: handle_char_token '&', handle_primitive begin"]}
{"id": "C09", "title": "Every Array grouping has at least one column", "statement": "Every Begin(Grouping::Array(cols)) event emitted has at least one Column in cols.", "quantifier": "every input, every emitted event, also after errors", "why_tests_cant": "the renderer panics otherwise; the column specification is arbitrary user text", "anchors": ["src/event.rs: Grouping::Array", "src/parser/primitives.rs: array_environment", "src/mathml.rs: array_newline"]}
{"id": "C10", "title": "Scripts are emitted base, subscript, superscript whatever the source order", "statement": "For any base, subscript and superscript, writing base_sub^sup or base^sup_sub yields the same event stream: Script(SubSuperscript), base, sub, sup.", "quantifier": "every base token, every pair of script arguments, every amount of staged instructions", "why_tests_cant": "the reordering is done by an in-place rotation through uninitialised memory whose indices depend on all the lengths", "anchors": ["src/parser.rs: Parser::next 140-176, InnerParser::parse 281-357"]}
{"id": "C11", "title": "The unsafe set_len only exposes initialised memory", "statement": "When scripts are rotated into the instruction stack, every spare slot below the new length has been written exactly once and no write is out of bounds.", "quantifier": "every number of staged instructions and every script descriptor the parser can produce", "why_tests_cant": "undefined behaviour does not show up as a test failure", "anchors": ["src/parser.rs: Parser::next 141-164"]}
{"id": "C12", "title": "Script placement follows the last limits modifier", "statement": "After an operator that accepts them, a sequence of \\limits / \\nolimits modifiers sets the script position according to the last modifier, and without modifiers the operator's default position is used.", "quantifier": "every sequence of modifiers with any whitespace between them, of any length", "why_tests_cant": "unbounded sequences", "anchors": ["src/parser/lex.rs: limit_modifiers", "src/parser.rs: InnerParser::parse 271-279"]}
{"id": "C13", "title": "Macro-free input yields a number of events linear in its length", "statement": "For input in which no macro is expanded, the number of items produced is at most a fixed constant times the number of characters.", "quantifier": "every input that defines no macro", "why_tests_cant": "a quantitative bound over all inputs", "anchors": ["src/parser.rs: Parser::next", "src/parser/primitives.rs: handle_primitive"]}
{"id": "C14", "title": "The parser does not panic", "statement": "No input makes Parser::next panic (slice out of a character boundary, index out of range, arithmetic overflow, failed assertion, expect on None).", "quantifier": "every input string, every number of calls to next", "why_tests_cant": "panics sit behind particular bytes at particular places", "anchors": ["src/parser/lex.rs: content_with_suffix, unsigned_integer, one_optional_space, color, decimal, octal, hexadecimal", "src/parser/macros.rs: expand_definition_in", "src/parser.rs: reach_original_call_site"]}
{"id": "C15", "title": "Characters handled as tokens are never whitespace, a comment sign or a backslash", "statement": "The token lexer returns either a non-empty control sequence name or a character that is neither whitespace, '%' nor '\\', never a character inside a comment, and it consumes at least one character; so the internal panics on such characters are unreachable.", "quantifier": "every input string", "why_tests_cant": "all strings", "anchors": ["src/parser/lex.rs: token, rhs_control_sequence", "src/parser/primitives.rs: handle_char_token panics"]}
{"id": "C16", "title": "The position lookup behind error reporting never fails its assertion", "statement": "Computing the call site of a macro expansion or the context of an error always finds the string in which the parser currently is.", "quantifier": "every input, every history of macro expansions, at least up to and including the first error", "why_tests_cant": "depends on the whole history of expansions and on how far nested groups have been consumed", "anchors": ["src/parser.rs: SpanStack::reach_original_call_site, SpanStack::add"]}
{"id": "C17", "title": "Error contexts are always sliced on character boundaries inside the strings", "statement": "Building the context of an error never slices outside a string or inside a multi-byte character, for all spans and offsets that can be recorded.", "quantifier": "every input text (any UTF-8), every stack of expansion spans, every error position", "why_tests_cant": "byte offsets and character boundaries interact with arbitrary multi-byte text", "anchors": ["src/parser/error.rs: ParserError::new, floor_char_boundary"]}
{"id": "C18", "title": "floor_char_boundary returns the greatest character boundary not above the index", "statement": "For every valid UTF-8 string and index the function returns the largest character boundary <= min(index, len), and the unchecked unwrap in it is never reached on None.", "quantifier": "every string, every index", "why_tests_cant": "undefined behaviour if wrong; all strings and indices", "anchors": ["src/parser/error.rs: floor_char_boundary"]}
{"id": "C19", "title": "Group content is the shortest balanced prefix before the closing delimiter", "statement": "Reading the inside of a group returns exactly the text up to the matching closing delimiter: the input is content ++ close ++ rest, the content is balanced (escapes and comments respected), and it fails exactly when there is no such split.", "quantifier": "every input text, braces and brackets", "why_tests_cant": "arbitrary nesting, escapes and comments", "anchors": ["src/parser/lex.rs: group_content"]}
{"id": "C20", "title": "\\left...\\right and \\begingroup...\\endgroup enclose exactly their content", "statement": "The text between \\left and its matching \\right (resp. \\begingroup and \\endgroup) is the content of the group, also when it contains commands whose names merely start with left, right, begin or end.", "quantifier": "every content", "why_tests_cant": "prefix collisions between command names and delimiters", "anchors": ["src/event.rs: GroupingKind::opening_str, closing_str", "src/parser/primitives.rs: left, begingroup", "src/parser/lex.rs: group_content"]}
{"id": "C21", "title": "Environment delimiters match the accepted environment names", "statement": "For every environment name \\begin accepts, the body is the text up to the matching \\end of the same name, and the grouping emitted is that environment's.", "quantifier": "every accepted environment name, every body", "why_tests_cant": "all bodies, including ones with nested environments of the same name", "anchors": ["src/parser/primitives.rs: begin arm", "src/event.rs: GroupingKind"]}
{"id": "C22", "title": "Delimited macro arguments are matched by the first top-level occurrence of the suffix", "statement": "Reading a macro argument delimited by a suffix returns the shortest prefix with balanced groups followed by the suffix, for every input and suffix, and reports an error otherwise.", "quantifier": "every input text and non-empty suffix", "why_tests_cant": "all strings", "anchors": ["src/parser/lex.rs: content_with_suffix"]}
{"id": "C23", "title": "Leading whitespace and comments do not change the parse", "statement": "Whitespace (any Unicode whitespace) and comments before a token do not affect the events produced.", "quantifier": "every input, every prefix of whitespace and complete comment lines", "why_tests_cant": "all prefixes", "anchors": ["src/parser/lex.rs: token", "src/parser.rs: InnerParser::parse"]}
{"id": "C24", "title": "Whitespace between the two scripts of one base is insignificant", "statement": "base_sub ^sup is parsed as base_sub^sup (TeX ignores spaces in math mode).", "quantifier": "every base and scripts, any whitespace", "why_tests_cant": "all combinations", "anchors": ["src/parser.rs: InnerParser::parse 292-312"]}
{"id": "C25", "title": "Numbers are lexed greedily", "statement": "A digit starts a Number event containing the longest run of digits and '.'/',' separators, and a separator at the end of the run is left out.", "quantifier": "every input starting with a digit", "why_tests_cant": "all digit strings", "anchors": ["src/parser/primitives.rs: handle_char_token digits"]}
{"id": "C26", "title": "Dimension signs and units", "statement": "A dimension has the sign given by the parity of the minus signs before it, the decimal value written, and exactly the unit named by the following two letters; it fails if these are not one of the twelve TeX units.", "quantifier": "every sequence of signs and whitespace, every digit string, every following text", "why_tests_cant": "all strings", "anchors": ["src/parser/lex.rs: signs, floating_point, dimension_unit, dimension"]}
{"id": "C27", "title": "Hexadecimal colours", "statement": "A colour '#RRGGBB' is read as exactly the three bytes written, in either letter case, for all 2^24 colours; anything else starting with # is rejected.", "quantifier": "every colour string", "why_tests_cant": "2^24 colours, all malformed strings", "anchors": ["src/parser/lex.rs: color"]}
{"id": "C28", "title": "Named colours: exact dvips names first, then case-insensitive CSS names", "statement": "A colour name that is a dvips name in exactly that case has the dvips value; otherwise its value is the CSS colour of the lower-cased name; anything else is an unknown colour.", "quantifier": "every string", "why_tests_cant": "all strings and letter cases", "anchors": ["src/parser/lex.rs: color", "src/parser/tables.rs: dvipsnames_color, primitive_color"]}
{"id": "C29", "title": "\\text and \\operatorname take exactly their argument", "statement": "\\text{s} produces exactly the text s and continues after the closing brace; \\text x takes exactly one character.", "quantifier": "every balanced text, every character, every continuation", "why_tests_cant": "all texts", "anchors": ["src/parser/primitives.rs: text_argument, operatorname"]}
{"id": "C30", "title": "Macro expansion substitutes arguments exactly", "statement": "Using a macro yields its replacement text with every #i replaced by the i-th argument, ## by #, everything else unchanged, followed by the unread rest of the input.", "quantifier": "every replacement text accepted by a definition, all arguments, every continuation", "why_tests_cant": "all replacement texts and arguments", "anchors": ["src/parser/macros.rs: parse_replacement_text, expand_replacement, expand_definition_in"]}
{"id": "C31", "title": "Macro definitions are validated", "statement": "A definition is accepted only if its parameters are #1..#n in order with n <= 9 and its replacement refers only to #1..#n; so expanding never refers to a missing argument.", "quantifier": "every parameter text, every replacement text", "why_tests_cant": "all texts", "anchors": ["src/parser/macros.rs: define, insert_command, parse_replacement_text", "src/parser/primitives.rs: new_command"]}
{"id": "C32", "title": "newcommand, renewcommand and providecommand respect existing definitions", "statement": "\\newcommand of an already defined macro is an error and changes nothing; \\renewcommand of an undefined one is an error; \\providecommand of an existing macro leaves it unchanged.", "quantifier": "every macro table, every name, every definition text", "why_tests_cant": "all histories of definitions", "anchors": ["src/parser/primitives.rs: newcommand, renewcommand, providecommand, new_command"]}
{"id": "C33", "title": "\\let copies the meaning at the time of the assignment", "statement": "After \\let\\b\\a, \\b keeps meaning what \\a meant at that moment, also when \\a is redefined later.", "quantifier": "every macro table, every later sequence of definitions", "why_tests_cant": "all histories", "anchors": ["src/parser/macros.rs: assign, expand_definition_in Alias"]}
{"id": "C34", "title": "Later definitions replace earlier ones and leave others alone", "statement": "After defining a macro, looking it up gives the new definition and every other name keeps its old meaning.", "quantifier": "every macro table and name, every sequence of definitions", "why_tests_cant": "all histories", "anchors": ["src/parser/macros.rs: define, assign, insert_command"]}
{"id": "C35", "title": "Macro expansion is bounded", "statement": "At most 64 expansions are ever nested, and no expansion is spliced in after the total number of expanded bytes has reached 1 MiB.", "quantifier": "every input, every moment of the parse", "why_tests_cant": "all histories", "anchors": ["src/parser.rs: InnerParser::parse 240-259, SpanStack"]}
{"id": "C36", "title": "Storage used by macro expansion is bounded by the limits", "statement": "The bytes allocated in the storage by expansions are accounted for by the limits (limit both depth and total expansion bytes to prevent OOM).", "quantifier": "every input", "why_tests_cant": "the expansion is allocated before the limit is checked", "anchors": ["src/parser.rs: 26-31, 240-251", "src/parser/macros.rs: try_expand_in"]}
{"id": "C37", "title": "A macro may be used any number of times", "statement": "A non-recursive macro can be used arbitrarily often in one formula; the recursion limit concerns nesting only.", "quantifier": "every number of uses", "why_tests_cant": "needs more uses than a test writes", "anchors": ["src/parser.rs: InnerParser::parse, SpanStack::add"]}
{"id": "C38", "title": "Rendering a well-formed event stream does not panic", "statement": "For every event stream that satisfies the documented invariants, the MathML writer does not panic.", "quantifier": "every well-formed stream, every configuration", "why_tests_cant": "all streams", "anchors": ["src/mathml.rs: write, write_event, array_newline, array_align, expect on state_stack"]}
{"id": "C39", "title": "push_mathml does not panic on any input", "statement": "Parsing any text and rendering the result does not panic.", "quantifier": "every input", "why_tests_cant": "the renderer trusts invariants which the parser must establish", "anchors": ["src/mathml.rs: push_mathml, array_align", "src/parser/primitives.rs"]}
{"id": "C40", "title": "The output is well-formed markup for every well-formed stream", "statement": "For every event stream satisfying the documented invariants with markup-free content, every element opened in the output is closed in order, and the document is one math element.", "quantifier": "every well-formed stream, every configuration", "why_tests_cant": "all streams", "anchors": ["src/mathml.rs: write_event, write"]}
{"id": "C41", "title": "Errors in the stream do not break the markup", "statement": "The output has balanced tags also when the stream contains errors.", "quantifier": "every input", "why_tests_cant": "error recovery paths", "anchors": ["src/mathml.rs: write 902-1016"]}
{"id": "C42", "title": "Text is escaped", "statement": "Text content appears in the output with <, > and & replaced by entities and nothing else changed, so that decoding the entities gives back the text and the text cannot introduce markup.", "quantifier": "every text", "why_tests_cant": "all texts", "anchors": ["src/mathml.rs: write_escaped, write_content Text"]}
{"id": "C43", "title": "No content introduces markup", "statement": "No content of the formula (relations, function names, annotations, error messages) can introduce markup in the output.", "quantifier": "every input", "why_tests_cant": "all contents; an injection needs one forgotten path", "anchors": ["src/mathml.rs: write_content, write, Function, annotation, error"]}
{"id": "C44", "title": "Peeking does not lose, duplicate or reorder events", "statement": "The look-ahead iterator yields exactly the underlying events in order, whatever peeks are interleaved with the reads.", "quantifier": "every sequence of peeks, resets and reads, every stream", "why_tests_cant": "all interleavings", "anchors": ["src/mathml.rs: ManyPeek"]}
{"id": "C45", "title": "State changes are scoped to their group", "statement": "Font, colour and style changes inside a group have no effect after the end of that group.", "quantifier": "every group content, every nesting", "why_tests_cant": "all streams", "anchors": ["src/mathml.rs: handle_state_change, state_stack, write_event Begin/End"]}
{"id": "C46", "title": "Mapping characters to fonts always gives a valid character", "statement": "Applying a font to any character gives a Unicode scalar value (the expect is unreachable).", "quantifier": "every font, every character", "why_tests_cant": "16 fonts times 1.1 million characters", "anchors": ["src/mathml.rs: Font::map_char"]}
{"id": "C47", "title": "Fonts map letters to the Unicode mathematical alphabet they name", "statement": "For every font and every letter or digit, the mapped character is the corresponding character of the Unicode mathematical alphanumeric block of that font.", "quantifier": "every font, every letter, digit and Greek letter", "why_tests_cant": "a wrong offset only shows on the letters one happens to test", "anchors": ["src/mathml.rs: Font::map_char"]}
{"id": "C48", "title": "The error colour is written exactly", "statement": "The colour in the error element is the configured error colour as #rrggbb.", "quantifier": "all 2^24 colours", "why_tests_cant": "only components below 16 are affected", "anchors": ["src/mathml.rs: write (error color)"]}
{"id": "C49", "title": "Colours are written exactly", "statement": "A colour state change is written as a CSS colour that denotes exactly the given RGB triple.", "quantifier": "all 2^24 colours", "why_tests_cant": "2^24 cases", "anchors": ["src/mathml.rs: open_tag"]}
{"id": "C50", "title": "Dimensions are written with the documented unit conversion", "statement": "Each length is written as a decimal followed by the CSS unit of the documentation table, and the decimal is the value converted with the documented factor (up to the precision of f32).", "quantifier": "all units, all values", "why_tests_cant": "all values", "anchors": ["src/event.rs: Display for Dimension"]}
{"id": "C51", "title": "Every array row has one cell per column written", "statement": "Rendering an array row with k alignment marks writes exactly k+1 column cells plus the border cells the column specification asks for, and never reads past the column specification.", "quantifier": "every column specification, every row", "why_tests_cant": "all specifications", "anchors": ["src/mathml.rs: array_newline, array_align, array_close_line"]}
{"id": "C52", "title": "Wrapper elements follow the configuration", "statement": "The output starts with the math start tag with exactly the attributes the configuration asks for, ends with the end tag, and contains the annotation iff configured.", "quantifier": "every configuration, every stream", "why_tests_cant": "all streams", "anchors": ["src/mathml.rs: write 902-1016"]}
{"id": "C53", "title": "The call depth of the parser is bounded", "statement": "The depth of recursive calls while parsing does not grow without bound with the input (so no stack overflow).", "quantifier": "every input", "why_tests_cant": "needs huge inputs", "anchors": ["src/parser/primitives.rs: handle_primitive/handle_argument recursion", "src/parser/lex.rs: token", "src/parser.rs: Parser::next"]}
{"id": "C54", "title": "A macro used as an argument of a command is expanded", "statement": "Where a command reads an argument, a macro call can stand for the argument, as in \\frac\\f b: the stream is that of the text with the macro expanded.", "quantifier": "every macro, every command that takes arguments", "why_tests_cant": "all combinations of commands and macros", "anchors": ["src/parser.rs: parse", "src/parser/primitives.rs: handle_argument"]}
{"id": "C55", "title": "Expansion keeps token boundaries", "statement": "Expanding a macro never merges the end of its replacement text with the text that follows into another token.", "quantifier": "every macro, every text that follows", "why_tests_cant": "depends on the last token of the replacement and the first of the rest", "anchors": ["src/parser/macros.rs: expand_replacement, try_expand_in"]}
{"id": "C56", "title": "The context of an error shows the place of the error", "statement": "The message of an error quotes the text around the place where the parser stopped, and if this is in an expansion, then the call it came from.", "quantifier": "every input, every error, every stack of expansions", "why_tests_cant": "all offsets in all nestings of expansions", "anchors": ["src/parser/error.rs: ParserError::new"]}
{"id": "C57", "title": "The stream depends only on the text", "statement": "Two parsers in states that differ only in where the text is stored (how it was cut out or expanded) yield the same items up to the limits on expansion.", "quantifier": "every pair of states with the same texts", "why_tests_cant": "relates arbitrary internal states", "anchors": ["src/parser.rs: Parser::next, parse"]}
{"id": "C58", "title": "Elements get the number of children MathML requires", "statement": "In the output for a well-formed stream, mfrac, mroot, msub, msup, munder and mover have two children, msubsup and munderover three.", "quantifier": "every well-formed stream, every configuration", "why_tests_cant": "depends on the nesting of all constructs and on the automatic spacing between neighbours", "anchors": ["src/mathml.rs: write_event, write_content, write"]}
{"id": "C59", "title": "Letters are upright or italic as the math style says", "statement": "Without a font command, Latin and Greek letters are written upright or italic following the table in the documentation of MathStyle.", "quantifier": "every style, every letter, every configuration", "why_tests_cant": "400 combinations, four of them tested", "anchors": ["src/config.rs: MathStyle, should_be_upright", "src/mathml.rs: write_content"]}
{"id": "C60", "title": "Every construct of the supported language means what its documentation says", "statement": "A text composed of the documented constructs (characters, numbers, groups, scripts, fractions, roots, accents, delimiters, fonts, sizes, spaces, environments with rows and columns, and so on) is parsed without error to the events of its constituents in their documented order, wherever it occurs and whatever follows it.", "quantifier": "every text derivable in the grammar, every nesting, every continuation", "why_tests_cant": "infinitely many compositions; tests fix a few dozen literals", "anchors": ["src/parser.rs: Parser::next, parse", "src/parser/primitives.rs: handle_primitive, handle_char_token, font_group, fraction_like, accent, underscript, matrix_env"]}
{"id": "C61", "title": "The class of every printable ASCII character", "statement": "Each printable ASCII character other than the digits and \\ % _ ^ $ # & { } yields exactly one content event of its TeX class, with - * ' turned into the minus sign, asterisk operator and prime.", "quantifier": "every such character, every continuation", "why_tests_cant": "each character in front of every possible text", "anchors": ["src/parser/primitives.rs: handle_char_token", "src/parser/tables.rs: is_binary, is_relation, char_delimiter_map"]}
{"id": "C62", "title": "The meaning of a group does not depend on its surroundings", "statement": "A group of a text that parses by itself yields the events of that text between Begin(Normal) and End; an error in the text of a group, an argument or a cell, at any depth, is the error of that text alone, after exactly the events of what precedes it; of several errors the first is the one reported.", "quantifier": "every text, every formula around it, every nesting", "why_tests_cant": "quantifies over contexts", "anchors": ["src/parser.rs: Parser::next, Instruction::SubGroup"]}
{"id": "C63", "title": "Each mistake is reported as itself, where it is", "statement": "Each documented kind of mistake (unknown commands and environments, missing arguments, doubled scripts, unbalanced groups, marks and rows where none may be, wrong units, colours, delimiters and character codes) yields its own error, directly after the events of all that precedes it, wherever in a formula it is.", "quantifier": "every formula, every place in it, every mistake", "why_tests_cant": "quantifies over all formulas around the mistake and all texts after it", "anchors": ["src/parser/error.rs: ErrorKind", "src/parser/primitives.rs: handle_primitive", "src/parser.rs: parse, Parser::next"]}
{"id": "C64", "title": "The MathML of a stream is the drawing of its tree", "statement": "For every stream of the documented shape, the text written is that of a tree of elements which a simple recursion over the nested structure of the stream gives: each node's elements depend only on the node, the element it stands in, the font, colours and style in force, and the classes of the neighbouring atoms.", "quantifier": "every well-formed stream, every configuration", "why_tests_cant": "tests compare stored outputs of a few hundred formulas; the claim is about all streams and all nestings", "anchors": ["src/mathml.rs: write, write_event, write_content, MathmlWriter"]}
{"id": "C65", "title": "A macro ended by a brace reads up to the brace", "statement": "If the parameter text of a \\def ends with #, the last argument of a use ends before the first opening brace that follows (and its delimiter, which is removed); the brace itself stays and is the start of what follows the replacement text.", "quantifier": "every such definition, every use", "why_tests_cant": "all definitions and uses", "anchors": ["src/parser/macros.rs: define, try_expand_in, expand_definition_in"]}
{"id": "C66", "title": "The conversion draws the meaning of the text", "statement": "For every text that has a meaning (C60) and avoids the few constructions that leave the event grammar (C09), the MathML returned by push_mathml on the parser's items is the drawing of the trees of that meaning and nothing else, whatever the configuration: the same text always gives that one document, and texts with the same meaning give the same markup.", "quantifier": "every regular valid text that parses without an error, every configuration", "why_tests_cant": "all texts and configurations", "anchors": ["src/lib.rs", "src/parser.rs: Parser::next", "src/mathml.rs: push_mathml"]}
{"id": "C67", "title": "A text with macros means what its expansion means", "statement": "A text that starts with definitions and continues with a formula which uses them (anywhere: in groups, arguments in braces, scripts, cells, the replacement texts and arguments of other macros) yields the events of the formula in which each use is replaced by the replacement text with the arguments put in; the only other outcome is the error of the recursion limit, after a beginning of these events.", "quantifier": "every list of definitions, every formula, every nesting of uses", "why_tests_cant": "all macros, all formulas around their uses", "anchors": ["src/parser.rs: Parser::next, parse", "src/parser/macros.rs: MacroContext"]}
{"id": "C68", "title": "The symbol commands denote the standard symbols", "statement": "Every symbol command of the standard LaTeX, amsmath and amssymb lists that is supported yields one event: the character that unicode-math gives it, with its class (ordinary, binary, relation, operator, opening, closing, punctuation) and, for the spacing commands, the standard width.", "quantifier": "every command of a table of 550 names, every place in a formula", "why_tests_cant": "a stored output covers one use of a few of them; the claim is about all of them at every place", "anchors": ["src/parser/primitives.rs: handle_primitive", "src/parser/tables.rs"]}
{"id": "C69", "title": "A symbol typed as a character is the symbol of its command", "statement": "A Unicode mathematical character written in the text yields the same event as the standard command for it.", "quantifier": "every character of the same table, every place", "why_tests_cant": "several hundred characters, every text after them", "anchors": ["src/parser/primitives.rs: handle_char_token", "src/parser/tables.rs: is_binary, is_relation, char_delimiter_map"]}
{"id": "C70", "title": "The lengths of the output are those of the text", "statement": "A length written in the text (signs, digits with a point or a comma, one of the twelve units) appears in the output as a decimal with the CSS unit of the documentation, and the decimal is the number written times the documented factor, up to a relative error of 2^-21 for each digit written.", "quantifier": "every sign sequence, every number, every unit, every following text", "why_tests_cant": "all numbers: the error of reading, converting and writing in f32 cannot be bounded by samples", "anchors": ["src/parser/lex.rs: dimension, floating_point", "src/event.rs: Display for Dimension"]}
{"id": "C71", "title": "\\futurelet names the second token and reads nothing", "statement": "After \\futurelet\\n the macro \\n stands for the second of the two tokens that follow, and the text after it is still read from the first of them: the effect is that of \\let\\n= with that token, written before the same text.", "quantifier": "every list of earlier definitions, every token, every text after it", "why_tests_cant": "all definitions before and all texts after", "anchors": ["src/parser/lex.rs: futurelet_assignment", "src/parser/primitives.rs: handle_primitive \"futurelet\"", "src/parser/macros.rs: assign"]}
{"id": "C72", "title": "The base decides where its scripts are set", "statement": "Whether the scripts of an element are set beside it, above and below it, or according to the style is decided by the base and by the \\limits, \\nolimits and \\displaylimits that follow it, and by nothing else: not by what the scripts or the arguments of the base contain.", "quantifier": "every base, every sequence of modifiers, all scripts and arguments", "why_tests_cant": "all combinations of base and scripts", "anchors": ["src/parser.rs: handle_suffix_scripts", "src/event.rs: ScriptPosition"]}
{"id": "C73", "title": "push_mathml only appends", "statement": "push_mathml leaves what the string it is given already contains as it is, and what it appends does not depend on it.", "quantifier": "every string, every configuration, every iterator of events and errors, also ill-formed ones", "why_tests_cant": "a quantification over the strings and the streams", "anchors": ["src/mathml.rs: push_mathml, MathmlWriter"]}
{"id": "C74", "title": "The errors of macros say what is wrong, and change nothing", "statement": "A definition or a use of a macro that is wrong yields the error of what is wrong with it, with no event before it, and the macros keep the meanings they had. In a definition: no name, no body, a body that is not closed, braces or comments among the parameters, parameters out of order or unknown, a number of parameters that is no number or above nine, a name already taken or not yet known. In a use: another text than the one the parameters start with, a delimiter that does not come, an argument that is missing, a group that is not closed.", "quantifier": "every list of earlier definitions, every text of the definition or use, every text after it", "why_tests_cant": "all definitions, all uses, all texts around them", "anchors": ["src/parser/macros.rs: define, insert_command, expand_definition_in", "src/parser/lex.rs: definition, let_assignment, futurelet_assignment, argument, content_with_suffix", "src/parser/primitives.rs: new_command"]}
{"id": "C75", "title": "A comment before an argument of a macro is skipped", "statement": "A comment (with the end of its line) between the name of a macro, or an earlier argument, and an undelimited argument changes nothing: the argument is the one read without the comment.", "quantifier": "every macro, every comment, every argument", "why_tests_cant": "all macros, comments and arguments", "anchors": ["src/parser/lex.rs: argument, token", "src/parser/macros.rs: expand_replacement"]}
{"id": "C76", "title": "A text is accepted exactly when it is a formula", "statement": "Nothing but formulas is accepted: a text without the commands and places listed as doubtful parses without an error exactly when the documented rules give it a meaning, and then to the events of that meaning, of which there is only one; if they give it none, the parser yields the events of what precedes the first mistake and the error of that mistake, and nothing else happens. Every other text has a meaning, or comes to a mistake, or to one of the doubtful places.", "quantifier": "every text", "why_tests_cant": "the converse of acceptance quantifies over all texts, also those nobody would write", "anchors": ["src/parser.rs: Parser::next, parse", "src/parser/primitives.rs: handle_primitive, handle_char_token, handle_argument", "src/parser/lex.rs"]}
{"id": "C77", "title": "The message of an error tells what is wrong", "statement": "What is displayed of an error determines its kind, the delimiter that is missing or the numbers of the parameters, and its context: two errors that differ in any of these are displayed differently. The message has the words that say what is wrong: the delimiter with which an unclosed group has to be closed, the script that is given twice, the kind of argument that is missing.", "quantifier": "every error", "why_tests_cant": "all kinds of errors, all groups, all numbers and all contexts, in pairs", "anchors": ["src/parser/error.rs: Display for ParserError, Display for ErrorKind", "src/event.rs: GroupingKind::closing_str"]}
{"id": "C78", "title": "Every content and every error is shown, in order", "statement": "Whatever push_mathml writes for a stream, well formed or not, shows every content and every error of the stream, each as an element of its own and in the order of the stream: an error by its whole message, a symbol, number, function name or text by its characters, in a font that the stream sets, struck through if a negation precedes it directly. In particular the output for a text has the message of each error of the text; and a text where nothing doubtful occurs shows either the contents of its meaning, or the contents before its first mistake and then that mistake.", "quantifier": "every stream of events and errors, every configuration; every text", "why_tests_cant": "all streams, also ill-formed ones, and all interleavings of errors with events", "anchors": ["src/mathml.rs: MathmlWriter::write, write_event, write_content"]}
{"id": "C79", "title": "Where memory puts the expansions does not show", "statement": "The parser finds the macro call a text comes from by comparing addresses. Wherever the storage puts the expansions, as long as no two texts share a byte and no expansion begins exactly where an older text ends, the events, the first error and the context shown with it are the same.", "quantifier": "every input and every placement of the input and of the expansions in memory", "why_tests_cant": "the addresses depend on the allocator, its chunks and what was stored before; a test sees one placement", "anchors": ["src/parser.rs: SpanStack::reach_original_call_site, SpanStack::add, parse", "src/parser/error.rs: ParserError::new", "src/parser/storage.rs: Storage"]}
{"id": "C80", "title": "A text after a formula does not change it", "statement": "If a text is a formula, that is, has a meaning by the documented rules and so defines no macros, and another text is written after it, then the events of the formula come first and unchanged, and after them whatever the other text yields by itself, events or an error; provided that the second text cannot go on with the first: it starts neither with a letter, a digit, a dot, a comma, white space or a script sign, nor with \\limits or \\nolimits, and the first has no comment on its last line. If both texts are formulas, so are the two one after the other. After a comment and the end of its line any text is read as by itself, without these conditions. After white space whose first character is ASCII the second text may also start with a letter or a digit, but not with the words plus or minus. A formula in braces is kept apart from every text that does not start with a script.", "quantifier": "every formula and every text after it", "why_tests_cant": "all pairs of a formula and a text; a command, an environment or a length at the end of the first could take part of the second", "anchors": ["src/parser.rs: Parser::next, parse, parse_scripts", "src/parser/lex.rs", "src/parser/primitives.rs: handle_primitive, handle_char_token"]}
