#!/usr/bin/env python3
"""Writes /verif/properties.jsonl.  One tuple per property."""
import json, os
P = []
def p(title, statement, quantifier, why, *anchors):
    P.append(dict(id="C%02d" % (len(P)+1), title=title, statement=statement,
                  quantifier=quantifier, why_tests_cant=why, anchors=list(anchors)))

# ---------------------------------------------------------------- parser, whole stream
p("Parsing always terminates",
  "Calling next() on a Parser repeatedly reaches None after finitely many calls, whatever the input, also when items are errors and the caller carries on, and also for self-referential macros.",
  "every input string; every macro definition the input makes; continuing through any number of Err items",
  "non-termination needs the one input that loops; a finite test suite only ever sees inputs that stop",
  "src/parser.rs: Parser::next, InnerParser::parse, MAX_EXPANSION_DEPTH, MAX_EXPANSION_BYTES", "src/parser/macros.rs: try_expand_in")
p("The iterator is fused",
  "Once next() has returned None it returns None on every later call.",
  "every input, every number of further calls",
  "the state after exhaustion depends on the whole history of the stack",
  "src/parser.rs: Parser::next")
p("Begin and End events are balanced in every error-free stream",
  "If no item of the stream is an error, the Begin and End events of the whole stream form a correctly nested bracket sequence.",
  "every input whose stream has no Err item, including inputs with macros, environments, scripts and arguments",
  "hundreds of commands each stage their own events and arguments nest to any depth",
  "src/event.rs: Event::Begin, Event::End, Grouping", "src/parser.rs: Parser::next, handle_argument", "src/parser/primitives.rs: handle_primitive")
p("No prefix of the stream closes a group that was not opened",
  "In every prefix of the item stream, also after errors, the number of End events never exceeds the number of Begin events.",
  "every input, every prefix of its stream, before and after Err items",
  "consumers process the stream incrementally, so each of the unboundedly many prefixes matters",
  "src/parser.rs: Parser::next", "src/event.rs: Event::End")
p("The stream stays balanced after an error",
  "A consumer which carries on after an Err item (as push_mathml does) still sees every Begin matched by an End.",
  "every input, including malformed ones",
  "error recovery depends on what was staged when the error happened",
  "src/parser.rs: Parser::next (buffer is not cleared on Err)", "src/parser/primitives.rs: font_group")
p("Visual and Script events are followed by exactly the elements they require",
  "In an error-free stream every Visual and Script event is followed by exactly the number of elements its documentation promises (1 for SquareRoot and Negation, 2 for Root, Fraction, Subscript and Superscript, 3 for SubSuperscript) inside the same group.",
  "every input whose stream has no Err item",
  "any command may be used as an argument or script base of any other",
  "src/event.rs: Event, Visual, ScriptType (documented invariants)", "src/parser.rs: InnerParser::parse", "src/parser/primitives.rs: handle_primitive")
p("Alignment and NewLine events occur only directly inside an environment that allows them",
  "In an error-free stream an Alignment or NewLine event never occurs at top level, inside a Normal or LeftRight group, or where an element is expected.",
  "every input whose stream has no Err item",
  "depends on arbitrary nesting of environments, groups and commands",
  "src/event.rs: EnvironmentFlow", "src/parser/primitives.rs: handle_char_token, handle_primitive, font_group")
p("A row never has more alignment marks than its environment allows",
  "Between two NewLine events (or the ends) of one environment, the parser emits at most the allowed number of Alignment events of that environment (columns-1 for array, 2*pairs-1 for alignat, 1 for cases, split and the like, 65535 for matrices and align, 0 for gather) and otherwise reports an error. (Up to the first error of the stream; after it the nesting of the events is not that of the source, C05.)",
  "every input, every environment instance, every row",
  "the count is threaded through all the parsing of the row, including macros and nested environments",
  "src/parser.rs: AlignmentCount", "src/parser/primitives.rs: handle_char_token '&', handle_primitive begin")
p("Every Array grouping has at least one column",
  "Every Begin(Grouping::Array(cols)) event emitted has at least one Column in cols.",
  "every input, every emitted event, also after errors",
  "the renderer panics otherwise; the column specification is arbitrary user text",
  "src/event.rs: Grouping::Array", "src/parser/primitives.rs: array_environment", "src/mathml.rs: array_newline")
p("Scripts are emitted base, subscript, superscript whatever the source order",
  "For any base, subscript and superscript, writing base_sub^sup or base^sup_sub yields the same event stream: Script(SubSuperscript), base, sub, sup.",
  "every base token, every pair of script arguments, every amount of staged instructions",
  "the reordering is done by an in-place rotation through uninitialised memory whose indices depend on all the lengths",
  "src/parser.rs: Parser::next 140-176, InnerParser::parse 281-357")
p("The unsafe set_len only exposes initialised memory",
  "When scripts are rotated into the instruction stack, every spare slot below the new length has been written exactly once and no write is out of bounds.",
  "every number of staged instructions and every script descriptor the parser can produce",
  "undefined behaviour does not show up as a test failure",
  "src/parser.rs: Parser::next 141-164")
p("Script placement follows the last limits modifier",
  "After an operator that accepts them, a sequence of \\limits / \\nolimits modifiers sets the script position according to the last modifier, and without modifiers the operator's default position is used.",
  "every sequence of modifiers with any whitespace between them, of any length",
  "unbounded sequences",
  "src/parser/lex.rs: limit_modifiers", "src/parser.rs: InnerParser::parse 271-279")
p("Macro-free input yields a number of events linear in its length",
  "For input in which no macro is expanded, the number of items produced is at most a fixed constant times the number of characters.",
  "every input that defines no macro",
  "a quantitative bound over all inputs",
  "src/parser.rs: Parser::next", "src/parser/primitives.rs: handle_primitive")
# ---------------------------------------------------------------- no panic
p("The parser does not panic",
  "No input makes Parser::next panic (slice out of a character boundary, index out of range, arithmetic overflow, failed assertion, expect on None).",
  "every input string, every number of calls to next",
  "panics sit behind particular bytes at particular places",
  "src/parser/lex.rs: content_with_suffix, unsigned_integer, one_optional_space, color, decimal, octal, hexadecimal", "src/parser/macros.rs: expand_definition_in", "src/parser.rs: reach_original_call_site")
p("Characters handled as tokens are never whitespace, a comment sign or a backslash",
  "The token lexer returns either a non-empty control sequence name or a character that is neither whitespace, '%' nor '\\', never a character inside a comment, and it consumes at least one character; so the internal panics on such characters are unreachable.",
  "every input string",
  "all strings",
  "src/parser/lex.rs: token, rhs_control_sequence", "src/parser/primitives.rs: handle_char_token panics")
p("The position lookup behind error reporting never fails its assertion",
  "Computing the call site of a macro expansion or the context of an error always finds the string in which the parser currently is.",
  "every input, every history of macro expansions, at least up to and including the first error",
  "depends on the whole history of expansions and on how far nested groups have been consumed",
  "src/parser.rs: SpanStack::reach_original_call_site, SpanStack::add")
p("Error contexts are always sliced on character boundaries inside the strings",
  "Building the context of an error never slices outside a string or inside a multi-byte character, for all spans and offsets that can be recorded.",
  "every input text (any UTF-8), every stack of expansion spans, every error position",
  "byte offsets and character boundaries interact with arbitrary multi-byte text",
  "src/parser/error.rs: ParserError::new, floor_char_boundary")
p("floor_char_boundary returns the greatest character boundary not above the index",
  "For every valid UTF-8 string and index the function returns the largest character boundary <= min(index, len), and the unchecked unwrap in it is never reached on None.",
  "every string, every index",
  "undefined behaviour if wrong; all strings and indices",
  "src/parser/error.rs: floor_char_boundary")
# ---------------------------------------------------------------- lexing
p("Group content is the shortest balanced prefix before the closing delimiter",
  "Reading the inside of a group returns exactly the text up to the matching closing delimiter: the input is content ++ close ++ rest, the content is balanced (escapes and comments respected), and it fails exactly when there is no such split.",
  "every input text, braces and brackets",
  "arbitrary nesting, escapes and comments",
  "src/parser/lex.rs: group_content")
p("\\left...\\right and \\begingroup...\\endgroup enclose exactly their content",
  "The text between \\left and its matching \\right (resp. \\begingroup and \\endgroup) is the content of the group, also when it contains commands whose names merely start with left, right, begin or end.",
  "every content",
  "prefix collisions between command names and delimiters",
  "src/event.rs: GroupingKind::opening_str, closing_str", "src/parser/primitives.rs: left, begingroup", "src/parser/lex.rs: group_content")
p("Environment delimiters match the accepted environment names",
  "For every environment name \\begin accepts, the body is the text up to the matching \\end of the same name, and the grouping emitted is that environment's.",
  "every accepted environment name, every body",
  "all bodies, including ones with nested environments of the same name",
  "src/parser/primitives.rs: begin arm", "src/event.rs: GroupingKind")
p("Delimited macro arguments are matched by the first top-level occurrence of the suffix",
  "Reading a macro argument delimited by a suffix returns the shortest prefix with balanced groups followed by the suffix, for every input and suffix, and reports an error otherwise.",
  "every input text and non-empty suffix",
  "all strings",
  "src/parser/lex.rs: content_with_suffix")
p("Leading whitespace and comments do not change the parse",
  "Whitespace (any Unicode whitespace) and comments before a token do not affect the events produced.",
  "every input, every prefix of whitespace and complete comment lines",
  "all prefixes",
  "src/parser/lex.rs: token", "src/parser.rs: InnerParser::parse")
p("Whitespace between the two scripts of one base is insignificant",
  "base_sub ^sup is parsed as base_sub^sup (TeX ignores spaces in math mode).",
  "every base and scripts, any whitespace",
  "all combinations",
  "src/parser.rs: InnerParser::parse 292-312")
p("Numbers are lexed greedily",
  "A digit starts a Number event containing the longest run of digits and '.'/',' separators, and a separator at the end of the run is left out.",
  "every input starting with a digit",
  "all digit strings",
  "src/parser/primitives.rs: handle_char_token digits")
p("Dimension signs and units",
  "A dimension has the sign given by the parity of the minus signs before it, the decimal value written, and exactly the unit named by the following two letters; it fails if these are not one of the twelve TeX units.",
  "every sequence of signs and whitespace, every digit string, every following text",
  "all strings",
  "src/parser/lex.rs: signs, floating_point, dimension_unit, dimension")
p("Hexadecimal colours",
  "A colour '#RRGGBB' is read as exactly the three bytes written, in either letter case, for all 2^24 colours; anything else starting with # is rejected.",
  "every colour string",
  "2^24 colours, all malformed strings",
  "src/parser/lex.rs: color")
p("Named colours: exact dvips names first, then case-insensitive CSS names",
  "A colour name that is a dvips name in exactly that case has the dvips value; otherwise its value is the CSS colour of the lower-cased name; anything else is an unknown colour.",
  "every string",
  "all strings and letter cases",
  "src/parser/lex.rs: color", "src/parser/tables.rs: dvipsnames_color, primitive_color")
p("\\text and \\operatorname take exactly their argument",
  "\\text{s} produces exactly the text s and continues after the closing brace; \\text x takes exactly one character.",
  "every balanced text, every character, every continuation",
  "all texts",
  "src/parser/primitives.rs: text_argument, operatorname")
# ---------------------------------------------------------------- macros
p("Macro expansion substitutes arguments exactly",
  "Using a macro yields its replacement text with every #i replaced by the i-th argument, ## by #, everything else unchanged, followed by the unread rest of the input.",
  "every replacement text accepted by a definition, all arguments, every continuation",
  "all replacement texts and arguments",
  "src/parser/macros.rs: parse_replacement_text, expand_replacement, expand_definition_in")
p("Macro definitions are validated",
  "A definition is accepted only if its parameters are #1..#n in order with n <= 9 and its replacement refers only to #1..#n; so expanding never refers to a missing argument.",
  "every parameter text, every replacement text",
  "all texts",
  "src/parser/macros.rs: define, insert_command, parse_replacement_text", "src/parser/primitives.rs: new_command")
p("newcommand, renewcommand and providecommand respect existing definitions",
  "\\newcommand of an already defined macro is an error and changes nothing; \\renewcommand of an undefined one is an error; \\providecommand of an existing macro leaves it unchanged.",
  "every macro table, every name, every definition text",
  "all histories of definitions",
  "src/parser/primitives.rs: newcommand, renewcommand, providecommand, new_command")
p("\\let copies the meaning at the time of the assignment",
  "After \\let\\b\\a, \\b keeps meaning what \\a meant at that moment, also when \\a is redefined later.",
  "every macro table, every later sequence of definitions",
  "all histories",
  "src/parser/macros.rs: assign, expand_definition_in Alias")
p("Later definitions replace earlier ones and leave others alone",
  "After defining a macro, looking it up gives the new definition and every other name keeps its old meaning.",
  "every macro table and name, every sequence of definitions",
  "all histories",
  "src/parser/macros.rs: define, assign, insert_command")
p("Macro expansion is bounded",
  "At most 64 expansions are ever nested, and no expansion is spliced in after the total number of expanded bytes has reached 1 MiB.",
  "every input, every moment of the parse",
  "all histories",
  "src/parser.rs: InnerParser::parse 240-259, SpanStack")
p("Storage used by macro expansion is bounded by the limits",
  "The bytes allocated in the storage by expansions are accounted for by the limits (limit both depth and total expansion bytes to prevent OOM).",
  "every input",
  "the expansion is allocated before the limit is checked",
  "src/parser.rs: 26-31, 240-251", "src/parser/macros.rs: try_expand_in")
p("A macro may be used any number of times",
  "A non-recursive macro can be used arbitrarily often in one formula; the recursion limit concerns nesting only.",
  "every number of uses",
  "needs more uses than a test writes",
  "src/parser.rs: InnerParser::parse, SpanStack::add")
# ---------------------------------------------------------------- renderer
p("Rendering a well-formed event stream does not panic",
  "For every event stream that satisfies the documented invariants, the MathML writer does not panic.",
  "every well-formed stream, every configuration",
  "all streams",
  "src/mathml.rs: write, write_event, array_newline, array_align, expect on state_stack")
p("push_mathml does not panic on any input",
  "Parsing any text and rendering the result does not panic.",
  "every input",
  "the renderer trusts invariants which the parser must establish",
  "src/mathml.rs: push_mathml, array_align", "src/parser/primitives.rs")
p("The output is well-formed markup for every well-formed stream",
  "For every event stream satisfying the documented invariants with markup-free content, every element opened in the output is closed in order, and the document is one math element.",
  "every well-formed stream, every configuration",
  "all streams",
  "src/mathml.rs: write_event, write")
p("Errors in the stream do not break the markup",
  "The output has balanced tags also when the stream contains errors.",
  "every input",
  "error recovery paths",
  "src/mathml.rs: write 902-1016")
p("Text is escaped",
  "Text content appears in the output with <, > and & replaced by entities and nothing else changed, so that decoding the entities gives back the text and the text cannot introduce markup.",
  "every text",
  "all texts",
  "src/mathml.rs: write_escaped, write_content Text")
p("No content introduces markup",
  "No content of the formula (relations, function names, annotations, error messages) can introduce markup in the output.",
  "every input",
  "all contents; an injection needs one forgotten path",
  "src/mathml.rs: write_content, write, Function, annotation, error")
p("Peeking does not lose, duplicate or reorder events",
  "The look-ahead iterator yields exactly the underlying events in order, whatever peeks are interleaved with the reads.",
  "every sequence of peeks, resets and reads, every stream",
  "all interleavings",
  "src/mathml.rs: ManyPeek")
p("State changes are scoped to their group",
  "Font, colour and style changes inside a group have no effect after the end of that group.",
  "every group content, every nesting",
  "all streams",
  "src/mathml.rs: handle_state_change, state_stack, write_event Begin/End")
p("Mapping characters to fonts always gives a valid character",
  "Applying a font to any character gives a Unicode scalar value (the expect is unreachable).",
  "every font, every character",
  "16 fonts times 1.1 million characters",
  "src/mathml.rs: Font::map_char")
p("Fonts map letters to the Unicode mathematical alphabet they name",
  "For every font and every letter or digit, the mapped character is the corresponding character of the Unicode mathematical alphanumeric block of that font.",
  "every font, every letter, digit and Greek letter",
  "a wrong offset only shows on the letters one happens to test",
  "src/mathml.rs: Font::map_char")
p("The error colour is written exactly",
  "The colour in the error element is the configured error colour as #rrggbb.",
  "all 2^24 colours",
  "only components below 16 are affected",
  "src/mathml.rs: write (error color)")
p("Colours are written exactly",
  "A colour state change is written as a CSS colour that denotes exactly the given RGB triple.",
  "all 2^24 colours",
  "2^24 cases",
  "src/mathml.rs: open_tag")
p("Dimensions are written with the documented unit conversion",
  "Each length is written as a decimal followed by the CSS unit of the documentation table, and the decimal is the value converted with the documented factor (up to the precision of f32).",
  "all units, all values",
  "all values",
  "src/event.rs: Display for Dimension")
p("Every array row has one cell per column written",
  "Rendering an array row with k alignment marks writes exactly k+1 column cells plus the border cells the column specification asks for, and never reads past the column specification.",
  "every column specification, every row",
  "all specifications",
  "src/mathml.rs: array_newline, array_align, array_close_line")
p("Wrapper elements follow the configuration",
  "The output starts with the math start tag with exactly the attributes the configuration asks for, ends with the end tag, and contains the annotation iff configured.",
  "every configuration, every stream",
  "all streams",
  "src/mathml.rs: write 902-1016")
p("The call depth of the parser is bounded",
  "The depth of recursive calls while parsing does not grow without bound with the input (so no stack overflow).",
  "every input",
  "needs huge inputs",
  "src/parser/primitives.rs: handle_primitive/handle_argument recursion", "src/parser/lex.rs: token", "src/parser.rs: Parser::next")
p("A macro used as an argument of a command is expanded",
  "Where a command reads an argument, a macro call can stand for the argument, as in \\frac\\f b: the stream is that of the text with the macro expanded.",
  "every macro, every command that takes arguments",
  "all combinations of commands and macros",
  "src/parser.rs: parse", "src/parser/primitives.rs: handle_argument")
p("Expansion keeps token boundaries",
  "Expanding a macro never merges the end of its replacement text with the text that follows into another token.",
  "every macro, every text that follows",
  "depends on the last token of the replacement and the first of the rest",
  "src/parser/macros.rs: expand_replacement, try_expand_in")
p("The context of an error shows the place of the error",
  "The message of an error quotes the text around the place where the parser stopped, and if this is in an expansion, then the call it came from.",
  "every input, every error, every stack of expansions",
  "all offsets in all nestings of expansions",
  "src/parser/error.rs: ParserError::new")
p("The stream depends only on the text",
  "Two parsers in states that differ only in where the text is stored (how it was cut out or expanded) yield the same items up to the limits on expansion.",
  "every pair of states with the same texts",
  "relates arbitrary internal states",
  "src/parser.rs: Parser::next, parse")
p("Elements get the number of children MathML requires",
  "In the output for a well-formed stream, mfrac, mroot, msub, msup, munder and mover have two children, msubsup and munderover three.",
  "every well-formed stream, every configuration",
  "depends on the nesting of all constructs and on the automatic spacing between neighbours",
  "src/mathml.rs: write_event, write_content, write")
p("Letters are upright or italic as the math style says",
  "Without a font command, Latin and Greek letters are written upright or italic following the table in the documentation of MathStyle.",
  "every style, every letter, every configuration",
  "400 combinations, four of them tested",
  "src/config.rs: MathStyle, should_be_upright", "src/mathml.rs: write_content")
p("Every construct of the supported language means what its documentation says",
  "A text composed of the documented constructs (characters, numbers, groups, scripts, fractions, roots, accents, delimiters, fonts, sizes, spaces, environments with rows and columns, and so on) is parsed without error to the events of its constituents in their documented order, wherever it occurs and whatever follows it.",
  "every text derivable in the grammar, every nesting, every continuation",
  "infinitely many compositions; tests fix a few dozen literals",
  "src/parser.rs: Parser::next, parse", "src/parser/primitives.rs: handle_primitive, handle_char_token, font_group, fraction_like, accent, underscript, matrix_env")
p("The class of every printable ASCII character",
  "Each printable ASCII character other than the digits and \\ % _ ^ $ # & { } yields exactly one content event of its TeX class, with - * ' turned into the minus sign, asterisk operator and prime.",
  "every such character, every continuation",
  "each character in front of every possible text",
  "src/parser/primitives.rs: handle_char_token", "src/parser/tables.rs: is_binary, is_relation, char_delimiter_map")
p("The meaning of a group does not depend on its surroundings",
  "A group of a text that parses by itself yields the events of that text between Begin(Normal) and End; an error in the text of a group, an argument or a cell, at any depth, is the error of that text alone, after exactly the events of what precedes it; of several errors the first is the one reported.",
  "every text, every formula around it, every nesting",
  "quantifies over contexts",
  "src/parser.rs: Parser::next, Instruction::SubGroup")
p("Each mistake is reported as itself, where it is",
  "Each documented kind of mistake (unknown commands and environments, missing arguments, doubled scripts, unbalanced groups, marks and rows where none may be, wrong units, colours, delimiters and character codes) yields its own error, directly after the events of all that precedes it, wherever in a formula it is.",
  "every formula, every place in it, every mistake",
  "quantifies over all formulas around the mistake and all texts after it",
  "src/parser/error.rs: ErrorKind", "src/parser/primitives.rs: handle_primitive", "src/parser.rs: parse, Parser::next")
p("The MathML of a stream is the drawing of its tree",
  "For every stream of the documented shape, the text written is that of a tree of elements which a simple recursion over the nested structure of the stream gives: each node's elements depend only on the node, the element it stands in, the font, colours and style in force, and the classes of the neighbouring atoms.",
  "every well-formed stream, every configuration",
  "tests compare stored outputs of a few hundred formulas; the claim is about all streams and all nestings",
  "src/mathml.rs: write, write_event, write_content, MathmlWriter")
p("A macro ended by a brace reads up to the brace",
  "If the parameter text of a \\def ends with #, the last argument of a use ends before the first opening brace that follows (and its delimiter, which is removed); the brace itself stays and is the start of what follows the replacement text.",
  "every such definition, every use", "all definitions and uses",
  "src/parser/macros.rs: define, try_expand_in, expand_definition_in")

p("The conversion draws the meaning of the text",
  "For every text that has a meaning (C60) and avoids the few constructions that leave the event grammar (C09), the MathML returned by push_mathml on the parser's items is the drawing of the trees of that meaning and nothing else, whatever the configuration: the same text always gives that one document, and texts with the same meaning give the same markup.",
  "every regular valid text that parses without an error, every configuration", "all texts and configurations",
  "src/lib.rs", "src/parser.rs: Parser::next", "src/mathml.rs: push_mathml")

p("A text with macros means what its expansion means",
  "A text that starts with definitions and continues with a formula which uses them (anywhere: in groups, arguments in braces, scripts, cells, the replacement texts and arguments of other macros) yields the events of the formula in which each use is replaced by the replacement text with the arguments put in; the only other outcome is the error of the recursion limit, after a beginning of these events.",
  "every list of definitions, every formula, every nesting of uses", "all macros, all formulas around their uses",
  "src/parser.rs: Parser::next, parse", "src/parser/macros.rs: MacroContext")

p("The symbol commands denote the standard symbols",
  "Every symbol command of the standard LaTeX, amsmath and amssymb lists that is supported yields one event: the character that unicode-math gives it, with its class (ordinary, binary, relation, operator, opening, closing, punctuation) and, for the spacing commands, the standard width.",
  "every command of a table of 550 names, every place in a formula", "a stored output covers one use of a few of them; the claim is about all of them at every place",
  "src/parser/primitives.rs: handle_primitive", "src/parser/tables.rs")
p("A symbol typed as a character is the symbol of its command",
  "A Unicode mathematical character written in the text yields the same event as the standard command for it.",
  "every character of the same table, every place", "several hundred characters, every text after them",
  "src/parser/primitives.rs: handle_char_token", "src/parser/tables.rs: is_binary, is_relation, char_delimiter_map")

p("The lengths of the output are those of the text",
  "A length written in the text (signs, digits with a point or a comma, one of the twelve units) appears in the output as a decimal with the CSS unit of the documentation, and the decimal is the number written times the documented factor, up to a relative error of 2^-21 for each digit written.",
  "every sign sequence, every number, every unit, every following text", "all numbers: the error of reading, converting and writing in f32 cannot be bounded by samples",
  "src/parser/lex.rs: dimension, floating_point", "src/event.rs: Display for Dimension")

p("\\futurelet names the second token and reads nothing",
  "After \\futurelet\\n the macro \\n stands for the second of the two tokens that follow, and the text after it is still read from the first of them: the effect is that of \\let\\n= with that token, written before the same text.",
  "every list of earlier definitions, every token, every text after it", "all definitions before and all texts after",
  "src/parser/lex.rs: futurelet_assignment", "src/parser/primitives.rs: handle_primitive \"futurelet\"", "src/parser/macros.rs: assign")

p("The base decides where its scripts are set",
  "Whether the scripts of an element are set beside it, above and below it, or according to the style is decided by the base and by the \\limits, \\nolimits and \\displaylimits that follow it, and by nothing else: not by what the scripts or the arguments of the base contain.",
  "every base, every sequence of modifiers, all scripts and arguments", "all combinations of base and scripts",
  "src/parser.rs: handle_suffix_scripts", "src/event.rs: ScriptPosition")
p("push_mathml only appends",
  "push_mathml leaves what the string it is given already contains as it is, and what it appends does not depend on it.",
  "every string, every configuration, every iterator of events and errors, also ill-formed ones", "a quantification over the strings and the streams",
  "src/mathml.rs: push_mathml, MathmlWriter")

p("The errors of macros say what is wrong, and change nothing",
  "A definition or a use of a macro that is wrong yields the error of what is wrong with it, with no event before it, and the macros keep the meanings they had. In a definition: no name, no body, a body that is not closed, braces or comments among the parameters, parameters out of order or unknown, a number of parameters that is no number or above nine, a name already taken or not yet known. In a use: another text than the one the parameters start with, a delimiter that does not come, an argument that is missing, a group that is not closed.",
  "every list of earlier definitions, every text of the definition or use, every text after it", "all definitions, all uses, all texts around them",
  "src/parser/macros.rs: define, insert_command, expand_definition_in", "src/parser/lex.rs: definition, let_assignment, futurelet_assignment, argument, content_with_suffix", "src/parser/primitives.rs: new_command")
p("A comment before an argument of a macro is skipped",
  "A comment (with the end of its line) between the name of a macro, or an earlier argument, and an undelimited argument changes nothing: the argument is the one read without the comment.",
  "every macro, every comment, every argument", "all macros, comments and arguments",
  "src/parser/lex.rs: argument, token", "src/parser/macros.rs: expand_replacement")

p("A text is accepted exactly when it is a formula",
  "Nothing but formulas is accepted: a text without the commands and places listed as doubtful parses without an error exactly when the documented rules give it a meaning, and then to the events of that meaning, of which there is only one; if they give it none, the parser yields the events of what precedes the first mistake and the error of that mistake, and nothing else happens. Every other text has a meaning, or comes to a mistake, or to one of the doubtful places.",
  "every text", "the converse of acceptance quantifies over all texts, also those nobody would write",
  "src/parser.rs: Parser::next, parse", "src/parser/primitives.rs: handle_primitive, handle_char_token, handle_argument", "src/parser/lex.rs")

p("The message of an error tells what is wrong",
  "What is displayed of an error determines its kind, the delimiter that is missing or the numbers of the parameters, and its context: two errors that differ in any of these are displayed differently. The message has the words that say what is wrong: the delimiter with which an unclosed group has to be closed, the script that is given twice, the kind of argument that is missing.",
  "every error", "all kinds of errors, all groups, all numbers and all contexts, in pairs",
  "src/parser/error.rs: Display for ParserError, Display for ErrorKind", "src/event.rs: GroupingKind::closing_str")

p("Every content and every error is shown, in order",
  "Whatever push_mathml writes for a stream, well formed or not, shows every content and every error of the stream, each as an element of its own and in the order of the stream: an error by its whole message, a symbol, number, function name or text by its characters, in a font that the stream sets, struck through if a negation precedes it directly. In particular the output for a text has the message of each error of the text; and a text where nothing doubtful occurs shows either the contents of its meaning, or the contents before its first mistake and then that mistake.",
  "every stream of events and errors, every configuration; every text", "all streams, also ill-formed ones, and all interleavings of errors with events",
  "src/mathml.rs: MathmlWriter::write, write_event, write_content")

p("Where memory puts the expansions does not show",
  "The parser finds the macro call a text comes from by comparing addresses. Wherever the storage puts the expansions, as long as no two texts share a byte and no expansion begins exactly where an older text ends, the events, the first error and the context shown with it are the same.",
  "every input and every placement of the input and of the expansions in memory", "the addresses depend on the allocator, its chunks and what was stored before; a test sees one placement",
  "src/parser.rs: SpanStack::reach_original_call_site, SpanStack::add, parse", "src/parser/error.rs: ParserError::new", "src/parser/storage.rs: Storage")

p("A text after a formula does not change it",
  "If a text is a formula, that is, has a meaning by the documented rules and so defines no macros, and another text is written after it, then the events of the formula come first and unchanged, and after them whatever the other text yields by itself, events or an error; provided that the second text cannot go on with the first: it starts neither with a letter, a digit, a dot, a comma, white space or a script sign, nor with \\limits or \\nolimits, and the first has no comment on its last line. If both texts are formulas, so are the two one after the other. After a comment and the end of its line any text is read as by itself, without these conditions. After white space whose first character is ASCII the second text may also start with a letter or a digit, but not with the words plus or minus. A formula in braces is kept apart from every text that does not start with a script.",
  "every formula and every text after it", "all pairs of a formula and a text; a command, an environment or a length at the end of the first could take part of the second",
  "src/parser.rs: Parser::next, parse, parse_scripts", "src/parser/lex.rs", "src/parser/primitives.rs: handle_primitive, handle_char_token")

out = os.path.join(os.path.dirname(os.path.abspath(__file__)), "..", "properties.jsonl")
with open(out, "w") as f:
    for x in P: f.write(json.dumps(x, ensure_ascii=False) + "\n")
print(len(P))
