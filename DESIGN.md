# Formal model of pulldown-latex

All paths are relative to `/repo`. The properties are in `properties.jsonl`, the
status of each in `MANIFEST.json`, the bug-seeding log in `seeded/LOG.jsonl`, the
model and the proofs in `rocq/theories`. Tables of the model that are long
(`Tables.v`, `PrimTable.v`, `FontTable.v`) are generated from the text of the
source by `tools/gen_tables.py` and `tools/gen_font.py`; sections 6 and 7 of
this file by `tools/gen_design.py`.

## 1. How the code is modelled

| Rust | Model |
| --- | --- |
| `char` | `N` (a Unicode scalar value) |
| `&'a str` used only for its text | `str := list N`, the list of its characters; byte lengths by `blen` (sum of the UTF-8 lengths) |
| `&'a str` whose address matters (`content`, `SubGroup`) | `slice` = (allocation id, byte offset, text); the parser input is allocation 0, every expansion gets a fresh id. The code compares addresses instead; `Memory.v` has the parser with addresses and C79 relates the two |
| `f32` | `SpecFloat.spec_float` with 24-bit precision and `emax = 128`, IEEE operations of the standard library (no axioms) |
| `Result` + `panic!` | `res A := Ok a | Err e | Panic p | Fuel`; every panic site of the code is an explicit `Panic` value |
| `&mut self` | state passing; the state is returned also on `Err`, because the code keeps it |
| loops | structural recursion on the text; recursion between `handle_argument` and `handle_primitive` and the recursion of `parse`/`next` on explicit fuel, `Fuel` being excluded by theorems (C01) |
| `HashMap` | association list, newest first |
| `unsafe` `set_len` in `next` | explicit uninitialised slots; reading one is a failure (C11) |
| output writer | list of characters appended |

Arithmetic overflow is a panic (the profile used by `cargo test` and by the fuzz target).

## 2. Trusted base

* Coq's kernel (8.16.1), including its virtual machine (`vm_compute` is used for
  tables and concrete inputs). No plugin besides those of the standard
  distribution (`lia`, `ring` tactics produce terms the kernel checks).
* Axioms: **none**. Each theorem named in `MANIFEST.json` has a `Print
  Assumptions` beneath it; each prints `Closed under the global context`. No
  axiom of the standard library is used.
* The reading of the Rust code that section 3 describes: the model is written by
  hand from the text of the source, the code was never run. As a check, the model was
  extracted and its output compared with the outputs stored in `tests/out`: 329
  of 335 formulas agree to the last character. The other six were
  stored by an older version (`\boldsymbol` of Greek letters upright, `\frac25`
  read as one number), which the present source contradicts; the assertions in
  `tests/*.rs` hold of the model.
* The specifications (files named `Spec*.v`), which are to be read together with
  the theorems, and which do not mention the model's functions, apart from the
  types of events and `is_ws`, `is_alpha`, `is_digit`.

## 3. What is modelled and what is not

Modelled, function by function, with file and lines in the comments:

| source | model |
| --- | --- |
| `src/event.rs` | `Event.v`: all event types; `Display` of dimensions in `Mathml.v` |
| `src/parser/tables.rs` | `Tables.v`: all tables |
| `src/parser/lex.rs` | `Lex.v`: all functions |
| `src/parser/macros.rs` | `Macros.v`: all functions |
| `src/parser/primitives.rs` | `Prim.v` (kinds of arms), `PrimTable.v` (names to arms, all of them), `Primitives.v` (behaviour of each arm, helper functions) |
| `src/parser.rs`, `src/parser/state.rs` | `Parser.v`: `next`, `parse`, script handling, `SubGroup` frames, limits; `Spans.v`: `SpanStack`; `Memory.v`: the same with addresses |
| `src/parser/error.rs` | `Spans.v`: `ParserError::new`, its context and its text; `inner` kinds in `Base.v` |
| `src/mathml.rs`, `src/config.rs` | `Mathml.v`, `FontTable.v`: `push_mathml` and everything it calls, `ManyPeek` |

Simplified or left out:

* `Storage` (`src/parser/storage.rs`) is a bump allocator: an expansion is a fresh allocation
  that shares no byte with another text. Nothing of the allocator is modelled; C79 assumes besides that no
  expansion begins exactly where an older text ends (it allocates downward, and chunks end with a footer).
* `u32` depth counters are unbounded; `usize` is 64 bits wide; memory is unbounded.
* Writing to the output cannot fail (`push_mathml`); `write_mathml` with a failing writer is left out.
* The iterator given to the renderer is the finite list of its items.
* `to_lowercase` for colour names changes the ASCII letters and the Kelvin sign (U+212A, to `k`), the only
  characters whose lower case can be part of a colour name.
* `Display for f32` is Rust's shortest round-trip decimal, by search over the number of digits (`Float32.v`).
* The crate's `std::error::Error` glue, `Debug` and `Clone` instances, and the documentation examples are left out.

## 4. Files

| files | contents |
| --- | --- |
| `Base`, `Float32`, `Event`, `Tables`, `Prim`, `PrimTable`, `Lex`, `Macros`, `Primitives`, `Spans`, `Parser`, `Memory`, `FontTable`, `Mathml`, `Whole` | the model |
| `SpecLex`, `SpecNum`, `SpecColor`, `SpecMacro` | specifications of white space and comments, balanced text, numbers, colours, substitution |
| `SpecEvent`, `SpecGrammar`, `SpecRows`, `SpecMarks`, `SpecInput`, `SpecClean`, `SpecOpen` | the event grammar, marks per row, texts that keep to it, commands that may leave a group open |
| `SpecFormula`, `SpecFault`, `SpecBeyond`, `SpecCall`, `SpecSymbol`, `SpecDefect`, `SpecUse`, `SpecAppend` | the meaning of formulas (an inductive relation between texts and events), of mistakes, the texts of which these rules say nothing, of macros; the standard symbols; faults of definitions and of uses of macros |
| `SpecDimension` | rational values of `f32`, of decimals and of the numbers of lengths; the documented CSS units |
| `SpecStream`, `SpecXml`, `SpecFont`, `SpecDraw`, `SpecMessage`, `SpecContext`, `SpecShown` | trees of events, markup, Unicode alphabets, the drawing of a tree as MathML, the characters of messages, the frame around the quoted input and the words of messages, the text that shows a content or an error |
| `PropTermination`, `PropShape`, `PropLex`, `PropPanic`, `PropMacro`, `PropRender`, `PropFormula`, `PropDecide`, `PropDraw`, `PropWhole`, `PropCall`, `PropSymbol`, `PropDimension`, `PropDefect`, `PropShown`, `PropMemory`, `PropAppend` | the theorems named in the manifest, with cases that meet their hypotheses |
| all others | lemmas |

## 5. Behaviour of the code found wrong, or other than documented

Each is a theorem `…_refuted` where a property is concerned, or was met while modelling.

Parser:

* `\begingroup a\endgroup b` leaves the text `group b` (C20)
* `\left(a\rightarrow b\right)` fails, `\right` being looked for as a prefix (C20)
* `\begin {matrix}a\end {matrix}` fails (C21)
* `\buildrel 1\over =` loses what follows in its group; `\sideset` drops its first two arguments
* `\text ab` and `\operatorname a b c` take everything that follows (C29)
* `\genfrac{(}{)}{0pt}{}{n}{k}` fails with a delimiter error (src/parser/primitives.rs:1292-1322) (stated: C63_parts_case)
* `\mathop{\rm lim}` yields a function named by the raw text
* 65 uses of a macro after each other in one group exceed the recursion limit (C37); expansions of a finished group still count
* `x^2 _3` with a space between the scripts is read as two bases (C24)
* `1..` is the number `1.` (C25); dimensions above 2^24 are not rounded to nearest, and thirty-nine nines are `inf` (C26); octal codes accept the digits 8 and 9
* `#+1+2+3` is accepted as a colour, `#1é123` panics (C27)
* `\#` in a replacement text; `\let` aliases by name (C33); a control word at the end of an expansion is glued to the text that follows (C55)
* `\def\f#1{#1^2}\f%` and, on the next line, `{ab}`: the argument is the brace alone, and the square is set on nothing (C75)
* an expansion is allocated before the limit is checked (C36)
* `\def\f#1x#{…}` leaves the delimiter `x` in the text, an escaped brace ends such an argument, `\def\f#{…}` does not require a brace (C65)
* an optional argument that is not closed consumes its `[`; `\newcommand{\f}{a}` without a count fails if a group follows
* error messages print `{{}}` for braces; the context of an error is displaced after an expansion (C56)
* `\mathbf&` and `\mathbf\\` inside rows put a mark outside its row (C06, C07), `\mathbf$b` leaves a group open after the error (C05)
* `\mathbf 12` takes `12` as one element; `\relax^2` has no base (C06); `\limitsfoo` is read as `\limits` and `foo`
* `\\[1em junk]` is accepted; `\right .` with a space fails; the strut has no depth
* `next` recurses once per definition, so a long chain of definitions overflows the stack (C53)
* the position lookup of errors fails its assertion after an error (C16); multi-byte white space after a unit panics (C14)
* `\mu` yields the micro sign U+00B5 (src/parser/primitives.rs:233), which no font changes; `\Game` yields the gimel (304); `\smallsetminus` is not small although src/event.rs:129-134 gives it as the example; `\colon`, `\ldotp`, `\cdotp` are not punctuation, `\asymp` is not a relation; `\ncong` yields U+2246 instead of U+2247 (1134), `\varnothing` the diameter sign (872), `\Diamond` the lozenge (361), `\barwedge` U+2305 (909); `\|` is the ordinary U+2225 instead of the delimiter of `\Vert` (1503); `\dagger` and `\ddagger` are ordinary and the characters themselves relations, where TeX has binary operators (334) (C68)
* `⎰` typed as a character is a relation, not a delimiter; `∑`, `∏`, `∫` and the minus sign `−` typed as characters are ordinary letters (C69; src/parser/primitives.rs:110-128)
* `x^\sum` sets the superscript above x, `\frac\sum x_a` the subscript below: the position leaks from the argument to the base (C72; src/parser.rs:266-357)

Renderer:

* `<` and `&` are not escaped in relations, functions, annotations and errors (C43); `~` is written `&amp;nbsp;`
* spaces without a width are written as two elements that do not match (`\strut`, C40); a space is missing before `minsize`
* components of the error colour below 16 are written with one digit (C48)
* lengths in mu are written `mu`, which CSS does not know (C50); the documentation of `sp` (src/event.rs:735-751) gives 65536 * 72.27 sp in 1 pt where it should be 65536
* `map_char` is wrong for 29 characters (C47)
* row breaks outside of a table's cells panic (C39); groups stay open after errors (C41)
* `2\sin^2 x` and `\frac\sin x` give elements a wrong number of children (C58)
* `\begin{dcases}\hline…` drops the line; alignat overflows at 65535 marks
* the atom before, after a fraction or a script, is its first child; a negated binary operator takes itself for the atom that follows (src/mathml.rs:398-410)
* several blanks at an end of a text collapse to one `&nbsp;` (C42)

## 6. Properties, status and theorems

| id | property | status | theorems |
| --- | --- | --- | --- |
| C01 | Parsing always terminates | proved | `C01_next_returns`, `C01_parsing_terminates` |
| C02 | The iterator is fused | proved | `C02_fused` |
| C03 | Begin and End events are balanced in every error-free stream | proved | `C03_groups_balanced` |
| C04 | No prefix of the stream closes a group that was not opened | proved | `C04_groups_nest` |
| C05 | The stream stays balanced after an error | partial | `C05_balanced_after_error_refuted`, `C05_balanced_after_error_partial`, `C05_commands_refuted` |
| C06 | Visual and Script events are followed by exactly the elements they require | partial | `C06_arities_partial`, `C06_prefix_partial`, `C06_arities_refuted`, `C06_more_refuted` |
| C07 | Alignment and NewLine events occur only directly inside an environment that allows them | partial | `C07_flow_placement_partial`, `C07_flow_placement_refuted` |
| C08 | A row never has more alignment marks than its environment allows | proved | `C08_marks_per_row`, `C08_marks_per_row_partial`, `C08_after_error_refuted` |
| C09 | Every Array grouping has at least one column | proved | `C09_array_has_column` |
| C10 | Scripts are emitted base, subscript, superscript whatever the source order | partial | `C10_groups_partial`, `C10_both_orders_partial`, `C10_refuted` |
| C11 | The unsafe set_len only exposes initialised memory | proved | `C11_scripts_moved` |
| C12 | Script placement follows the last limits modifier | proved | `C12_last_modifier`, `C12_last_modifier_scripts` |
| C13 | Macro-free input yields a number of events linear in its length | proved | `C13_linear_items` |
| C14 | The parser does not panic | partial | `C14_calm_partial`, `C14_panic_kinds_partial`, `C14_ascii_partial`, `C14_no_hash_partial`, `C14_no_panic_refuted` |
| C15 | Characters handled as tokens are never whitespace, a comment sign or a backslash | proved | `C15_token`, `C15_token_total`, `C15_blank_skipped` |
| C16 | The position lookup behind error reporting never fails its assertion | partial | `C16_place_found_partial`, `C16_place_found_refuted` |
| C17 | Error contexts are always sliced on character boundaries inside the strings | proved | `C17_context_total`, `C17_spans_recorded` |
| C18 | floor_char_boundary returns the greatest character boundary not above the index | proved | `C18_floor`, `C18_bytes` |
| C19 | Group content is the shortest balanced prefix before the closing delimiter | proved | `C19_group`, `C19_any_group`, `C19_fails`, `C19_unique` |
| C20 | \left...\right and \begingroup...\endgroup enclose exactly their content | partial | `C20_left_right_partial`, `C20_left_right_refuted`, `C20_begingroup_refuted` |
| C21 | Environment delimiters match the accepted environment names | partial | `C21_environment_partial`, `C21_names`, `C21_no_other_name`, `C21_no_end`, `C21_refuted` |
| C22 | Delimited macro arguments are matched by the first top-level occurrence of the suffix | partial | `C22_delimited`, `C22_fails_partial`, `C22_fails_refuted` |
| C23 | Leading whitespace and comments do not change the parse | proved | `C23_blank_before` |
| C24 | Whitespace between the two scripts of one base is insignificant | partial | `C24_space_before_first_script_partial`, `C24_refuted` |
| C25 | Numbers are lexed greedily | partial | `C25_number_shape`, `C25_no_trailing_separator_refuted` |
| C26 | Dimension signs and units | partial | `C26_integer_partial`, `C26_fraction_partial`, `C26_value_partial`, `C26_unit_required`, `C26_nearest_refuted`, `C26_overflow_refuted` |
| C27 | Hexadecimal colours | partial | `C27_hex`, `C27_others_partial`, `C27_plus_refuted`, `C27_panics_refuted` |
| C28 | Named colours: exact dvips names first, then case-insensitive CSS names | proved | `C28_css`, `C28_dvips`, `C28_unknown`, `C28_color`, `C28_textcolor` |
| C29 | \text and \operatorname take exactly their argument | partial | `C29_text_partial`, `C29_operatorname_partial`, `C29_refuted` |
| C30 | Macro expansion substitutes arguments exactly | proved | `C30_expansion_substitutes`, `C30_expansion_anywhere` |
| C31 | Macro definitions are validated | proved | `C31_definition_refused`, `C31_definition_accepted`, `C31_no_missing_argument` |
| C32 | newcommand, renewcommand and providecommand respect existing definitions | proved | `C32_command_refused`, `C32_provide_keeps` |
| C33 | \let copies the meaning at the time of the assignment | partial | `C33_let_partial`, `C33_let_snapshot_refuted` |
| C34 | Later definitions replace earlier ones and leave others alone | proved | `C34_newest_meaning`, `C34_update` |
| C35 | Macro expansion is bounded | proved | `C35_depth_bounded`, `C35_total_bounded`, `C35_limit_reported` |
| C36 | Storage used by macro expansion is bounded by the limits | partial | `C36_storage_counted_partial`, `C36_storage_counted_refuted` |
| C37 | A macro may be used any number of times | partial | `C37_any_number_refuted`, `C37_uses_partial` |
| C38 | Rendering a well-formed event stream does not panic | proved | `C38_no_panic` |
| C39 | push_mathml does not panic on any input | partial | `C39_no_panic_refuted`, `C39_items_partial`, `C39_text_partial`, `C39_regular_partial` |
| C40 | The output is well-formed markup for every well-formed stream | partial | `C40_markup_refuted`, `C40_markup_partial`, `C40_input_partial` |
| C41 | Errors in the stream do not break the markup | partial | `C41_errors_refuted`, `C41_errors_partial`, `C41_children_partial`, `C41_message`, `C41_message_chars`, `C41_input_partial` |
| C42 | Text is escaped | partial | `C42_text_refuted`, `C42_text_partial`, `C42_plain_partial` |
| C43 | No content introduces markup | partial | `C43_markup_refuted`, `C40_input_partial` |
| C44 | Peeking does not lose, duplicate or reorder events | proved | `C44_peeking` |
| C45 | State changes are scoped to their group | proved | `C45_scope` |
| C46 | Mapping characters to fonts always gives a valid character | proved | `C46_valid` |
| C47 | Fonts map letters to the Unicode mathematical alphabet they name | partial | `C47_alphabets_refuted`, `C47_alphabets_partial`, `C47_exceptions_partial` |
| C48 | The error colour is written exactly | partial | `C48_error_colour_refuted`, `C48_error_colour_partial` |
| C49 | Colours are written exactly | proved | `C49_colour` |
| C50 | Dimensions are written with the documented unit conversion | partial | `C50_units_partial`, `C50_same_number`, `C50_others`, `C50_units_refuted`, `C50_sp_refuted` |
| C51 | Every array row has one cell per column written | proved | `C51_rows` |
| C52 | Wrapper elements follow the configuration | proved | `C52_wrapper` |
| C53 | The call depth of the parser is bounded | partial | `C53_refuted`, `C53_depth_bounded_by_text_partial` |
| C54 | A macro used as an argument of a command is expanded | partial | `C54_macro_argument_refuted`, `C67_macros_mean` |
| C55 | Expansion keeps token boundaries | partial | `C55_token_boundaries_refuted`, `C67_macros_mean` |
| C56 | The context of an error shows the place of the error | partial | `C56_context_shows_place_partial`, `C56_lines`, `C56_context_shows_place_refuted` |
| C57 | The stream depends only on the text | proved | `C57_only_the_text` |
| C58 | Elements get the number of children MathML requires | partial | `C58_children_refuted`, `C58_children_partial`, `C58_input_partial` |
| C59 | Letters are upright or italic as the math style says | proved | `C59_style`, `C59_every` |
| C60 | Every construct of the supported language means what its documentation says | proved | `C60_meaning_parses`, `C60_meaning_before_anything` |
| C61 | The class of every printable ASCII character | proved | `C61_ascii_characters` |
| C62 | The meaning of a group does not depend on its surroundings | proved | `C62_group_is_content`, `C62_error_inside`, `C62_first_error` |
| C63 | Each mistake is reported as itself, where it is | proved | `C63_fault_reported`, `C63_first_fault` |
| C64 | The MathML of a stream is the drawing of its tree | proved | `C64_drawing` |
| C65 | A macro ended by a brace reads up to the brace | partial | `C65_brace_partial`, `C65_brace_refuted` |
| C66 | The conversion draws the meaning of the text | proved | `C66_conversion`, `C66_meaning`, `C66_macros` |
| C67 | A text with macros means what its expansion means | proved | `C67_macros_mean`, `C67_complete` |
| C68 | The symbol commands denote the standard symbols | partial | `C68_symbols_partial`, `C68_inside_partial`, `C68_symbols_refuted` |
| C69 | A symbol typed as a character is the symbol of its command | partial | `C69_characters_partial`, `C69_blocks_partial`, `C69_negations`, `C69_refuted`, `C69_operators_refuted` |
| C70 | The lengths of the output are those of the text | partial | `C70_lengths_partial`, `C26_overflow_refuted` |
| C71 | \futurelet names the second token and reads nothing | proved | `C71_futurelet` |
| C72 | The base decides where its scripts are set | partial | `C72_place_partial`, `C72_place_refuted`, `C12_last_modifier_scripts` |
| C73 | push_mathml only appends | proved | `C73_appends` |
| C74 | The errors of macros say what is wrong, and change nothing | proved | `C74_use_fault`, `C74_use_total`, `C74_command_fault`, `C74_assignment_fault`, `C31_definition_refused` |
| C75 | A comment before an argument of a macro is skipped | partial | `C75_comment_partial`, `C75_comment_refuted` |
| C76 | A text is accepted exactly when it is a formula | proved | `C76_settled`, `C76_plain_parses`, `C76_plain_fails`, `C76_plain_ends`, `C76_unique` |
| C77 | The message of an error tells what is wrong | proved | `C77_display_kind`, `C77_display_tells` |
| C78 | Every content and every error is shown, in order | proved | `C78_stream`, `C78_errors`, `C78_plain` |
| C79 | Where memory puts the expansions does not show | proved | `C79_addresses`, `C79_placements`, `C79_downward`, `C79_condition_needed` |
| C80 | A text after a formula does not change it | proved | `C80_rest`, `C80_both`, `C80_plain`, `C80_comment`, `C80_lines`, `C80_space`, `C80_spaced`, `C80_document`, `C80_braces` |

## 7. How the main ones are proved

| id | method |
| --- | --- |
| C01 | lexicographic measure (expansion budget, weight of stack and buffer); every primitive shrinks it |
| C02 | the stack is empty after `None` |
| C03 | every primitive stages a balanced instruction list; invariant over `next` |
| C04 | invariant with the groups left in the buffer by errors (Depth.v) |
| C05 | witnesses by computation; the same invariant with nothing left in the buffer |
| C06 | strict shape invariant over the inputs of SpecInput; witnesses |
| C07 | same invariant |
| C08 | at most one flow event per call of `parse`, and the rows on the stack fit |
| C09 | invariant over staged events |
| C10 | equations of `parse` with explicit scripts |
| C11 | array-loop invariant on uninitialised slots |
| C12 | induction on the list of modifiers |
| C13 | the measure of C01 without expansions |
| C14 | panic-freeness of every lexer and primitive under `calm`, or for texts over an alphabet that expansions preserve; witnesses |
| C15 | induction on the text |
| C16 | frames sorted along the expansion stack; witness after an error |
| C17 | UTF-8 arithmetic |
| C18 | UTF-8 arithmetic |
| C19 | inductive grammar of balanced text, sound and complete |
| C22 | same |
| C37 | C67 with the number of nested uses counted |
| C44 | refinement of the queue to a list |
| C47 | sweep over all characters against the Unicode blocks |
| C60 | inductive relation of texts and events; one lemma per rule; composition by induction |
| C63 | prefix theorem for every context around a fault |
| C64 | simulation of the writer by a recursion on trees |
| C67 | simulation of the run on the text by the run on the expanded text |
| C68 | sweep of a separate table, then C60 |
| C69 | sweep of a separate table, then C60 |
| C72 | induction on the meaning of the base (FormulaNucleus.v); witnesses by computation |
| C73 | every writer step commutes with a prefix of the output (Append.v) |
| C74 | each fault makes the lexer of the definition or of the arguments fail; the converse by cases on the scan of the text (CommandErr.v, UseErr.v) |
| C75 | instance of C30; a computed case for the refutation |
| C76 | strong induction on the length of the text, by the class of what it starts with; the parts that are wrong stand for marks (FormulaDecide.v, FormulaDecide2.v, FormulaCore.v) |
| C77 | decoding: the messages of the kinds without numbers are pairwise different by computation, those with numbers have their own preface, the digits end at a space (ContextFacts.v) |
| C78 | an invariant of the main loop on any state: the output only grows, the items taken are those not to be shown or are shown by what is added, the fonts are those of the stream (ShownFacts.v); with the decision of C76 (ShownText.v) |
| C79 | a refinement: the spans on the stack descend in age, the texts on the stack of instructions do not begin an allocation, so that the address lies in no newer span (MemoryRun.v) |
| C80 | induction on the meaning: every rule still holds when a text that cannot go on with it is appended, since the conditions on what follows look at one character, at \limits or at a closing delimiter before it (FormulaAppend.v); white space is either still there or was read with a command or a length (FormulaSpace.v) |

`partial` means that the statement in `properties.jsonl` is false of the code
(then `…_refuted` gives the input, and `…_partial` is what holds).
