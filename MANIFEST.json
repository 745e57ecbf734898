{
 "claims": [
  {
   "property": "C01",
   "status": "proved",
   "theorems": [
    "C01_next_returns",
    "C01_parsing_terminates"
   ],
   "note": "Every call returns from every parser state; panics are the subject of C14."
  },
  {
   "property": "C02",
   "status": "proved",
   "theorems": [
    "C02_fused"
   ],
   "note": ""
  },
  {
   "property": "C03",
   "status": "proved",
   "theorems": [
    "C03_groups_balanced"
   ],
   "note": ""
  },
  {
   "property": "C04",
   "status": "proved",
   "theorems": [
    "C04_groups_nest"
   ],
   "note": ""
  },
  {
   "property": "C05",
   "status": "partial",
   "theorems": [
    "C05_balanced_after_error_refuted",
    "C05_balanced_after_error_partial",
    "C05_commands_refuted"
   ],
   "note": "False in general: \\mathbf$b leaves a group open. Proved, whatever the errors, for inputs that define no macro and contain none of the commands and environments that start a group of their own; each of these does leave a group open on some input (C05_commands_refuted)."
  },
  {
   "property": "C06",
   "status": "partial",
   "theorems": [
    "C06_arities_partial",
    "C06_prefix_partial",
    "C06_arities_refuted",
    "C06_more_refuted"
   ],
   "note": "False as stated, e.g. `\\relax^2`. Proved for every input without the constructions listed in SpecInput.v (definitions, \\relax, \\pmod, \\buildrel, a root index that is not one symbol, a mark or line break as the argument of a font command or with a script)."
  },
  {
   "property": "C07",
   "status": "partial",
   "theorems": [
    "C07_flow_placement_partial",
    "C07_flow_placement_refuted"
   ],
   "note": "False as stated: `\\mathbf&` in an environment. Proved for the inputs of C06."
  },
  {
   "property": "C08",
   "status": "proved",
   "theorems": [
    "C08_marks_per_row",
    "C08_marks_per_row_partial",
    "C08_after_error_refuted"
   ],
   "note": "On every input up to the first error, also with macros and for marks taken as arguments of font commands. After an error groups may stay open (C05), and the claim fails (C08_after_error_refuted)."
  },
  {
   "property": "C09",
   "status": "proved",
   "theorems": [
    "C09_array_has_column"
   ],
   "note": ""
  },
  {
   "property": "C10",
   "status": "partial",
   "theorems": [
    "C10_groups_partial",
    "C10_both_orders_partial",
    "C10_refuted"
   ],
   "note": "False when a script is itself an operator with limits; proved for groups and all other scripts."
  },
  {
   "property": "C11",
   "status": "proved",
   "theorems": [
    "C11_scripts_moved"
   ],
   "note": "order_scripts models the writes into the spare capacity and fails on an unwritten or out-of-bounds slot."
  },
  {
   "property": "C12",
   "status": "proved",
   "theorems": [
    "C12_last_modifier",
    "C12_last_modifier_scripts"
   ],
   "note": ""
  },
  {
   "property": "C13",
   "status": "proved",
   "theorems": [
    "C13_linear_items"
   ],
   "note": ""
  },
  {
   "property": "C14",
   "status": "partial",
   "theorems": [
    "C14_calm_partial",
    "C14_panic_kinds_partial",
    "C14_ascii_partial",
    "C14_no_hash_partial",
    "C14_no_panic_refuted"
   ],
   "note": "False as stated (eight inputs are given). Proved: inputs that meet the syntactic condition `calm` (no definitions, no multi-byte white space, ...) never panic; and no input at all reaches a panic that stands for undefined behaviour; whatever is defined and expanded, an ASCII text is never cut inside a character and a text without a hash sign never indexes out of range."
  },
  {
   "property": "C15",
   "status": "proved",
   "theorems": [
    "C15_token",
    "C15_token_total",
    "C15_blank_skipped"
   ],
   "note": ""
  },
  {
   "property": "C16",
   "status": "partial",
   "theorems": [
    "C16_place_found_partial",
    "C16_place_found_refuted"
   ],
   "note": "True for every input up to and including the first error; false after an error."
  },
  {
   "property": "C17",
   "status": "proved",
   "theorems": [
    "C17_context_total",
    "C17_spans_recorded"
   ],
   "note": ""
  },
  {
   "property": "C18",
   "status": "proved",
   "theorems": [
    "C18_floor",
    "C18_bytes"
   ],
   "note": ""
  },
  {
   "property": "C19",
   "status": "proved",
   "theorems": [
    "C19_group",
    "C19_any_group",
    "C19_fails",
    "C19_unique"
   ],
   "note": ""
  },
  {
   "property": "C20",
   "status": "partial",
   "theorems": [
    "C20_left_right_partial",
    "C20_left_right_refuted",
    "C20_begingroup_refuted"
   ],
   "note": "False: command names that start with left or right, and every use of \\begingroup. Proved for contents with neither \\left nor \\right."
  },
  {
   "property": "C21",
   "status": "partial",
   "theorems": [
    "C21_environment_partial",
    "C21_names",
    "C21_no_other_name",
    "C21_no_end",
    "C21_refuted"
   ],
   "note": "False where white space precedes the name in the end; proved where the end is written without."
  },
  {
   "property": "C22",
   "status": "partial",
   "theorems": [
    "C22_delimited",
    "C22_fails_partial",
    "C22_fails_refuted"
   ],
   "note": "The reading is exact. False that anything else is an error: a text ending with a backslash makes it panic; proved for the other texts."
  },
  {
   "property": "C23",
   "status": "proved",
   "theorems": [
    "C23_blank_before"
   ],
   "note": ""
  },
  {
   "property": "C24",
   "status": "partial",
   "theorems": [
    "C24_space_before_first_script_partial",
    "C24_refuted"
   ],
   "note": "False between two scripts; proved before the first."
  },
  {
   "property": "C25",
   "status": "partial",
   "theorems": [
    "C25_number_shape",
    "C25_no_trailing_separator_refuted"
   ],
   "note": "Only the last separator is left out of a number: `1..` gives the number `1.`."
  },
  {
   "property": "C26",
   "status": "partial",
   "theorems": [
    "C26_integer_partial",
    "C26_fraction_partial",
    "C26_value_partial",
    "C26_unit_required",
    "C26_nearest_refuted",
    "C26_overflow_refuted"
   ],
   "note": "Exact for integers up to 2^24; up to thirty characters the relative error is at most 2^-21 for each of them. `100000022pt` is not read as the nearest f32, and thirty-nine nines are infinite. A wider white space after the unit panics (C14)."
  },
  {
   "property": "C27",
   "status": "partial",
   "theorems": [
    "C27_hex",
    "C27_others_partial",
    "C27_plus_refuted",
    "C27_panics_refuted"
   ],
   "note": "False that anything else is rejected: `#+1+2+3` is a colour, and `#1\u00e9123` panics."
  },
  {
   "property": "C28",
   "status": "proved",
   "theorems": [
    "C28_css",
    "C28_dvips",
    "C28_unknown",
    "C28_color",
    "C28_textcolor"
   ],
   "note": "The 148 CSS values and the 68 dvips values are written independently of the code's tables."
  },
  {
   "property": "C29",
   "status": "partial",
   "theorems": [
    "C29_text_partial",
    "C29_operatorname_partial",
    "C29_refuted"
   ],
   "note": "False without braces; proved with."
  },
  {
   "property": "C30",
   "status": "proved",
   "theorems": [
    "C30_expansion_substitutes",
    "C30_expansion_anywhere"
   ],
   "note": "For macros of \\def, \\newcommand (with or without default) and \\let, up to the first error, the expansion limits and panics excepted."
  },
  {
   "property": "C31",
   "status": "proved",
   "theorems": [
    "C31_definition_refused",
    "C31_definition_accepted",
    "C31_no_missing_argument"
   ],
   "note": ""
  },
  {
   "property": "C32",
   "status": "proved",
   "theorems": [
    "C32_command_refused",
    "C32_provide_keeps"
   ],
   "note": ""
  },
  {
   "property": "C33",
   "status": "partial",
   "theorems": [
    "C33_let_partial",
    "C33_let_snapshot_refuted"
   ],
   "note": "False as stated: the alias is resolved by name when it is used. Proved while the target keeps its meaning."
  },
  {
   "property": "C34",
   "status": "proved",
   "theorems": [
    "C34_newest_meaning",
    "C34_update"
   ],
   "note": ""
  },
  {
   "property": "C35",
   "status": "proved",
   "theorems": [
    "C35_depth_bounded",
    "C35_total_bounded",
    "C35_limit_reported"
   ],
   "note": ""
  },
  {
   "property": "C36",
   "status": "partial",
   "theorems": [
    "C36_storage_counted_partial",
    "C36_storage_counted_refuted"
   ],
   "note": "False past a limit, where the expansion is allocated before the limit is checked; true before the first error."
  },
  {
   "property": "C37",
   "status": "partial",
   "theorems": [
    "C37_any_number_refuted",
    "C37_uses_partial"
   ],
   "note": "False: an expansion contains the rest of the text of its group, so successive uses nest. Proved up to 63 uses that follow each other in a group or are inside each other, with no limit on uses elsewhere."
  },
  {
   "property": "C38",
   "status": "proved",
   "theorems": [
    "C38_no_panic"
   ],
   "note": "Values are in the range of their types, arrays have a column and alignat at most 32767 pairs (C09, C11 for what the parser yields)."
  },
  {
   "property": "C39",
   "status": "partial",
   "theorems": [
    "C39_no_panic_refuted",
    "C39_items_partial",
    "C39_text_partial",
    "C39_regular_partial"
   ],
   "note": "False: two kinds of input make the parser put a row break outside the array cell it belongs to. Proved for all item streams without arrays, for all calm texts (C14) without arrays, alignat and alignedat, be they ill-formed or not, and for all regular texts (C09) that parse without an error."
  },
  {
   "property": "C40",
   "status": "partial",
   "theorems": [
    "C40_markup_refuted",
    "C40_markup_partial",
    "C40_input_partial"
   ],
   "note": "False for spaces without a width (\\strut, \\mathstrut). Proved for all other well-formed streams, for readers of HTML and of XML, and for the regular texts that parse without an error and have neither a less-than sign nor one of a short list of commands."
  },
  {
   "property": "C41",
   "status": "partial",
   "theorems": [
    "C41_errors_refuted",
    "C41_errors_partial",
    "C41_children_partial",
    "C41_message",
    "C41_message_chars",
    "C41_input_partial"
   ],
   "note": "False: an error can leave a group of the parser open. Proved for every stream that is well formed when each error counts as one element; the text of an error brings no markup of its own, for every text."
  },
  {
   "property": "C42",
   "status": "partial",
   "theorems": [
    "C42_text_refuted",
    "C42_text_partial",
    "C42_plain_partial"
   ],
   "note": "False for blanks at the ends of a text, of which only one no-break space is left; proved in all other respects for all well-formed streams."
  },
  {
   "property": "C43",
   "status": "partial",
   "theorems": [
    "C43_markup_refuted",
    "C40_input_partial"
   ],
   "note": "False: a less-than sign written as an operator, and raw arguments, are not escaped. Proved for regular texts without them."
  },
  {
   "property": "C44",
   "status": "proved",
   "theorems": [
    "C44_peeking"
   ],
   "note": ""
  },
  {
   "property": "C45",
   "status": "proved",
   "theorems": [
    "C45_scope"
   ],
   "note": "For all well-formed streams."
  },
  {
   "property": "C46",
   "status": "proved",
   "theorems": [
    "C46_valid"
   ],
   "note": ""
  },
  {
   "property": "C47",
   "status": "partial",
   "theorems": [
    "C47_alphabets_refuted",
    "C47_alphabets_partial",
    "C47_exceptions_partial"
   ],
   "note": "False for exactly 29 characters, which are listed; proved for all others."
  },
  {
   "property": "C48",
   "status": "partial",
   "theorems": [
    "C48_error_colour_refuted",
    "C48_error_colour_partial"
   ],
   "note": "False for components below 16; proved for the others."
  },
  {
   "property": "C49",
   "status": "proved",
   "theorems": [
    "C49_colour"
   ],
   "note": ""
  },
  {
   "property": "C50",
   "status": "partial",
   "theorems": [
    "C50_units_partial",
    "C50_same_number",
    "C50_others",
    "C50_units_refuted",
    "C50_sp_refuted"
   ],
   "note": "False for mu (written with the unit mu) and sp (the documented factor is not the one used). Proved for all other units and all finite values below 2^123, with a relative error of at most 2^-22; exact up to the nearest f32 where no conversion is needed."
  },
  {
   "property": "C51",
   "status": "proved",
   "theorems": [
    "C51_rows"
   ],
   "note": "For all well-formed streams; streams that are not well-formed are C39."
  },
  {
   "property": "C52",
   "status": "proved",
   "theorems": [
    "C52_wrapper"
   ],
   "note": ""
  },
  {
   "property": "C53",
   "status": "partial",
   "theorems": [
    "C53_refuted",
    "C53_depth_bounded_by_text_partial"
   ],
   "note": "False; the depth of calls for a command is bounded by the length of the text that follows."
  },
  {
   "property": "C54",
   "status": "partial",
   "theorems": [
    "C54_macro_argument_refuted",
    "C67_macros_mean"
   ],
   "note": "False for a macro without braces; C67 covers uses in an argument with braces."
  },
  {
   "property": "C55",
   "status": "partial",
   "theorems": [
    "C55_token_boundaries_refuted",
    "C67_macros_mean"
   ],
   "note": "False: C67 says what the text means instead, the expansion joined with the text that follows."
  },
  {
   "property": "C56",
   "status": "partial",
   "theorems": [
    "C56_context_shows_place_partial",
    "C56_lines",
    "C56_context_shows_place_refuted"
   ],
   "note": "Proved for texts without definitions; false after an expansion longer than its call."
  },
  {
   "property": "C57",
   "status": "proved",
   "theorems": [
    "C57_only_the_text"
   ],
   "note": ""
  },
  {
   "property": "C58",
   "status": "partial",
   "theorems": [
    "C58_children_refuted",
    "C58_children_partial",
    "C58_input_partial"
   ],
   "note": "False where a function is itself a child; proved for streams where no function and no state change is itself a child."
  },
  {
   "property": "C59",
   "status": "proved",
   "theorems": [
    "C59_style",
    "C59_every"
   ],
   "note": ""
  },
  {
   "property": "C60",
   "status": "proved",
   "theorems": [
    "C60_meaning_parses",
    "C60_meaning_before_anything"
   ],
   "note": "For the language of SpecFormula, which leaves out \\begingroup (never usable, C20), the commands that define macros (C67), and arguments of one token that takes \\limits; \\sideset means its base, as in the code; symbols are taken from the code's table."
  },
  {
   "property": "C61",
   "status": "proved",
   "theorems": [
    "C61_ascii_characters"
   ],
   "note": ""
  },
  {
   "property": "C62",
   "status": "proved",
   "theorems": [
    "C62_group_is_content",
    "C62_error_inside",
    "C62_first_error"
   ],
   "note": "For texts that define no macro."
  },
  {
   "property": "C63",
   "status": "proved",
   "theorems": [
    "C63_fault_reported",
    "C63_first_fault"
   ],
   "note": "For the mistakes of SpecFault, in formulas that use no macro."
  },
  {
   "property": "C64",
   "status": "proved",
   "theorems": [
    "C64_drawing"
   ],
   "note": "The characters of fonts are those of the code's table, see C47."
  },
  {
   "property": "C65",
   "status": "partial",
   "theorems": [
    "C65_brace_partial",
    "C65_brace_refuted"
   ],
   "note": "False as stated: a delimiter between the last parameter and the brace is left in the text (and an escaped brace ends the argument too). Proved for a last parameter without delimiter."
  },
  {
   "property": "C66",
   "status": "proved",
   "theorems": [
    "C66_conversion",
    "C66_meaning",
    "C66_macros"
   ],
   "note": ""
  },
  {
   "property": "C67",
   "status": "proved",
   "theorems": [
    "C67_macros_mean",
    "C67_complete"
   ],
   "note": "For definitions at the start of the text whose names are not those of supported commands."
  },
  {
   "property": "C68",
   "status": "partial",
   "theorems": [
    "C68_symbols_partial",
    "C68_inside_partial",
    "C68_symbols_refuted"
   ],
   "note": "False for nineteen commands (mu, Game, colon, ldotp, cdotp, asymp, smallsetminus, smallfrown, Diamond, varnothing, dagger, ddagger, bigtriangleup, bigtriangledown, barwedge, ast, vcentcolon, ncong, |); proved for the 563 others."
  },
  {
   "property": "C69",
   "status": "partial",
   "theorems": [
    "C69_characters_partial",
    "C69_blocks_partial",
    "C69_negations",
    "C69_refuted",
    "C69_operators_refuted"
   ],
   "note": "False for 29 characters that serve in several classes, among them the delimiter U+23B0 and the dots U+22EF, both relations when typed, and for the large operators and the minus sign U+2212, which are ordinary when typed; proved for all others of the table, and for runs of characters of the mathematical blocks."
  },
  {
   "property": "C70",
   "status": "partial",
   "theorems": [
    "C70_lengths_partial",
    "C26_overflow_refuted"
   ],
   "note": "For numbers of at most thirty characters and the ten units other than mu and sp (C50); false without a bound on the digits: thirty-nine nines are written inf."
  },
  {
   "property": "C71",
   "status": "proved",
   "theorems": [
    "C71_futurelet"
   ],
   "note": ""
  },
  {
   "property": "C72",
   "status": "partial",
   "theorems": [
    "C72_place_partial",
    "C72_place_refuted",
    "C12_last_modifier_scripts"
   ],
   "note": "False in general: an operator that takes limits, as a script or as an argument of one token, moves the scripts of the base (x^\\sum). Proved where no argument of one token is such an operator."
  },
  {
   "property": "C73",
   "status": "proved",
   "theorems": [
    "C73_appends"
   ],
   "note": ""
  },
  {
   "property": "C74",
   "status": "proved",
   "theorems": [
    "C74_use_fault",
    "C74_use_total",
    "C74_command_fault",
    "C74_assignment_fault",
    "C31_definition_refused"
   ],
   "note": "For the first mistake after a list of valid definitions. That every wrong use has one of these faults is shown for texts without comments that do not end with a backslash (where the parser panics, C31); a text that is wrong for [\\def] always has one."
  },
  {
   "property": "C75",
   "status": "partial",
   "theorems": [
    "C75_comment_partial",
    "C75_comment_refuted"
   ],
   "note": "False for a group after a comment: the argument is its opening brace alone. Proved for arguments of one token."
  },
  {
   "property": "C76",
   "status": "proved",
   "theorems": [
    "C76_settled",
    "C76_plain_parses",
    "C76_plain_fails",
    "C76_plain_ends",
    "C76_unique"
   ],
   "note": "Doubtful (SpecBeyond): definitions, \\buildrel and \\begingroup, and, in few places only: lengths without digits, with numbers from 2^24, with more than seven decimals, or followed by white space beyond ASCII, \\hspace and \\Space with more than lengths, codes of \\char from 2^64, octal ones with 8 or 9, or starting beyond ASCII, numbers of pairs of columns that are not plain digits up to 32767, 65535 or more columns, comments in brackets that are not closed, operators with limits and switches as arguments without braces, texts without braces, scripts after row ends, marks and \\relax. C76_settled is about every text."
  },
  {
   "property": "C77",
   "status": "proved",
   "theorems": [
    "C77_display_kind",
    "C77_display_tells"
   ],
   "note": "The numbers of parameters are taken to be bytes, as they are in the type of errors."
  },
  {
   "property": "C78",
   "status": "proved",
   "theorems": [
    "C78_stream",
    "C78_errors",
    "C78_plain"
   ],
   "note": "C78_stream and C78_errors hold of every stream and every text for which something is written. C78_plain, the part on texts where nothing doubtful occurs, also says that something is written, for texts on which the parser does not panic (C14) and without array, alignat and alignedat."
  },
  {
   "property": "C79",
   "status": "proved",
   "theorems": [
    "C79_addresses",
    "C79_placements",
    "C79_downward",
    "C79_condition_needed"
   ],
   "note": "Up to and including the first error; after it see C16. The condition on the placements holds of a bump allocator that goes downward and has a footer at the end of its chunks (read from its documentation, not proved of its code), and cannot be dropped (C79_condition_needed)."
  },
  {
   "property": "C80",
   "status": "proved",
   "theorems": [
    "C80_rest",
    "C80_both",
    "C80_plain",
    "C80_comment",
    "C80_lines",
    "C80_space",
    "C80_spaced",
    "C80_document",
    "C80_braces"
   ],
   "note": "For the texts to which the rules of C60 give a meaning; by C76 these are all that parse where nothing doubtful occurs. The text after it is arbitrary in C80_rest. Conditions needed: C80_needed, C80_space_needed, C80_ascii_needed."
  }
 ]
}
