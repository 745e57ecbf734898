import json
M={c['property']:c for c in json.load(open('MANIFEST.json'))['claims']}
P=[json.loads(l) for l in open('properties.jsonl')]
head=r'''# Formal model of pulldown-latex

All paths are relative to `/repo`. The properties are in `properties.jsonl`, the
status of each in `MANIFEST.json`, the bug-seeding log in `seeded/LOG.jsonl`, the
model and the proofs in `rocq/theories`. Tables of the model that are long
(`Tables.v`, `PrimTable.v`, `FontTable.v`) are generated from the text of the
source by `tools/gen_tables.py` and `tools/gen_font.py`; sections 6 and 7 of
this file by `tools/gen_design.py`.

## 1. How the code is modelled

| Rust | Model |
| --- | --- |
| `char` | `N` (a Unicode scalar value) |
| `&'a str` used only for its text | `str := list N`, the list of its characters; byte lengths by `blen` (sum of the UTF-8 lengths) |
| `&'a str` whose address matters (`content`, `SubGroup`) | `slice` = (allocation id, byte offset, text); the parser input is allocation 0, every expansion gets a fresh id. The code compares addresses instead; `Memory.v` has the parser with addresses and C79 relates the two |
| `f32` | `SpecFloat.spec_float` with 24-bit precision and `emax = 128`, IEEE operations of the standard library (no axioms) |
| `Result` + `panic!` | `res A := Ok a | Err e | Panic p | Fuel`; every panic site of the code is an explicit `Panic` value |
| `&mut self` | state passing; the state is returned also on `Err`, because the code keeps it |
| loops | structural recursion on the text; recursion between `handle_argument` and `handle_primitive` and the recursion of `parse`/`next` on explicit fuel, `Fuel` being excluded by theorems (C01) |
| `HashMap` | association list, newest first |
| `unsafe` `set_len` in `next` | explicit uninitialised slots; reading one is a failure (C11) |
| output writer | list of characters appended |

Arithmetic overflow is a panic (the profile used by `cargo test` and by the fuzz target).

## 2. Trusted base

* Coq's kernel (8.16.1), including its virtual machine (`vm_compute` is used for
  tables and concrete inputs). No plugin besides those of the standard
  distribution (`lia`, `ring` tactics produce terms the kernel checks).
* Axioms: **none**. Each theorem named in `MANIFEST.json` has a `Print
  Assumptions` beneath it; each prints `Closed under the global context`. No
  axiom of the standard library is used.
* The reading of the Rust code that section 3 describes: the model is written by
  hand from the text of the source, the code was never run. As a check, the model was
  extracted and its output compared with the outputs stored in `tests/out`: 329
  of 335 formulas agree to the last character. The other six were
  stored by an older version (`\boldsymbol` of Greek letters upright, `\frac25`
  read as one number), which the present source contradicts; the assertions in
  `tests/*.rs` hold of the model.
* The specifications (files named `Spec*.v`), which are to be read together with
  the theorems, and which do not mention the model's functions, apart from the
  types of events and `is_ws`, `is_alpha`, `is_digit`.

## 3. What is modelled and what is not

Modelled, function by function, with file and lines in the comments:

| source | model |
| --- | --- |
| `src/event.rs` | `Event.v`: all event types; `Display` of dimensions in `Mathml.v` |
| `src/parser/tables.rs` | `Tables.v`: all tables |
| `src/parser/lex.rs` | `Lex.v`: all functions |
| `src/parser/macros.rs` | `Macros.v`: all functions |
| `src/parser/primitives.rs` | `Prim.v` (kinds of arms), `PrimTable.v` (names to arms, all of them), `Primitives.v` (behaviour of each arm, helper functions) |
| `src/parser.rs`, `src/parser/state.rs` | `Parser.v`: `next`, `parse`, script handling, `SubGroup` frames, limits; `Spans.v`: `SpanStack`; `Memory.v`: the same with addresses |
| `src/parser/error.rs` | `Spans.v`: `ParserError::new`, its context and its text; `inner` kinds in `Base.v` |
| `src/mathml.rs`, `src/config.rs` | `Mathml.v`, `FontTable.v`: `push_mathml` and everything it calls, `ManyPeek` |

Simplified or left out:

* `Storage` (`src/parser/storage.rs`) is a bump allocator: an expansion is a fresh allocation
  that shares no byte with another text. Nothing of the allocator is modelled; C79 assumes besides that no
  expansion begins exactly where an older text ends (it allocates downward, and chunks end with a footer).
* `u32` depth counters are unbounded; `usize` is 64 bits wide; memory is unbounded.
* Writing to the output cannot fail (`push_mathml`); `write_mathml` with a failing writer is left out.
* The iterator given to the renderer is the finite list of its items.
* `to_lowercase` for colour names changes the ASCII letters and the Kelvin sign (U+212A, to `k`), the only
  characters whose lower case can be part of a colour name.
* `Display for f32` is Rust's shortest round-trip decimal, by search over the number of digits (`Float32.v`).
* The crate's `std::error::Error` glue, `Debug` and `Clone` instances, and the documentation examples are left out.

## 4. Files

| files | contents |
| --- | --- |
| `Base`, `Float32`, `Event`, `Tables`, `Prim`, `PrimTable`, `Lex`, `Macros`, `Primitives`, `Spans`, `Parser`, `Memory`, `FontTable`, `Mathml`, `Whole` | the model |
| `SpecLex`, `SpecNum`, `SpecColor`, `SpecMacro` | specifications of white space and comments, balanced text, numbers, colours, substitution |
| `SpecEvent`, `SpecGrammar`, `SpecRows`, `SpecMarks`, `SpecInput`, `SpecClean`, `SpecOpen` | the event grammar, marks per row, texts that keep to it, commands that may leave a group open |
| `SpecFormula`, `SpecFault`, `SpecBeyond`, `SpecCall`, `SpecSymbol`, `SpecDefect`, `SpecUse`, `SpecAppend` | the meaning of formulas (an inductive relation between texts and events), of mistakes, the texts of which these rules say nothing, of macros; the standard symbols; faults of definitions and of uses of macros |
| `SpecDimension` | rational values of `f32`, of decimals and of the numbers of lengths; the documented CSS units |
| `SpecStream`, `SpecXml`, `SpecFont`, `SpecDraw`, `SpecMessage`, `SpecContext`, `SpecShown` | trees of events, markup, Unicode alphabets, the drawing of a tree as MathML, the characters of messages, the frame around the quoted input and the words of messages, the text that shows a content or an error |
| `PropTermination`, `PropShape`, `PropLex`, `PropPanic`, `PropMacro`, `PropRender`, `PropFormula`, `PropDecide`, `PropDraw`, `PropWhole`, `PropCall`, `PropSymbol`, `PropDimension`, `PropDefect`, `PropShown`, `PropMemory`, `PropAppend` | the theorems named in the manifest, with cases that meet their hypotheses |
| all others | lemmas |

## 5. Behaviour of the code found wrong, or other than documented

Each is a theorem `…_refuted` where a property is concerned, or was met while modelling.

Parser:
'''
finds=r'''`\begingroup a\endgroup b` leaves the text `group b` (C20)
`\left(a\rightarrow b\right)` fails, `\right` being looked for as a prefix (C20)
`\begin {matrix}a\end {matrix}` fails (C21)
`\buildrel 1\over =` loses what follows in its group; `\sideset` drops its first two arguments
`\text ab` and `\operatorname a b c` take everything that follows (C29)
`\genfrac{(}{)}{0pt}{}{n}{k}` fails with a delimiter error (src/parser/primitives.rs:1292-1322) (stated: C63_parts_case)
`\mathop{\rm lim}` yields a function named by the raw text
65 uses of a macro after each other in one group exceed the recursion limit (C37); expansions of a finished group still count
`x^2 _3` with a space between the scripts is read as two bases (C24)
`1..` is the number `1.` (C25); dimensions above 2^24 are not rounded to nearest, and thirty-nine nines are `inf` (C26); octal codes accept the digits 8 and 9
`#+1+2+3` is accepted as a colour, `#1é123` panics (C27)
`\#` in a replacement text; `\let` aliases by name (C33); a control word at the end of an expansion is glued to the text that follows (C55)
`\def\f#1{#1^2}\f%` and, on the next line, `{ab}`: the argument is the brace alone, and the square is set on nothing (C75)
an expansion is allocated before the limit is checked (C36)
`\def\f#1x#{…}` leaves the delimiter `x` in the text, an escaped brace ends such an argument, `\def\f#{…}` does not require a brace (C65)
an optional argument that is not closed consumes its `[`; `\newcommand{\f}{a}` without a count fails if a group follows
error messages print `{{}}` for braces; the context of an error is displaced after an expansion (C56)
`\mathbf&` and `\mathbf\\` inside rows put a mark outside its row (C06, C07), `\mathbf$b` leaves a group open after the error (C05)
`\mathbf 12` takes `12` as one element; `\relax^2` has no base (C06); `\limitsfoo` is read as `\limits` and `foo`
`\\[1em junk]` is accepted; `\right .` with a space fails; the strut has no depth
`next` recurses once per definition, so a long chain of definitions overflows the stack (C53)
the position lookup of errors fails its assertion after an error (C16); multi-byte white space after a unit panics (C14)
`\mu` yields the micro sign U+00B5 (src/parser/primitives.rs:233), which no font changes; `\Game` yields the gimel (304); `\smallsetminus` is not small although src/event.rs:129-134 gives it as the example; `\colon`, `\ldotp`, `\cdotp` are not punctuation, `\asymp` is not a relation; `\ncong` yields U+2246 instead of U+2247 (1134), `\varnothing` the diameter sign (872), `\Diamond` the lozenge (361), `\barwedge` U+2305 (909); `\|` is the ordinary U+2225 instead of the delimiter of `\Vert` (1503); `\dagger` and `\ddagger` are ordinary and the characters themselves relations, where TeX has binary operators (334) (C68)
`⎰` typed as a character is a relation, not a delimiter; `∑`, `∏`, `∫` and the minus sign `−` typed as characters are ordinary letters (C69; src/parser/primitives.rs:110-128)
`x^\sum` sets the superscript above x, `\frac\sum x_a` the subscript below: the position leaks from the argument to the base (C72; src/parser.rs:266-357)
'''
finds2=r'''`<` and `&` are not escaped in relations, functions, annotations and errors (C43); `~` is written `&amp;nbsp;`
spaces without a width are written as two elements that do not match (`\strut`, C40); a space is missing before `minsize`
components of the error colour below 16 are written with one digit (C48)
lengths in mu are written `mu`, which CSS does not know (C50); the documentation of `sp` (src/event.rs:735-751) gives 65536 * 72.27 sp in 1 pt where it should be 65536
`map_char` is wrong for 29 characters (C47)
row breaks outside of a table's cells panic (C39); groups stay open after errors (C41)
`2\sin^2 x` and `\frac\sin x` give elements a wrong number of children (C58)
`\begin{dcases}\hline…` drops the line; alignat overflows at 65535 marks
the atom before, after a fraction or a script, is its first child; a negated binary operator takes itself for the atom that follows (src/mathml.rs:398-410)
several blanks at an end of a text collapse to one `&nbsp;` (C42)
'''
o=head+'\n'+''.join('* '+l+'\n' for l in finds.strip().split('\n'))+'\nRenderer:\n\n'+''.join('* '+l+'\n' for l in finds2.strip().split('\n'))
plan={
'C79':'a refinement: the spans on the stack descend in age, the texts on the stack of instructions do not begin an allocation, so that the address lies in no newer span (MemoryRun.v)',
'C80':'induction on the meaning: every rule still holds when a text that cannot go on with it is appended, since the conditions on what follows look at one character, at \\limits or at a closing delimiter before it (FormulaAppend.v); white space is either still there or was read with a command or a length (FormulaSpace.v)',
'C78':'an invariant of the main loop on any state: the output only grows, the items taken are those not to be shown or are shown by what is added, the fonts are those of the stream (ShownFacts.v); with the decision of C76 (ShownText.v)',
'C77':'decoding: the messages of the kinds without numbers are pairwise different by computation, those with numbers have their own preface, the digits end at a space (ContextFacts.v)',
'C76':'strong induction on the length of the text, by the class of what it starts with; the parts that are wrong stand for marks (FormulaDecide.v, FormulaDecide2.v, FormulaCore.v)',
'C74':'each fault makes the lexer of the definition or of the arguments fail; the converse by cases on the scan of the text (CommandErr.v, UseErr.v)',
'C75':'instance of C30; a computed case for the refutation',
'C73':'every writer step commutes with a prefix of the output (Append.v)',
'C72':'induction on the meaning of the base (FormulaNucleus.v); witnesses by computation',
'C01':'lexicographic measure (expansion budget, weight of stack and buffer); every primitive shrinks it',
'C02':'the stack is empty after `None`',
'C03':'every primitive stages a balanced instruction list; invariant over `next`',
'C04':'invariant with the groups left in the buffer by errors (Depth.v)',
'C05':'witnesses by computation; the same invariant with nothing left in the buffer',
'C06':'strict shape invariant over the inputs of SpecInput; witnesses',
'C07':'same invariant','C08':'at most one flow event per call of `parse`, and the rows on the stack fit',
'C09':'invariant over staged events','C10':'equations of `parse` with explicit scripts','C11':'array-loop invariant on uninitialised slots',
'C12':'induction on the list of modifiers','C13':'the measure of C01 without expansions','C14':'panic-freeness of every lexer and primitive under `calm`, or for texts over an alphabet that expansions preserve; witnesses',
'C15':'induction on the text','C16':'frames sorted along the expansion stack; witness after an error','C17':'UTF-8 arithmetic','C18':'UTF-8 arithmetic',
'C19':'inductive grammar of balanced text, sound and complete','C22':'same',
'C37':'C67 with the number of nested uses counted','C47':'sweep over all characters against the Unicode blocks',
'C44':'refinement of the queue to a list','C60':'inductive relation of texts and events; one lemma per rule; composition by induction',
'C63':'prefix theorem for every context around a fault','C64':'simulation of the writer by a recursion on trees',
'C67':'simulation of the run on the text by the run on the expanded text',
'C68':'sweep of a separate table, then C60','C69':'sweep of a separate table, then C60'}
tab='\n## 6. Properties, status and theorems\n\n| id | property | status | theorems |\n| --- | --- | --- | --- |\n'
for p in P:
    c=M.get(p['id'])
    tab+='| %s | %s | %s | %s |\n'%(p['id'],p['title'].replace('|','\\|'),c['status'],', '.join('`%s`'%t for t in c['theorems']))
meth='\n## 7. How the main ones are proved\n\n| id | method |\n| --- | --- |\n'
for k in sorted(plan): meth+='| %s | %s |\n'%(k,plan[k])
meth+='''
`partial` means that the statement in `properties.jsonl` is false of the code
(then `…_refuted` gives the input, and `…_partial` is what holds).
'''
open('DESIGN.md','w').write(o+tab+meth)
