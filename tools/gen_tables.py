#!/usr/bin/env python3
"""Generates rocq/theories/Tables.v and rocq/theories/PrimTable.v from the text of
/repo/src/parser/tables.rs and /repo/src/parser/primitives.rs (read as text)."""
import re, sys
REPO = '/repo/src/parser/'
OUT = '/verif/rocq/theories/'
T = open(REPO + 'tables.rs', encoding='utf8').read().split('\n')
P = open(REPO + 'primitives.rs', encoding='utf8').read().split('\n')

def chr_of(tok):
    m = re.fullmatch(r"'\\u\{([0-9A-Fa-f]+)\}'", tok)
    if m: return int(m.group(1), 16)
    if tok == r"'\\'": return 92
    if tok == r"'\''": return 39
    assert len(tok) == 3 and tok[0] == tok[2] == "'", tok
    return ord(tok[1])
CH = r"'(?:\\u\{[0-9A-Fa-f]+\}|\\\\|\\'|[^'\\])'"

def body(lines, fn):
    i = next(k for k, l in enumerate(lines) if re.search(r'fn %s\b' % fn, l))
    j = i
    while lines[j] != '}': j += 1
    return i, j

def ranges(fn):
    i, j = body(T, fn)
    txt = '\n'.join(T[i:j])
    txt = txt[txt.index('c,') + 2:]
    out = []
    for m in re.finditer(r"(%s)(?:\.\.=(%s))?" % (CH, CH), txt):
        a = chr_of(m.group(1)); b = chr_of(m.group(2)) if m.group(2) else a
        out.append((a, b))
    return i + 1, j + 1, out

o = []
o.append('''(** * Tables: the character tables of src/parser/tables.rs.

    Generated by tools/gen_tables.py from the text of /repo. *)

From Coq Require Import List NArith ZArith Bool.
From Verif Require Import Base Float32 Event.
Import ListNotations.
Open Scope N_scope.

(** Membership in a list of closed ranges. *)
Fixpoint in_ranges (c : char) (l : list (N * N)) : bool :=
  match l with
  | [] => false
  | (a, b) :: l' => ((a <=? c) && (c <=? b)) || in_ranges c l'
  end.

(** First entry of an association list keyed by characters. *)
Fixpoint assoc_char {A} (c : char) (l : list (char * A)) : option A :=
  match l with
  | [] => None
  | (k, v) :: l' => if k =? c then Some v else assoc_char c l'
  end.

(** First entry of an association list keyed by strings: a [match] on [&str]. *)
Fixpoint assoc_str {A} (s : str) (l : list (str * A)) : option A :=
  match l with
  | [] => None
  | (k, v) :: l' => if str_eqb k s then Some v else assoc_str s l'
  end.
''')
def wrap(items, per=8):
    return ';\n  '.join('; '.join(items[k:k + per]) for k in range(0, len(items), per))
for fn in ('is_binary', 'is_relation'):
    a, b, rs = ranges(fn)
    o.append('(** [%s]. (src/parser/tables.rs:%d-%d) *)' % (fn, a, b))
    o.append('Definition %s_ranges : list (N * N) := [\n  %s].' % (fn, wrap(['(%d, %d)' % r for r in rs])))
    o.append('Definition %s (c : char) : bool := in_ranges c %s_ranges.\n' % (fn, fn))
i, j = body(T, 'char_delimiter_map')
txt = '\n'.join(T[i:j]); items = []
for m in re.finditer(r"((?:%s\s*\|?\s*)+)=>\s*\{?\s*\(c, DelimiterType::(\w+)\)" % CH, txt):
    for c in re.findall(CH, m.group(1)):
        items.append('(%d, D%s)' % (chr_of(c), m.group(2)))
o.append('(** [char_delimiter_map]. (src/parser/tables.rs:%d-%d) *)' % (i + 1, j + 1))
o.append('Definition char_delims : list (char * delim_type) := [\n  %s].' % wrap(items, 6))
o.append('''Definition char_delimiter_map (c : char) : option (char * delim_type) :=
  match assoc_char c char_delims with Some ty => Some (c, ty) | None => None end.
''')
i, j = body(T, 'control_sequence_delimiter_map')
items = []
for l in T[i:j]:
    m = re.match(r'\s*((?:"[^"]+"\s*\|?\s*)+)=>\s*\((%s), DelimiterType::(\w+)\)' % CH, l)
    if m:
        for n in re.findall(r'"([^"]+)"', m.group(1)):
            items.append('(lit "%s", (%d, D%s))' % (n, chr_of(m.group(2)), m.group(3)))
    else:
        assert '=>' not in l or 'return None' in l, l
o.append('(** [control_sequence_delimiter_map]. (src/parser/tables.rs:%d-%d) *)' % (i + 1, j + 1))
o.append('Definition cs_delims : list (str * (char * delim_type)) := [\n  %s].' % wrap(items, 2))
o.append('''Definition control_sequence_delimiter_map (cs : str) : option (char * delim_type) :=
  assoc_str cs cs_delims.
''')
for fn in ('dvipsnames_color', 'primitive_color'):
    i, j = body(T, fn); items = []
    for l in T[i:j]:
        m = re.match(r'\s*((?:"[^"]+"\s*\|?\s*)+)=>\s*\((\w+), (\w+), (\w+)\),', l)
        if m:
            for n in re.findall(r'"([^"]+)"', m.group(1)):
                items.append('(lit "%s", (%d, %d, %d))' % ((n,) + tuple(int(x, 0) for x in m.groups()[1:])))
        else:
            assert '=>' not in l or 'return None' in l, l
    o.append('(** The table of [%s]. (src/parser/tables.rs:%d-%d) *)' % (fn, i + 1, j + 1))
    o.append('Definition %s_table : list (str * rgb) := [\n  %s].\n' % (fn, wrap(items, 2)))
o.append('''(** [dvipsnames_color]. (src/parser/tables.rs:199-271) *)
Definition dvipsnames_color (s : str) : option rgb := assoc_str s dvipsnames_color_table.

(** [str::to_lowercase] as far as it can produce a lowercase ASCII name: the
    characters with such a lowercase are A-Z and U+212A (KELVIN SIGN); every
    other character keeps a non-ASCII image, so no table entry can match.
    Simplified: other characters are left unchanged. (src/parser/tables.rs:281) *)
Definition lower_char (c : char) : char :=
  if (65 <=? c) && (c <=? 90) then c + 32 else if c =? 8490 then 107 else c.

(** [primitive_color]. (src/parser/tables.rs:277-428) *)
Definition primitive_color (s : str) : option rgb :=
  if 20 <? blen s then None else assoc_str (map lower_char s) primitive_color_table.''')
open(OUT + 'Tables.v', 'w').write('\n'.join(o) + '\n')

# ---------------------------------------------------------------- primitives
start = next(k for k, l in enumerate(P) if 'let event = match control_sequence {' in l)
end = next(k for k in range(start, len(P)) if P[k] == '        };' )
arms = []
k = start + 1
while k < end:
    l = P[k]
    if re.match(r'            [^ /}|]', l) and not re.match(r'            (//|\})', l):
        first = k
        pat = l
        while '=>' not in pat:
            k += 1; pat += ' ' + P[k].strip()
        pat, bod = pat.split('=>', 1)
        b = [bod]
        k += 1
        while k < end and not (re.match(r'            [^ /}|]', P[k]) and not re.match(r'            (//|\})', P[k])):
            if not P[k].strip().startswith('//'): b.append(P[k].strip())
            k += 1
        arms.append((first + 1, pat.strip(), ' '.join(x.strip() for x in b if x.strip())))
    else:
        k += 1
def opt(s):
    s = s.strip()
    return 'None' if s == 'None' else '(Some F%s)' % re.fullmatch(r'Some\(Font::(\w+)\)', s).group(1)
def bo(s): return s.strip()
SPECIAL = {
 '"lim"': 'PFunctionLim', '"liminf"': ('PFunNameLim (lit "lim inf")',), '"limsup"': ('PFunNameLim (lit "lim sup")',),
 '"operatorname"': 'POperatorname', '"bmod"': ('PSimple (EvContent (CFunction (lit "mod")))',), '"pmod"': 'PPmod',
 '"mathop"': 'PMathop', '"dots"': 'PDots', '"color"': 'PColor', '"textcolor"': 'PTextcolor', '"colorbox"': 'PColorbox',
 '"fcolorbox"': 'PFcolorbox', '"left"': 'PLeft', '"middle"': 'PMiddle', '"right"': 'PUnbalanced', '"smallint"': 'PSmallint',
 '"kern"': 'PKern', '"hskip"': 'PHskip', '"mkern"': 'PMkern', '"mskip"': 'PMskip', '"hspace"': 'PHspace', '"Space"': 'PSpaceCmd',
 '"frac"': 'PFraction None None None None', '"genfrac"': 'PGenfrac',
 '"cfrac"': 'PFraction None None None (Some SDisplay)', '"tfrac"': 'PFraction None None None (Some SText)',
 '"binom"': 'PFraction (Some 40) (Some 41) (Some dim_zero_em) None',
 '"dbinom"': 'PFraction (Some 40) (Some 41) (Some dim_zero_em) (Some SDisplay)',
 '"tbinom"': 'PFraction (Some 40) (Some 41) (Some dim_zero_em) (Some SText)',
 '"overset"': 'POverset STSup', '"underset"': 'POverset STSub', '"buildrel"': 'PBuildrel', '"substack"': 'PSubstack', '"sideset"': 'PSideset',
 '"sqrt"': 'PSqrt', '"surd"': 'PSurd', '"not"': 'PNot', '"char"': 'PChar', '"relax"': 'PRelax', '"begingroup"': 'PBegingroup',
 '"endgroup"': 'PUnbalanced', '"begin"': 'PBegin', '"end"': 'PUnbalanced',
 '"def"': 'PDef', '"let"': 'PLet', '"futurelet"': 'PFuturelet',
 '"xleftarrow"': 'PXArrow %d' % ord('←'), '"xrightarrow"': 'PXArrow %d' % ord('→'),
 '"newcommand"': 'PNewcommand (Some false)', '"renewcommand"': 'PNewcommand (Some true)', '"providecommand"': 'PNewcommand None',
}
F32 = {'0.5': 'f32_lit 5 1', '1.': 'f32_lit 1 0', '2.': 'f32_lit 2 0', '0.7': 'f32_lit 7 1', '1.0': 'f32_lit 1 0', '0.': 'f32_lit 0 0',
       '3. / 18.': 'f32_div (f32_lit 3 0) (f32_lit 18 0)', '4. / 18.': 'f32_div (f32_lit 4 0) (f32_lit 18 0)',
       '5. / 18.': 'f32_div (f32_lit 5 0) (f32_lit 18 0)', '-3. / 18.': 'f32_div (f32_lit (-3) 0) (f32_lit 18 0)',
       '-4. / 18.': 'f32_div (f32_lit (-4) 0) (f32_lit 18 0)', '-5. / 18.': 'f32_div (f32_lit (-5) 0) (f32_lit 18 0)'}
def dim(s):
    s = s.strip()
    if s == 'None': return 'None'
    m = re.fullmatch(r'Some\(Dimension::new\((.*), DimensionUnit::Em\)\)', s)
    return '(Some (mkDim (%s) UEm))' % F32[m.group(1)]
entries = []; tail = []
for line, pat, bod in arms:
    names = re.findall(r'"((?:[^"\\]|\\.)*)"', pat)
    names = [n.replace('\\\\', '\\') for n in names]
    bod = bod.rstrip(',').strip()
    if bod.startswith('{') and bod.endswith('}') and bod.count('{') >= 1:
        inner = bod[1:-1].strip()
    else: inner = bod
    bodn = inner.rstrip(';').strip()
    c = None
    first = '"%s"' % names[0] if names else None
    if m := re.fullmatch(r"ordinary\((%s)\)" % CH, bodn): c = 'PSimple (ordinary %d)' % chr_of(m[1])
    elif m := re.fullmatch(r"relation\((%s)\)" % CH, bodn): c = 'PSimple (relation %d)' % chr_of(m[1])
    elif m := re.fullmatch(r"binary\((%s)\)" % CH, bodn): c = 'PSimple (binary %d)' % chr_of(m[1])
    elif m := re.fullmatch(r"multirelation\((%s), (%s)\)" % (CH, CH), bodn): c = 'PSimple (multirelation %d %d)' % (chr_of(m[1]), chr_of(m[2]))
    elif m := re.fullmatch(r"E::Content\(C::Relation \{ content: RelationContent::single_char\((%s)\), small: (\w+), \}\)" % CH, bodn): c = 'PSimple (EvContent (CRelation %d None %s))' % (chr_of(m[1]), m[2])
    elif m := re.fullmatch(r"E::Content\(C::BinaryOp \{ content: (%s), small: (\w+), \}\)" % CH, bodn): c = 'PSimple (EvContent (CBinaryOp %d %s))' % (chr_of(m[1]), m[2])
    elif m := re.fullmatch(r"self\.large_op\((%s), (\w+)\)" % CH, bodn): c = 'PLargeOp %d %s' % (chr_of(m[1]), m[2])
    elif m := re.fullmatch(r"return self\.accent\((%s), (\w+)\)" % CH, bodn): c = 'PAccent %d %s false' % (chr_of(m[1]), m[2])
    elif m := re.fullmatch(r"self\.state\.script_position = SP::AboveBelow; return self\.accent\((%s), (\w+)\)" % CH, bodn): c = 'PAccent %d %s true' % (chr_of(m[1]), m[2])
    elif m := re.fullmatch(r"return self\.underscript\((%s)\)" % CH, bodn): c = 'PUnder %d false' % chr_of(m[1])
    elif m := re.fullmatch(r"self\.state\.script_position = SP::AboveBelow; return self\.underscript\((%s)\)" % CH, bodn): c = 'PUnder %d true' % chr_of(m[1])
    elif m := re.fullmatch(r"self\.font_change\(Font::(\w+)\)", bodn): c = 'PFontChange F%s' % m[1]
    elif m := re.fullmatch(r"self\.style_change\(S::(\w+)\)", bodn): c = 'PStyleChange S%s' % m[1]
    elif m := re.fullmatch(r"return self\.font_group\((.*)\)", bodn): c = 'PFontGroup %s' % opt(m[1])
    elif m := re.fullmatch(r"return self\.text_argument\((.*)\)", bodn): c = 'PText %s' % opt(m[1])
    elif m := re.fullmatch(r"return self\.sized_delim\(DelimiterSize::(\w+)\)", bodn): c = 'PSized D%s' % m[1]
    elif m := re.fullmatch(r"return self\.atom_group\(AtomClass::(\w+)\)", bodn): c = 'PAtom At%s' % m[1]
    elif m := re.fullmatch(r"E::Space \{ width: (.*), height: (.*?)(?:, depth: (.*?))?,?", re.sub(r'\s*\}$', '', bodn if not inner is bod else bod).strip()):
        c = 'PSimple (EvSpace %s %s %s)' % (dim(m[1]), dim(m[2]), dim(m[3] or 'None'))
    elif bodn == 'E::Content(C::Function(control_sequence))': c = 'PFunction'
    elif bodn == 'E::Content(C::Text("&nbsp;"))' and names: c = 'PSimple (EvContent (CText (lit "&nbsp;")))'
    elif names and names[0] == '#' : 
        for n in names: entries.append((line, n, 'PSimple (ordinary %d)' % ord(n)))
        continue
    elif first in SPECIAL: c = SPECIAL[first]; c = c[0] if isinstance(c, tuple) else c
    elif names and names[0] == '\\':
        c = 'PNewline'
        if any(e[1] == '\\' for e in entries): continue
    else:
        tail.append((line, pat, bodn)); continue
    for n in names: entries.append((line, n, c))
print('arms', len(arms), 'entries', len(entries), file=sys.stderr)
for t in tail: print('TAIL', t, file=sys.stderr)
seen = {}
for line, n, c in entries:
    if n in seen: print('DUP', n, seen[n], (line, c), file=sys.stderr)
    seen.setdefault(n, (line, c))
o = ['''(** * PrimTable: which primitive a control sequence names.

    The arms of the [match] of [handle_primitive] (src/parser/primitives.rs:136-1961),
    in order; generated by tools/gen_tables.py from the text of /repo. The number
    in the comment is the line of the arm. *)

From Coq Require Import List NArith ZArith Bool.
From Verif Require Import Base Float32 Event Tables Prim.
Import ListNotations.
Open Scope N_scope.
''', 'Definition prim_table : list (str * prim) := [']
o.append(';\n'.join('  (lit "%s", %s) (* %d *)' % (n, c, line) for line, n, c in entries))
o.append('].\n')
o.append('''(** The [match control_sequence] of [handle_primitive]: the literal arms above,
    then the delimiters (1923-1930), white space (1933) and [_] (1960). The
    arms "def" ... "providecommand" (1936-1959) come after those two in the
    source; no delimiter and no blank has such a name. *)
Definition lookup_prim (cs : str) : prim :=
  match assoc_str cs prim_table with
  | Some p => p
  | None =>
      match control_sequence_delimiter_map cs with
      | Some (c, ty) => PSimple (EvContent (CDelimiter c None ty))
      | None =>
          if is_nil (trim_start cs) then PSimple (EvContent (CText (lit "&nbsp;")))
          else PUnknown
      end
  end.''')
open(OUT + 'PrimTable.v', 'w').write('\n'.join(o) + '\n')
