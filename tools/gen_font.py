"""Generates rocq/theories/FontTable.v from the text of /repo/src/mathml.rs
(Font::map_char) and from the Unicode property Uppercase of Python's tables."""
import re
SRC = open('/repo/src/mathml.rs').read().split('\n')
OUT = '/verif/rocq/theories/'
lines = SRC[1329:1486]
text = '\n'.join(l.split('//')[0] for l in lines)
arms = []
for m in re.finditer(r"\(Font::(\w+), ([^)]*)\)\s*=>\s*\{?\s*c as u32 \+ 0x([0-9A-Fa-f]+)", text):
    line = 1330 + text[:m.start()].count('\n')
    def ch(s):
        s = s.strip().strip("'")
        k = re.fullmatch(r"\\u\{([0-9A-F]+)\}", s)
        return int(k[1], 16) if k else ord(s)
    for part in m[2].split('|'):
        a = [ch(x) for x in part.strip().split('..=')]
        arms.append((m[1], a[0], a[-1], int(m[3], 16), line))
n_arms = len(re.findall(r"\(Font::", text))
assert n_arms == len(set((a[0], a[4]) for a in arms)), (n_arms, len(set((a[0], a[4]) for a in arms)))
o = ['''(** * FontTable: the data of [Font::map_char] and the property Uppercase.

    Generated by tools/gen_font.py; the number in the comment is the line of the
    arm in src/mathml.rs. *)

From Coq Require Import List NArith.
From Verif Require Import Base Float32 Event.
Import ListNotations.
Open Scope N_scope.

(** First and last character, and what is added. (src/mathml.rs:1330-1486) *)
Definition font_ranges (f : font) : list (N * N * N) :=
  match f with''']
fonts = []
for a in arms:
    if a[0] not in fonts: fonts.append(a[0])
for f in fonts:
    rows = ['    (%d, %d, %d) (* %d *)' % (a[1], a[2], a[3], a[4]) for a in arms if a[0] == f]
    o.append('  | F%s => [\n%s]' % (f, ';\n'.join(rows)))
o.append('  | _ => []\n  end.\n')
up = []
for c in range(0x110000):
    if 0xD800 <= c < 0xE000: continue
    if chr(c).isupper():
        if up and up[-1][1] == c - 1: up[-1][1] = c
        else: up.append([c, c])
o.append('''(** [char::is_uppercase]: the Unicode property Uppercase, as ranges (Unicode 14;
    the version of the Rust standard library may add characters).
    (src/config.rs:106) *)
Definition uppercase_ranges : list (N * N) := [''')
rows = ['(%d, %d)' % tuple(r) for r in up]
o.append(';\n'.join('  ' + '; '.join(rows[i:i+6]) for i in range(0, len(rows), 6)) + '].')
open(OUT + 'FontTable.v', 'w').write('\n'.join(o) + '\n')
print(len(arms), len(up))
