#!/usr/bin/env python3
"""Generates ../rocq/theories/MoonTable.v from the series tables of /repo/palDmoon.c."""
import re, os
src = open('/repo/palDmoon.c').read().split('\n')
def table(pat):
    n = next(i for i, l in enumerate(src) if re.search(pat, l)); first = n + 1; rows = []; n += 1
    while '};' not in src[n]:
        l = re.sub(r'/\*.*?\*/', '', src[n])
        r = re.findall(r'[-+]?(?:\d+\.?\d*|\.\d+)(?:[eE][-+]?\d+)?', l)
        if r: rows.append(r)
        n += 1
    return first, n + 1, rows
def dec(s):
    s = s.lower(); e = 0
    if 'e' in s: s, x = s.split('e'); e = int(x)
    neg = s.startswith('-'); s = s.lstrip('+-')
    i, _, f = s.partition('.'); f = f.rstrip('0')
    m = int((i or '0') + f); ee = e - len(f)
    return 'MkDec (%d) (%d)' % (-m if neg else m, ee)
o = ['(** GENERATED by tools/moon_table.py from /repo/palDmoon.c: the series of Meeus (1979) used by palDmoon.',
     '    Each row: (coefficient Tx[N], (ITx[N][0..3] = multiples of M, M\', D, F), ITx[N][4] = power of E). *)',
     'From Coq Require Import ZArith List.', 'From Verif Require Import Num.', 'Import ListNotations.', 'Local Open Scope Z_scope.',
     'Definition moonRow : Set := (Dec * (Z * Z * Z * Z) * Z)%type.']
z = lambda x: str(int(x)) if int(x) >= 0 else '(%d)' % int(x)
for nm, n in (('L', 50), ('B', 45), ('P', 31)):
    a0, a1, t = table(r'const double T%s\[' % nm); t = sum(t, [])
    b0, b1, it = table(r'const int IT%s\[' % nm)
    assert len(t) == len(it) == n and all(len(r) == 5 for r in it), (nm, len(t), len(it))
    o.append('(** T%s (lines %d-%d), IT%s (lines %d-%d) *)' % (nm, a0, a1, nm, b0, b1))
    o.append('Definition moonT%s : list moonRow := [' % nm)
    o.append(';\n'.join('  (%s, (%s), %s)' % (dec(c), ', '.join(z(x) for x in r[:4]), z(r[4])) for c, r in zip(t, it)) + '].')
open(os.path.join(os.path.dirname(os.path.abspath(__file__)), '../rocq/theories/MoonTable.v'), 'w').write('\n'.join(o) + '\n')
