#!/usr/bin/env python3
"""Generates ../rocq/theories/NutTable.v from the tables of /repo/palAoppa.c (pal__Nutc)."""
import re, os
src = open('/repo/palAoppa.c').read().split('\n')
def table(pat):
    n = next(i for i, l in enumerate(src) if re.search(pat, l)); first = n + 1; rows = []; n += 1
    while '};' not in src[n]:
        r = re.findall(r'[-+]?\d+\.?\d*(?:[eE][-+]?\d+)?', src[n])
        if r: rows.append(r)
        n += 1
    return first, n + 1, rows
def dec(s):
    s = s.lower(); e = 0
    if 'e' in s: s, x = s.split('e'); e = int(x)
    neg = s.startswith('-'); s = s.lstrip('+-')
    i, _, f = s.partition('.'); f = f.rstrip('0')
    m = int(i + f); ee = e - len(f)
    return 'MkDec (%d) (%d)' % (-m if neg else m, ee)
a0, a1, na = table(r'int na\['); p0, p1, psi = table(r'double psi\['); e0, e1, eps = table(r'double eps\[')
assert len(na) == len(psi) == len(eps) == 194
o = ['(** GENERATED by tools/nut_table.py from /repo/palAoppa.c: the Shirai & Fukushima (2001) series of pal__Nutc.',
     '    Rows: (na[j] (lines %d-%d), psi[j] (lines %d-%d), eps[j] (lines %d-%d)). *)' % (a0, a1, p0, p1, e0, e1),
     'From Coq Require Import ZArith List.', 'From Verif Require Import Num.', 'Import ListNotations.', 'Local Open Scope Z_scope.',
     'Definition nutTable : list (list Z * list Dec * list Dec) := [']
rows = []
for a, b, c in zip(na, psi, eps):
    assert len(a) == 9 and len(b) == 4 and len(c) == 4
    rows.append('  ([%s], [%s], [%s])' % ('; '.join(x if x[0] != '-' else '(%s)' % x for x in a), '; '.join(map(dec, b)), '; '.join(map(dec, c))))
o.append(';\n'.join(rows) + '].')
open(os.path.join(os.path.dirname(os.path.abspath(__file__)), '../rocq/theories/NutTable.v'), 'w').write('\n'.join(o) + '\n')
