#!/usr/bin/env python3
"""Seeded-bug testing.  For each mutant (file, definition, old text, new text, claim) a
scratch copy of ../rocq is edited and rebuilt with make -k; the proofs that fail and the
headline files that no longer build are appended to ../seeded/LOG.jsonl.
usage: mutate.py <mutants.py> [start]; environment: ONLY=comma-separated mutant numbers, TIGHTENED=theorems added since
the mutant last survived (recorded in the log)."""
import sys, os, re, json, subprocess, shutil
here = os.path.dirname(os.path.abspath(__file__)); root = os.path.dirname(here)
ns = {}; exec(open(sys.argv[1]).read(), ns)
M = ns['MUTANTS']; start = int(sys.argv[2]) if len(sys.argv) > 2 else 0
W = os.environ.get('MUT', '/tmp/mut')
P = os.environ.get('PRIST', root + '/rocq')   # built, unmodified tree
ONLY = set(int(x) for x in os.environ.get('ONLY', '').split(',') if x)
TIGHT = [x for x in os.environ.get('TIGHTENED', '').split(',') if x]
def sh(c): return subprocess.run(c, shell=True, capture_output=True, text=True)
if not os.path.isdir(W): sh(f'mkdir -p {W}')
sh(f'rsync -a --delete {P}/ {W}/ || (rm -rf {W}; cp -a {P} {W})')
sh(f'cd {W} && coq_makefile -f _CoqProject -o Makefile && make -j3')
for n, (f, d, old, new, claim) in enumerate(M):
    if n < start or (ONLY and n not in ONLY): continue
    p = f'{W}/theories/{f}'
    src = open(p).read()
    i = re.search(r'(Definition|Fixpoint)\s+%s\b' % re.escape(d), src)
    assert i, (n, d)
    i = i.start()
    j = src.find(old, i)
    if j < 0 or src[i:j].count('\n  Definition') > 1 or src[i:j].count('\nDefinition') > 1:
        print(n, 'NO MATCH', d, old); continue
    open(p, 'w').write(src[:j] + new + src[j+len(old):])
    r = sh(f'cd {W} && timeout 1200 make -k -j2 2>&1')
    failed = []
    for m in re.finditer(r'File "\./theories/(\w+)\.v", line (\d+)', r.stdout):
        t = open(f'{W}/theories/{m.group(1)}.v').read().split('\n')[:int(m.group(2))]
        seg = r.stdout[m.end():m.end()+300]
        if '\nError' not in seg.split('File "')[0]: continue
        name = None
        for l in reversed(t):
            k = re.match(r'\s*(?:Local )?(Lemma|Theorem|Example|Corollary|Definition|Fixpoint)\s+(\w+)', l)
            if k: name = k.group(2); break
        failed.append(f'{m.group(1)}.{name}')
    blocked = [g[:-2] for g in sorted(os.listdir(f'{W}/theories')) if g.endswith('.v') and g.startswith('Props_') and
               (not os.path.exists(f'{W}/theories/{g}o') or os.path.getmtime(f'{W}/theories/{g}o') < os.path.getmtime(p))
               and sh(f'cd {W} && make -q theories/{g}o').returncode != 0]
    rec = dict(definition=f'{f[:-2]}.{d}', edit=f'{old}  ==>  {new}', claim=claim, failed=sorted(set(failed)),
               headline_files_not_built=blocked, caught=bool(failed), tightened=TIGHT if failed else [])
    open(root + '/seeded/LOG.jsonl', 'a').write(json.dumps(rec) + '\n')
    print(n, d, 'caught' if failed else 'SURVIVED', failed[:4], flush=True)
    open(p, 'w').write(src)
    st = os.stat(f'{P}/theories/{f}')
    # restore object files from the pristine tree
    sh(f'rsync -a --delete {P}/ {W}/ || cp -a {P}/. {W}/')
