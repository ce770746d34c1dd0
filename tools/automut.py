#!/usr/bin/env python3
"""Random seeded bugs.  Picks a definition of the model at random, applies one random token-level edit (operator, literal,
function, comparison, or a swapped variable), rebuilds, stopping at the first failure, and appends the outcome to
/tmp/automut.jsonl for triage.  Mutants that are not well typed are skipped.
usage: automut.py SEED COUNT [file-regexp]; environment MUT, PRIST as for mutate.py."""
import sys, os, re, json, subprocess, random
seed, count = int(sys.argv[1]), int(sys.argv[2]); pat = sys.argv[3] if len(sys.argv) > 3 else r'M_\w+\.v|Erfa2?\.v'
here = os.path.dirname(os.path.abspath(__file__)); root = os.path.dirname(here)
W = os.environ.get('MUT', '/tmp/mut'); P = os.environ.get('PRIST', root + '/rocq'); OUT = os.environ.get('OUT', '/tmp/automut.jsonl')
rnd = random.Random(seed)
def sh(c): return subprocess.run(c, shell=True, capture_output=True, text=True)
sh(f'rm -rf {W}; cp -a {P} {W}')
defs = []
for f in sorted(os.listdir(P + '/theories')):
    if not re.fullmatch(pat, f): continue
    s = open(f'{P}/theories/{f}').read()
    for m in re.finditer(r'^\s*(?:Definition|Fixpoint)\s+(\w+)', s, re.M):
        e = re.search(r'\.\s*\n', s[m.end():]); end = m.end() + e.start()
        body = s.find(':=', m.end())
        if 0 < body < end: defs.append((f, m.group(1), body + 2, end))
def strip_pos(s, a, b):
    """positions a..b of s that are not in comments"""
    out, d, i = [], 0, a
    while i < b:
        if s.startswith('(*', i): d += 1; i += 2; continue
        if s.startswith('*)', i) and d: d -= 1; i += 2; continue
        if not d: out.append(i)
        i += 1
    return set(out)
RULES = [(r' \+ ', [' - ']), (r' - ', [' + ']), (r' \* ', [' / ', ' + ']), (r' / ', [' * ']), (r'\bsin\b', ['cos']), (r'\bcos\b', ['sin']),
  (r'<=\?', ['<?']), (r'>=\?', ['>?']), (r'(?<![<=>])<\?', ['<=?']), (r'(?<![<=>-])>\?', ['>=?']), (r'&&', ['||']), (r'\|\|', ['&&']),
  (r'\((?=- )', None), (r'#-?\d+(\.\d+)?(e-?\d+)?', None), (r'\b\d+%Z', None), (r'\b[a-z]\w*\b', None), (r'\btrue\b', ['false']), (r'\bfalse\b', ['true'])]
KW = set('let in if then else match with end fun forall exists return as fst snd'.split())
def mutate(s, a, b):
    ok = strip_pos(s, a, b)
    for _ in range(60):
        r, alt = rnd.choice(RULES)
        ms = [m for m in re.finditer(r, s[a:b]) if a + m.start() in ok]
        if not ms: continue
        m = rnd.choice(ms); t = m.group(0)
        if alt: new = rnd.choice(alt)
        elif r.startswith(r'\((?='): t, new = '(- ', '('
        elif t.startswith('#'):
            ds = [i for i, c in enumerate(t) if c.isdigit() and (c != '0' or rnd.random() < .2)]
            if not ds: continue
            i = ds[0] if rnd.random() < .7 else rnd.choice(ds); new = t[:i] + str((int(t[i]) + rnd.choice([1, 2, 3])) % 10) + t[i+1:]
        elif t.endswith('%Z'): new = str(int(t[:-2]) + 1) + '%Z'
        else:
            if t in KW: continue
            ids = sorted(set(x for x in re.findall(r'\b[a-z]\w{0,6}\b', s[a:b]) if x not in KW and x != t))
            if not ids: continue
            new = rnd.choice(ids)
        if new != t: return a + m.start(), t, new
    return None
n = 0
while n < count:
    f, d, a, b = rnd.choice(defs)
    p = f'{W}/theories/{f}'; src = open(f'{P}/theories/{f}').read()
    r = mutate(src, a, b)
    if not r: continue
    i, t, new = r
    l0 = src.rfind('\n', 0, i) + 1; l1 = src.find('\n', i)
    ctx = src[max(l0, i - 40):i] + '[[' + t + ' => ' + new + ']]' + src[i+len(t):min(l1, i + 40)]
    open(p, 'w').write(src[:i] + new + src[i+len(t):])
    if sh(f'cd {W} && timeout 300 make theories/{f}o').returncode != 0:
        open(p, 'w').write(src); continue
    n += 1
    q = sh(f'cd {W} && timeout 2400 make -j{os.environ.get("J", "2")} 2>&1')
    failed = []
    for m in re.finditer(r'File "\./theories/(\w+)\.v", line (\d+)', q.stdout):
        if '\nError' not in q.stdout[m.end():m.end()+300].split('File "')[0]: continue
        name = None
        for l in reversed(open(f'{W}/theories/{m.group(1)}.v').read().split('\n')[:int(m.group(2))]):
            k = re.match(r'\s*(?:Local )?(Lemma|Theorem|Example|Corollary|Definition|Fixpoint)\s+(\w+)', l)
            if k: name = k.group(2); break
        failed.append(f'{m.group(1)}.{name}')
    rec = dict(definition=f'{f[:-2]}.{d}', edit=ctx, failed=failed, rc=q.returncode)
    open(OUT, 'a').write(json.dumps(rec) + '\n')
    print(n, d, ctx, failed or 'SURVIVED', q.returncode, flush=True)
    open(p, 'w').write(src)
    sh(f'rsync -a --delete {P}/ {W}/ || (rm -rf {W}; cp -a {P} {W})')
