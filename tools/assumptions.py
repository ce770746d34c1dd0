#!/usr/bin/env python3
"""Regenerates ASSUMPTIONS.md: runs Print Assumptions on every theorem of MANIFEST.json (needs a built rocq/)."""
import json, os, re, subprocess, sys, collections
top = os.path.join(os.path.dirname(os.path.abspath(__file__)), "..")
m = json.load(open(os.path.join(top, "MANIFEST.json")))
th = os.path.join(top, "rocq", "theories")
files = sorted(f[:-2] for f in os.listdir(th) if f.startswith("Props_") and f.endswith(".v"))
where = {}
for f in files:
    for n in re.findall(r"^(?:Theorem|Lemma|Corollary)\s+(C\d+\w*)", open(os.path.join(th, f + ".v")).read(), re.M): where[n] = f
src = "".join("From Verif Require %s.\n" % f for f in files)
names = [t for c in m["claims"] for t in c["theorems"]]
for n in names: src += 'Goal True. idtac "@@%s". exact I. Qed.\nPrint Assumptions %s.%s.\n' % (n, where[n], n)
os.makedirs("/tmp/asm", exist_ok=True)
open("/tmp/asm/asm.v", "w").write(src)
out = subprocess.run(["coqc", "-Q", th, "Verif", "/tmp/asm/asm.v"], capture_output=True, text=True)
if out.returncode: print(out.stderr[-2000:]); sys.exit(1)
groups = collections.OrderedDict()
for blk in out.stdout.split("@@")[1:]:
    n, rest = blk.split("\n", 1)
    ax = frozenset(re.findall(r"^([A-Za-z_][\w.']*)\s*(?::|$)", rest, re.M)) - {"Axioms", "Closed"}
    groups.setdefault(ax, []).append(n)
base = set(["ClassicalDedekindReals.sig_forall_dec", "ClassicalDedekindReals.sig_not_dec", "FunctionalExtensionality.functional_extensionality_dep"])
with open(os.path.join(top, "ASSUMPTIONS.md"), "w") as f:
    f.write("# What `Print Assumptions` lists for each theorem of MANIFEST.json\n\nGenerated by tools/assumptions.py. All are axioms or primitives of Coq's standard library.\n\n")
    for ax, ns in sorted(groups.items(), key=lambda g: len(g[0])):
        prim = sorted(a for a in ax if "Int63" in a or "PrimFloat" in a or "Float" in a or "Uint63" in a or "Sint63" in a)
        rest = sorted(a for a in ax if a not in prim)
        f.write("## %d theorem(s)\n\n" % len(ns))
        f.write("Axioms: " + (", ".join("`%s`" % a for a in rest) if rest else ("none (closed under the global context)" if not prim else "none besides primitives")) + "\n\n")
        if prim: f.write("Primitive integers/floats (used by the `interval` tactic's reflection): " + ", ".join("`%s`" % a for a in prim) + "\n\n")
        f.write("Theorems: " + ", ".join(ns) + "\n\n")
print(len(names), "theorems", len(groups), "groups")
