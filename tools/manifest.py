#!/usr/bin/env python3
"""Generates ../MANIFEST.json; every theorem named C<nn>_... in rocq/theories/Props_*.v
is attached to property C<nn>; STATUS/NOTE give the rest."""
import json, os, re, glob
here = os.path.dirname(os.path.abspath(__file__)); root = os.path.dirname(here)
thms = {}
for f in sorted(glob.glob(root + "/rocq/theories/Props_*.v")):
    for m in re.finditer(r"^Theorem\s+(C(\d+)_\w+)", open(f).read(), re.M):
        thms.setdefault("C%02d" % int(m.group(2)), []).append(m.group(1))
exec(open(here + "/status.py").read())
claims = []
for l in open(root + "/properties.jsonl"):
    pid = json.loads(l)["id"]
    t = thms.get(pid, [])
    st = STATUS.get(pid, "proved" if t else "partial")
    claims.append(dict(property=pid, status=st, theorems=t,
                       note=NOTE.get(pid, "" if t else "not yet modelled")))
json.dump(dict(claims=claims), open(root + "/MANIFEST.json", "w"), indent=1)
for c in claims: print(c["property"], c["status"], len(c["theorems"]))
