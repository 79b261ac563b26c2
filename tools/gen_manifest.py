#!/usr/bin/env python3
"""Generates /verif/MANIFEST.json from the table below; checks that every theorem exists."""
import json, os, re, glob
here = os.path.dirname(os.path.abspath(__file__))
props = [json.loads(l)["id"] for l in open(os.path.join(here, "..", "properties.jsonl"))]
names = set()
for f in glob.glob(os.path.join(here, "..", "rocq", "theories", "*.v")):
    names |= set(re.findall(r"^\s*(?:Theorem|Lemma|Corollary)\s+(\w+)", open(f).read(), re.M))
C = {}
exec(open(os.path.join(here, "claims.py")).read())
claims = []
for p in props:
    st, th, note = C.get(p, ("partial", [], "not modelled yet"))
    for t in th:
        assert t in names, (p, t)
    claims.append(dict(property=p, status=st, theorems=th, note=note))
json.dump({"claims": claims}, open(os.path.join(here, "..", "MANIFEST.json"), "w"), indent=1)
import collections
print(collections.Counter(c["status"] if c["theorems"] else "none" for c in claims))
