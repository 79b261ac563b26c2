#!/usr/bin/env python3
"""Append mutation results to seeded/LOG.jsonl.
usage: log_mutants.py results.res [tightened.json]
tightened.json maps a claim to the theorems that were added or tightened because of it."""
import json, os, sys
root = os.path.dirname(os.path.dirname(os.path.abspath(__file__)))
log = os.path.join(root, "seeded", "LOG.jsonl")
tight = json.load(open(sys.argv[2])) if len(sys.argv) > 2 else {}
old = {(d["definition"], d["edit"], d["claim"]) for d in map(json.loads, open(log))} if os.path.exists(log) else set()
with open(log, "a") as out:
    for line in open(sys.argv[1]):
        r = json.loads(line)
        if r.get("bad"):
            continue
        d = {"definition": r["file"] + "." + r["definition"], "edit": r["find"] + "  =>  " + r["replace"], "claim": r["claim"],
             "failed": r["theorems"], "failed_lemmas": [x for x in r["failed"] if x.split(".")[-1] not in r["theorems"]],
             "tightened": tight.get(r["claim"], [])}
        if (d["definition"], d["edit"], d["claim"]) not in old:
            out.write(json.dumps(d) + "\n")
