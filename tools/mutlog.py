#!/usr/bin/env python3
"""Append results of tools/mutate.py to seeded/LOG.jsonl: mutlog.py results.jsonl ... (skips edits already logged).
An optional last argument tighten.json maps "def|edit" to the theorems tightened because of that edit."""
import json, sys, os
log = os.path.join(os.path.dirname(__file__), "..", "seeded", "LOG.jsonl")
have = set()
if os.path.exists(log):
    for l in open(log):
        if l.strip():
            d = json.loads(l); have.add((d["definition"], d["edit"], d.get("round", 1)))
tight = {}
args = sys.argv[1:]
rnd = 1
if args and args[0].startswith("round="): rnd = int(args[0][6:]); args = args[1:]
if args and args[-1].endswith(".json"): tight = json.load(open(args[-1])); args = args[:-1]
with open(log, "a") as out:
    for f in args:
        for l in open(f):
            r = json.loads(l); m = r["mutant"]
            d = m["file"].replace(".v", "") + "." + m["def"]
            if (d, m["edit"], rnd) in have: continue
            have.add((d, m["edit"], rnd))
            out.write(json.dumps({"definition": d, "edit": m["edit"], "old": m["old"], "new": m["new"], "claim": m["claim"],
                "theorems_failed": r["failed"], "theorems_tightened": tight.get(m["def"] + "|" + m["edit"], []), "round": rnd}) + "\n")
