#!/usr/bin/env python3
"""Append reviewed results of mutate.py to seeded/LOG.jsonl: addlog.py results.log [tightened.json]"""
import json, sys
tight = json.load(open(sys.argv[2])) if len(sys.argv) > 2 else {}
with open("/verif/seeded/LOG.jsonl", "a") as out:
    for l in open(sys.argv[1]):
        d = json.loads(l)
        if "error" in d: continue
        if d["id"] in tight: d["tightened"] = tight[d["id"]]
        out.write(json.dumps(d) + "\n")
