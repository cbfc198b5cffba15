#!/usr/bin/env python3
"""Writes ../MANIFEST.json from claims.txt (id | status | theorem names | note)
and checks that every theorem exists in rocq/theories/Props."""
import json, os, re, glob
here = os.path.dirname(os.path.abspath(__file__))
names = set()
for f in glob.glob(os.path.join(here, "../rocq/theories/**/*.v"), recursive=True):
    names |= set(re.findall(r"^\s*(?:Theorem|Lemma|Corollary)\s+([A-Za-z0-9_']+)", open(f).read(), re.M))
ids = [json.loads(l)["id"] for l in open(os.path.join(here, "../properties.jsonl"))]
claims = []
for l in open(os.path.join(here, "claims.txt")):
    l = l.strip()
    if not l or l.startswith("#"): continue
    i, st, th, note = [x.strip() for x in l.split("|")]
    th = th.split()
    assert st in ("proved", "partial", "not_applicable"), l
    for t in th:
        if t not in names: print("MISSING", t)
    assert i in ids, i
    claims.append(dict(property=i, status=st, theorems=th, note=note))
assert len(set(c["property"] for c in claims)) == len(claims)
claims.sort(key=lambda c: c["property"])
print("no claim yet:", [i for i in ids if i not in [c["property"] for c in claims]])
open(os.path.join(here, "../MANIFEST.json"), "w").write(json.dumps({"claims": claims}, indent=1) + "\n")
