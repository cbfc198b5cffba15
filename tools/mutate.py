#!/usr/bin/env python3
"""Runs seeded edits of the model in a scratch copy.

usage: mutate.py edits.json [id ...]

Each edit: {"id", "file", "definition", "old", "new", "edit", "claim"} and optionally "targets" (the files of Props to rebuild); the file is copied to /tmp/mut,
edited and rebuilt with make -k.  Prints one JSON line per edit, to be reviewed and appended to seeded/LOG.jsonl."""
import json, re, subprocess, sys, os, shutil
SRC = os.environ.get("SRC", "/verif/rocq"); DST = os.environ.get("MUT", "/tmp/mut")
man = json.load(open("/verif/MANIFEST.json"))
claimed = [t for c in man["claims"] for t in c["theorems"]]
props = {}
for f in os.listdir(SRC + "/theories/Props"):
    if f.endswith(".v"):
        t = open(f"{SRC}/theories/Props/{f}").read()
        props[f] = [(m.group(2), t.count("\n", 0, m.start()) + 1) for m in re.finditer(r"^ *(Theorem|Lemma|Corollary) (\w+)", t, re.M)]
def enclosing(path, line):
    ls = open(path).read().split("\n")[:line]
    for l in reversed(ls):
        m = re.match(r"\s*(Theorem|Lemma|Example|Corollary|Definition|Fixpoint|Record|Instance|#\[global\] Instance) (\w+)", l)
        if m: return m.group(2)
    return "?"
edits = json.load(open(sys.argv[1])); want = set(sys.argv[2:])
for e in edits:
    if want and e["id"] not in want: continue
    subprocess.run(f"rm -rf {DST}; cp -a {SRC} {DST}", shell=True, check=True)
    p = f"{DST}/theories/{e['file']}"; s = open(p).read()
    if s.count(e["old"]) != 1:
        print(json.dumps({"id": e["id"], "error": f"pattern occurs {s.count(e['old'])} times"}), flush=True); continue
    open(p, "w").write(s.replace(e["old"], e["new"]))
    tg = " ".join(f"theories/Props/{x}.vo" for x in e.get("targets", []))
    r = subprocess.run(f"cd {DST} && timeout 1500 make -k -j{os.environ.get('J','2')} {tg} 2>&1", shell=True, capture_output=True, text=True)
    errs = []
    for m in re.finditer(r'File "\./(theories/[\w/]+\.v)", line (\d+), characters [\d-]+:\nError', r.stdout):
        errs.append((m.group(1), int(m.group(2)), enclosing(f"{DST}/{m.group(1)}", int(m.group(2)))))
    failed_props = {}
    for f in props:
        if e.get("targets") and f[:-2] not in e["targets"]: continue
        vo = f"{DST}/theories/Props/{f}o"
        direct = [x for x in errs if x[0] == f"theories/Props/{f}"]
        src = f"{DST}/theories/Model"
        fresh = os.path.exists(vo) and os.path.getmtime(vo) > os.path.getmtime(p)
        dep = subprocess.run(f"cd {DST} && make -q theories/Props/{f}o", shell=True, capture_output=True).returncode
        if direct: failed_props[f] = [t for t, l in props[f] if l >= [l2 for t2, l2 in props[f] if l2 <= direct[0][1]][-1] and t in claimed]
        elif dep != 0: failed_props[f] = [t for t, _ in props[f] if t in claimed]
    print(json.dumps({"id": e["id"], "definition": e["definition"], "edit": e["edit"], "breaks": e["claim"],
        "first_failures": [f"{a.replace('theories/','')}: {c}" for a, b, c in errs],
        "theorems_failed": sorted(t for f in failed_props for t in failed_props[f]), "tightened": []}), flush=True)
