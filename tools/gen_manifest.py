#!/usr/bin/env python3
"""Regenerates MANIFEST.json and the file list of rocq/_CoqProject.

Every theorem called Cnn_... in a Prop*.v file is claimed for property Cnn.  The status is "proved" unless STATUS says
otherwise; NOTES holds the free text of each claim.
"""
import glob, json, os, re

ROOT = os.path.dirname(os.path.dirname(os.path.abspath(__file__)))
TH = os.path.join(ROOT, "rocq", "theories")

STATUS = {}
NOTES = {}
exec(open(os.path.join(ROOT, "tools", "claims.py")).read())

theorems = {}
for f in sorted(glob.glob(os.path.join(TH, "Prop*.v"))):
    for m in re.finditer(r"^\s*Theorem (C\d+)_(\w+)", open(f).read(), re.M):
        theorems.setdefault(m.group(1), []).append(f"{m.group(1)}_{m.group(2)}")

claims = []
for line in open(os.path.join(ROOT, "properties.jsonl")):
    pid = json.loads(line)["id"]
    if pid in theorems:
        claims.append({"property": pid, "status": STATUS.get(pid, "proved"), "theorems": theorems[pid], "note": NOTES.get(pid, "")})
    elif pid in STATUS:
        claims.append({"property": pid, "status": STATUS[pid], "theorems": [], "note": NOTES.get(pid, "")})
json.dump({"claims": claims}, open(os.path.join(ROOT, "MANIFEST.json"), "w"), indent=1)
open(os.path.join(ROOT, "MANIFEST.json"), "a").write("\n")

# dependency order is computed by coq_makefile; the list only has to be complete
files = sorted(os.path.basename(f) for f in glob.glob(os.path.join(TH, "*.v")))
open(os.path.join(ROOT, "rocq", "_CoqProject"), "w").write("-Q theories Verif\n" + "".join(f"theories/{f}\n" for f in files))
missing = [json.loads(l)["id"] for l in open(os.path.join(ROOT, "properties.jsonl")) if json.loads(l)["id"] not in theorems]
print(len(claims), "claims;", sum(len(v) for v in theorems.values()), "theorems; without theorem:", " ".join(missing))
