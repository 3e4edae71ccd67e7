#!/usr/bin/env python3
"""Regenerates MANIFEST.json from tools/claims.txt.

Each line of claims.txt: ID | status | note.  The theorems of a property are the
ones in rocq/theories/Properties*.v whose name starts with its id.
"""
import glob, json, os, re
here = os.path.dirname(os.path.abspath(__file__))
root = os.path.dirname(here)
names = []
for f in sorted(glob.glob(os.path.join(root, "rocq/theories/Properties*.v"))):
    for line in open(f):
        m = re.match(r"Theorem\s+(\w+)", line)
        if m:
            names.append(m.group(1))
claims = []
for line in open(os.path.join(here, "claims.txt")):
    if not line.strip():
        continue
    pid, status, note = [x.strip() for x in line.split("|", 2)]
    th = [n for n in names if pid in n.split("_")]
    claims.append({"property": pid, "status": status, "theorems": th, "note": note})
used = {t for c in claims for t in c["theorems"]}
for n in names:
    assert n in used, n
for c in claims:
    assert c["status"] == "not_applicable" or c["theorems"], c["property"]
json.dump({"claims": claims}, open(os.path.join(root, "MANIFEST.json"), "w"), indent=1)
print(len(claims), "claims", len(names), "theorems")
