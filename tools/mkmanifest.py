#!/usr/bin/env python3
"""Writes MANIFEST.json from the table below and checks that every theorem exists."""
import json, re, glob, os, sys
root = os.path.dirname(os.path.dirname(os.path.abspath(__file__)))
C = []
def claim(p, status, theorems, note=""):
    C.append({"property": p, "status": status, "theorems": theorems.split(), "note": note})

exec(open(os.path.join(root, "tools", "claims.py")).read())

names = set()
for f in glob.glob(os.path.join(root, "rocq/theories/T_*.v")):
    names |= set(re.findall(r"^Theorem\s+(\w+)", open(f).read(), re.M))
used = set(t for c in C for t in c["theorems"])
missing = used - names
if missing: sys.exit("no such theorem: %s" % missing)
if names - used: print("theorems not in the manifest:", sorted(names - used))
C.sort(key=lambda c: c["property"])
json.dump({"claims": C}, open(os.path.join(root, "MANIFEST.json"), "w"), indent=1)
