#!/usr/bin/env python3
"""Regenerate DESIGN.md = tools/design_static.md + table of Print Assumptions per theorem.
Needs a finished build in rocq/."""
import json, os, re, subprocess, tempfile
root = os.path.dirname(os.path.dirname(os.path.abspath(__file__)))
th = os.path.join(root, "rocq", "theories")
where = {}
for f in sorted(os.listdir(th)):
    if f.startswith("T_") and f.endswith(".v"):
        for n in re.findall(r"^Theorem (\w+)", open(os.path.join(th, f)).read(), re.M):
            where[n] = f[:-2]
claims = json.load(open(os.path.join(root, "MANIFEST.json")))["claims"]
names = []
for c in claims:
    for t in c["theorems"]:
        if t not in names: names.append(t)
d = tempfile.mkdtemp()
rows = []
src = "".join("From Verif Require %s.\n" % m for m in sorted(set(where.values())))
for n in names:
    src += 'Goal True. idtac "@@%s". Abort.\nPrint Assumptions Verif.%s.%s.\n' % (n, where[n], n)
open(os.path.join(d, "a.v"), "w").write(src)
out = subprocess.run(["coqc", "-Q", th, "Verif", os.path.join(d, "a.v")], capture_output=True, text=True)
assert out.returncode == 0, out.stderr
parts = re.split(r"@@(\w+)\n", out.stdout)[1:]
for n, a in zip(parts[::2], parts[1::2]):
    rows.append("| `%s` | `%s.v` | %s |" % (n, where[n], " ".join(a.split())))
s = open(os.path.join(root, "tools", "design_static.md")).read()
open(os.path.join(root, "DESIGN.md"), "w").write(
    s + "\n| theorem | file | Print Assumptions |\n|---|---|---|\n" + "\n".join(rows) + "\n")
print(len(rows), "theorems;", sum("Closed under" not in r for r in rows), "with assumptions")
