#!/usr/bin/env python3
"""Print Assumptions for every theorem named in MANIFEST.json (after building rocq/)."""
import json, os, re, subprocess, sys, tempfile
here = os.path.dirname(os.path.abspath(__file__))
root = os.path.join(here, "..")
theories = os.path.join(root, "rocq", "theories")
mods = [l.strip()[9:-2] for l in open(os.path.join(root, "rocq", "_CoqProject")) if l.strip().endswith(".v")]
where = {}
for m in mods:
    for n in re.findall(r"^\s*(?:Theorem|Lemma|Corollary)\s+([\w']+)", open(os.path.join(theories, m + ".v")).read(), re.M):
        where.setdefault(n, []).append(m)
names = []
for c in json.load(open(os.path.join(root, "MANIFEST.json")))["claims"]:
    names += [n for n in c["theorems"] if n not in names]
src = "".join("Require Verif.%s.\n" % m for m in mods)
todo = [(n, m) for n in names for m in where[n]]
src += "".join("Print Assumptions Verif.%s.%s.\n" % (m, n) for n, m in todo)
with tempfile.TemporaryDirectory() as t:
    open(os.path.join(t, "a.v"), "w").write(src)
    r = subprocess.run(["coqc", "-Q", theories, "Verif", "a.v"], cwd=t, stdout=subprocess.PIPE, check=True)
out = r.stdout.decode()
closed = out.count("Closed under the global context")
print("%d theorems, %d closed under the global context" % (len(todo), closed))
rest = out.replace("Closed under the global context\n", "")
print(rest, end="")
sys.exit(0 if closed == len(todo) else 1)
