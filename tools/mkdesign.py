"""Writes DESIGN.md from its two parts and the output of Print Assumptions.

Needs the compiled theories."""
import json, os, re, subprocess, tempfile
ROOT = os.path.abspath(os.path.join(os.path.dirname(os.path.abspath(__file__)), ".."))
TH = os.path.join(ROOT, "rocq", "theories")
where = {}
for f in sorted(os.listdir(TH)):
    if f.endswith(".v"):
        for n in re.findall(r"^\s*(?:Theorem|Lemma|Corollary|Example)\s+(\w+)", open(os.path.join(TH, f)).read(), re.M):
            where.setdefault(n, f[:-2])
claims = json.load(open(os.path.join(ROOT, "MANIFEST.json")))["claims"]
rows = []
for c in sorted(claims, key=lambda c: c["property"]):
    for t in c["theorems"]:
        rows.append((c["property"], t, where[t]))
mods = sorted({m for _, _, m in rows})
d = tempfile.mkdtemp()
src = "From Verif Require " + " ".join(mods) + ".\n"
for _, t, m in rows:
    src += 'Goal True. idtac "@@ %s". Abort. Print Assumptions %s.%s.\n' % (t, m, t)
open(os.path.join(d, "a.v"), "w").write(src)
r = subprocess.run(["coqc", "-Q", TH, "Verif", "a.v"], cwd=d, capture_output=True, text=True)
assert r.returncode == 0, r.stderr
res = {}
for part in r.stdout.split("@@ ")[1:]:
    n, _, body = part.partition("\n")
    res[n.strip()] = " ".join(body.split())
s = open(os.path.join(ROOT, "tools", "design", "head.md")).read() + open(os.path.join(ROOT, "tools", "design", "mid.md")).read()
s += "| property | theorem | file | Print Assumptions |\n|---|---|---|---|\n"
for p, t, m in rows:
    s += "| %s | `%s` | %s.v | %s |\n" % (p, t, m, res[t])
open(os.path.join(ROOT, "DESIGN.md"), "w").write(s)
print(len(rows), "theorems;", sum("Closed" not in v for v in res.values()), "with assumptions")
