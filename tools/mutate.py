"""Runs the proofs against wrong programs.

usage: mutate.py MUTATIONS.py [index ...]

MUTATIONS.py defines M, a list of (file, definition, old, new, claim, what).  Each edit is
applied to a scratch copy of the theories; files depending on the edited one are rebuilt;
a lemma whose proof no longer passes is admitted in the scratch copy and the build goes
on, so that all theorems that depend on the change are found.  Appends to
seeded/LOG.jsonl.  An empty list of failed theorems means the wrong program was not
noticed.
"""
import sys, os, re, json, shutil, subprocess, tempfile, runpy
from concurrent.futures import ThreadPoolExecutor
ROOT = os.path.abspath(os.path.join(os.path.dirname(os.path.abspath(__file__)), ".."))
TH = os.path.join(ROOT, "rocq", "theories")
ORDER = [l.strip()[len("theories/"):-2] for l in open(os.path.join(ROOT, "rocq", "_CoqProject")) if l.startswith("theories/")]

def deps(mod):
    s = open(os.path.join(TH, mod + ".v")).read()
    r = set()
    for m in re.findall(r"From Verif Require (?:Import|Export) ([^.]*)\.", s):
        r |= set(m.split())
    return r
D = {m: deps(m) for m in ORDER}
def dependents(mod):
    bad = {mod}
    out = []
    for m in ORDER:
        if m == mod or D[m] & bad:
            bad.add(m); out.append(m)
    return out

HEAD = re.compile(r"^\s*(?:Local |Global |#\[[^]]*\] *)*(?:Theorem|Lemma|Corollary|Example|Fact|Remark|Instance)\s+(\w+)", re.M)

def admit(src, line):
    """admits the lemma around the given line; returns (name, new source)"""
    off = sum(len(l) + 1 for l in src.split("\n")[:line - 1])
    last = None
    for m in HEAD.finditer(src):
        if m.start() > off + 200: break
        eol = src.find("\n", off)
        if m.start() <= eol: last = m
    if last is None: return None, src
    p = re.compile(r"\bProof\b").search(src, last.start())
    p = p.start() if p else -1
    q = re.compile(r"\b(Qed|Defined)\.").search(src, p)
    if p < 0 or not q: return None, src
    if not (last.start() <= off + 1 <= q.end() + 400): return None, src
    return last.group(1), src[:p] + "Admitted." + "\n" * src.count("\n", p, q.end()) + src[q.end():]

def coqc(d, mod, timeout=900):
    try:
        r = subprocess.run(["coqc", "-Q", ".", "Verif", mod + ".v"], cwd=d, capture_output=True, text=True, timeout=timeout)
    except subprocess.TimeoutExpired:
        return 1, "", "timeout"
    return r.returncode, r.stdout, r.stderr

def run(mut):
    f, definition, old, new, claim, what = mut
    d = tempfile.mkdtemp(prefix="mut")
    for x in os.listdir(TH):
        if x.endswith((".v", ".vo")): shutil.copy2(os.path.join(TH, x), d)
    p = os.path.join(d, f + ".v")
    s = open(p).read()
    assert s.count(old) >= 1, ("not found", old)
    assert s.count(old) == 1, ("ambiguous", old)
    open(p, "w").write(s.replace(old, new))
    failed, props, note = [], [], ""
    for mod in dependents(f):
        mp = os.path.join(d, mod + ".v")
        stop = False
        while True:
            rc, out, err = coqc(d, mod)
            if rc == 0: break
            m = re.search(r'File "\./%s\.v", line (\d+)' % mod, err)
            if not m:
                note = "stopped in %s: %s" % (mod, err.strip()[-200:]); stop = True; break
            src = open(mp).read()
            name, src2 = admit(src, int(m.group(1)))
            if name is None or src2 == src or name in failed:
                note = "stopped in %s line %s: %s" % (mod, m.group(1), err.strip()[-200:]); stop = True; break
            failed.append(name)
            open(mp, "w").write(src2)
        if stop: break
        if mod.endswith("Props"):
            names = re.findall(r"^Print Assumptions (\w+)\.", open(mp).read(), re.M)
            chunks = re.split(r"^(?=Closed under|Axioms:)", out, flags=re.M)
            chunks = [c for c in chunks if c.startswith(("Closed under", "Axioms:"))]
            for n, c in zip(names, chunks):
                if c.startswith("Axioms:"): props.append(n)
    shutil.rmtree(d)
    rec = {"definition": f + ".v: " + definition, "edit": what, "old": old, "new": new, "claim": claim,
           "failed": sorted(set(failed)), "claims_lost": props, "tightened": []}
    if note: rec["note"] = note
    return rec

if __name__ == "__main__":
    M = runpy.run_path(sys.argv[1])["M"]
    sel = [int(x) for x in sys.argv[2:]] or range(len(M))
    with ThreadPoolExecutor(4) as ex:
        for i, rec in zip(sel, ex.map(lambda i: run(M[i]), sel)):
            with open(os.path.join(ROOT, "seeded", "LOG.jsonl"), "a") as f:
                f.write(json.dumps(rec) + "\n")
            print(i, rec["edit"], "->", len(rec["failed"]), "failed", rec["claims_lost"], rec.get("note", ""), flush=True)
