#!/usr/bin/env python3
"""Seed bugs into a scratch copy of the model and report the theorems that stop being proved.

usage: mutate.py mutants.json [first [last]]

mutants.json: list of {"definition", "file", "old", "new", "edit", "claim"}; "file" is relative to
rocq/theories; an optional "areas" limits the files recompiled.  Each edit is made in a copy under $MUT* (/tmp/mut*), the edited file and everything that depends
on it is recompiled; a failing proof is replaced by an axiom in the copy so that the rest can be
examined, and a property theorem counts as failed if its own proof or one it depends on failed.
One line per mutant is printed; nothing in /verif is changed.
"""
import json, os, re, subprocess, sys, shutil
from concurrent.futures import ThreadPoolExecutor
ROCQ = os.environ.get("ROCQ", "/verif/rocq")

def deps():
    out = subprocess.run("coqdep -Q theories Verif $(find theories -name '*.v')", shell=True, cwd=ROCQ, capture_output=True, text=True).stdout
    d = {}
    for line in out.splitlines():
        m = re.match(r"(\S+)\.vo\s.*?:\s*(.*)", line)
        if m:
            d[m[1] + ".v"] = [x[:-1] for x in m[2].split() if x.endswith(".vo") and x.startswith("theories")]
    return d

def order(d, start):
    seen, res = set(), []
    def visit(f):
        if f in seen: return
        seen.add(f)
        for g in d[f]: visit(g)
        res.append(f)
    for f in d: visit(f)
    hit = {start}
    todo = []
    for f in res:
        if f in hit or any(g in hit for g in d[f]):
            hit.add(f); todo.append(f)
    return todo

START = re.compile(r"^\s*(?:Local\s+|Global\s+|#\[[^\]]*\]\s*)?(Lemma|Theorem|Corollary|Example|Fact|Remark|Instance|Proposition)\s+(\w+'*)")
def admit(path, line):
    L = open(path).read().split("\n")
    k = line - 1
    while k >= 0 and not START.match(L[k]): k -= 1
    if k < 0: return None
    name = START.match(L[k])[2]
    j = k
    text = "\n".join(L[k:])
    m = re.search(r"\bProof\b[^.]*\.", text)
    e = re.search(r"\b(Qed|Defined)\.", text)
    if not m or not e or m.start() > e.start(): return None
    if text[:e.start()].count("\n") + k < line - 1: return None
    new = text[:m.start()] + "Admitted." + text[e.end():]
    if text[:m.end()].count("\n") + k < line - 1 or True:
        pos = text[:m.start()].count("\n") + k
        if line - 1 < pos: return None
    open(path, "w").write("\n".join(L[:k]) + ("\n" if k else "") + new)
    return name

def run(m, slot, d):
    base = os.environ.get("MUT", "/tmp/mut") + str(slot)
    shutil.rmtree(base, ignore_errors=True); subprocess.run(["cp", "-a", ROCQ, base])
    f = os.path.join(base, "theories", m["file"])
    s = open(f).read()
    if s.count(m["old"]) != 1:
        return dict(m, error="old text occurs %d times" % s.count(m["old"]))
    open(f, "w").write(s.replace(m["old"], m["new"]))
    todo = order(d, "theories/" + m["file"])
    if "areas" in m:
        keep = set()
        def need(g):
            if g in todo and g not in keep:
                keep.add(g)
                for x in d[g]: need(x)
        for g in todo:
            if g.split("/")[1] in m["areas"]: need(g)
        todo = [g for g in todo if g in keep]
    for g in todo:
        p = os.path.join(base, g + "o")
        if os.path.exists(p): os.remove(p)
    admitted, failed, broken, lemmas = set(), set(), [], []
    for g in todo:
        if any(x in broken for x in d[g]):
            broken.append(g); continue
        path = os.path.join(base, g)
        for _ in range(80):
            try:
                r = subprocess.run(["coqc", "-Q", "theories", "Verif", g], cwd=base, capture_output=True, text=True, timeout=m.get("timeout", 400))
            except subprocess.TimeoutExpired:
                broken.append(g); lemmas.append("timeout:" + g); break
            if r.returncode == 0:
                if g.endswith("Props.v"):
                    src = open(path).read()
                    names = re.findall(r"Print Assumptions\s+(\w+'*)\.", src)
                    parts = re.split(r"^(?=Closed under|Axioms:)", r.stdout, flags=re.M)
                    parts = [x for x in parts if x.startswith(("Closed", "Axioms"))]
                    for n, x in zip(names, parts):
                        used = set(re.findall(r"^(\S+)", x, flags=re.M))
                        used = {u.split(".")[-1] for u in used}
                        if used & admitted: failed.add(n)
                break
            mm = re.search(r'line (\d+), characters', r.stderr + r.stdout)
            name = admit(path, int(mm[1])) if mm else None
            if name is None:
                broken.append(g); lemmas.append("%s: %s" % (g, (r.stderr or r.stdout).strip()[-200:])); break
            admitted.add(name); lemmas.append(name)
            if re.match(r"C\d\d", name): failed.add(name)
        else:
            broken.append(g)
    props = []
    for g in broken:
        if g.endswith("Props.v"):
            props += re.findall(r"^Theorem (\w+)", open(os.path.join(base, g)).read(), flags=re.M)
    return {"definition": m["definition"], "file": m["file"], "edit": m["edit"], "claim": m["claim"],
            "failed": sorted(x for x in failed if not x.endswith("_case")), "cases": sorted(x for x in failed if x.endswith("_case")),
            "lemmas": lemmas[:12], "unbuilt": sorted(set(props)), "tightened": []}

def main():
    ms = json.load(open(sys.argv[1]))
    a = int(sys.argv[2]) if len(sys.argv) > 2 else 0
    b = int(sys.argv[3]) if len(sys.argv) > 3 else len(ms)
    d = deps()
    import queue
    slots = queue.Queue()
    for i in range(3): slots.put(i)
    def work(m):
        s = slots.get()
        try: return run(m, s, d)
        finally: slots.put(s)
    with ThreadPoolExecutor(3) as ex:
        for r in ex.map(work, ms[a:b]):
            print(json.dumps(r), flush=True)
main()
