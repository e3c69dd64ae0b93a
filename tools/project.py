"""Regenerates rocq/_CoqProject (file list), MANIFEST.json and DESIGN.md section 5.

Theorems belong to a property by their name prefix (C01_...).  Status and notes are in status.json.
usage: project.py [--axioms]   (--axioms needs a finished build)
"""
import json, os, re, subprocess, sys, tempfile

ROOT = os.path.dirname(os.path.dirname(os.path.abspath(__file__)))
ROCQ = os.path.join(ROOT, "rocq")

files = []
for d, _, fs in os.walk(os.path.join(ROCQ, "theories")):
    for f in fs:
        if f.endswith(".v"):
            files.append(os.path.relpath(os.path.join(d, f), ROCQ))
files.sort()
with open(os.path.join(ROCQ, "_CoqProject"), "w") as f:
    f.write("-Q theories Verif\n" + "".join(x + "\n" for x in files))

thms = {}
mods = {}
for x in files:
    if not x.endswith("Props.v"):
        continue
    mod = x[len("theories/"):-2].replace("/", ".")
    for m in re.finditer(r"^(?:Theorem|Corollary)\s+((C\d\d\d?)_\w+)", open(os.path.join(ROCQ, x)).read(), re.M):
        thms.setdefault(m.group(2), []).append(m.group(1))
        mods[m.group(1)] = mod

status = json.load(open(os.path.join(ROOT, "tools", "status.json")))
props = [json.loads(l)["id"] for l in open(os.path.join(ROOT, "properties.jsonl")) if l.strip()]
claims = []
for p in props:
    if p in thms:
        s = status.get(p, {})
        claims.append({"property": p, "status": s.get("status", "proved"), "theorems": thms[p], "note": s.get("note", "")})
    elif p in status:
        claims.append({"property": p, "status": status[p]["status"], "theorems": [], "note": status[p]["note"]})
with open(os.path.join(ROOT, "MANIFEST.json"), "w") as f:
    json.dump({"claims": claims}, f, indent=1, ensure_ascii=False)
    f.write("\n")
for p in thms:
    if p not in props:
        print("theorems for unknown property", p)
print(len(claims), "of", len(props), "properties,", len(mods), "theorems")
print("missing:", [p for p in props if p not in thms])

if "--axioms" in sys.argv:
    with tempfile.TemporaryDirectory() as t:
        src = os.path.join(t, "a.v")
        with open(src, "w") as f:
            f.write("From Verif Require %s.\n" % " ".join(sorted(set(mods.values()))))
            for n, m in mods.items():
                f.write('Goal True. idtac "@@ %s". exact I. Qed.\nPrint Assumptions Verif.%s.%s.\n' % (n, m, n))
        out = subprocess.run(["coqc", "-Q", "theories", "Verif", src], cwd=ROCQ, capture_output=True, text=True)
        if out.returncode:
            print(out.stderr)
            sys.exit(1)
    groups = {}
    for chunk in out.stdout.split("@@ ")[1:]:
        name, _, rest = chunk.partition("\n")
        ax = re.findall(r"^([A-Za-z_][\w.]*)\s*:", rest, re.M)
        ax = [a for a in ax if a != "Axioms"]
        groups.setdefault(tuple(sorted(ax)), []).append(name.strip())
    text = "## 5. Axioms per theorem\n\nGenerated by `tools/project.py --axioms` from `Print Assumptions`.\n\n"
    for ax, names in sorted(groups.items(), key=lambda g: len(g[0])):
        text += ("**Closed under the global context (no axioms)**" if not ax else "**" + ", ".join("`%s`" % a for a in ax) + "**")
        text += " — %d theorems:\n\n" % len(names)
        text += ", ".join("`%s`" % n for n in names) + "\n\n"
    p = os.path.join(ROOT, "DESIGN.md")
    s = open(p).read()
    s = s[: s.index("## 5. Axioms per theorem")] + text
    open(p, "w").write(s)
