"""Lists what Print Assumptions says for every theorem of MANIFEST.json and
rewrites the table between the ASSUMPTIONS markers of DESIGN.md.
Needs a finished build in rocq/ (python3 tools/gen_assumptions.py)."""
import glob, json, os, re, subprocess, sys, tempfile
root = os.path.join(os.path.dirname(os.path.abspath(__file__)), "..")
claims = json.load(open(os.path.join(root, "MANIFEST.json")))["claims"]
where = {}
for f in glob.glob(os.path.join(root, "rocq/theories/Props_*.v")):
    for t in re.findall(r"^Theorem\s+([A-Za-z0-9_']+)", open(f).read(), re.M):
        where[t] = os.path.basename(f)[:-2]
theorems = list(dict.fromkeys(t for c in claims for t in c["theorems"]))
if len(sys.argv) > 1:
    out = open(sys.argv[1]).read()
else:
    with tempfile.TemporaryDirectory() as d:
        with open(os.path.join(d, "pa.v"), "w") as o:
            for m in sorted(set(where[t] for t in theorems)): o.write(f"From Verif Require {m}.\n")
            for t in theorems: o.write(f'Goal True. idtac "@@ {t}". exact I. Qed.\nPrint Assumptions {where[t]}.{t}.\n')
        out = subprocess.run(["coqc", "-Q", os.path.join(root, "rocq/theories"), "Verif", "pa.v"], cwd=d, capture_output=True, text=True).stdout
groups = {}
for block in out.split("@@ ")[1:]:
    lines = block.splitlines()
    ax = tuple(sorted(re.match(r"[A-Za-z_.0-9']+", l).group(0) for l in lines[1:] if re.match(r"[A-Za-z_]", l) and not l.startswith(("Axioms", "Closed"))))
    groups.setdefault(ax, []).append(lines[0].strip())
assert sum(map(len, groups.values())) == len(theorems)
text = ""
for ax in sorted(groups, key=lambda a: (len(a), a)):
    text += "* **" + (", ".join(f"`{a}`" for a in ax) or "none (closed under the global context)") + f"** — {len(groups[ax])} theorems:\n  "
    text += " ".join(groups[ax]) + "\n"
p = os.path.join(root, "DESIGN.md")
s = open(p).read()
a, b = "<!-- ASSUMPTIONS -->\n", "<!-- END ASSUMPTIONS -->\n"
i, j = s.index(a) + len(a), s.index(b)
open(p, "w").write(s[:i] + text + s[j:])
print({", ".join(k): len(v) for k, v in groups.items()})
