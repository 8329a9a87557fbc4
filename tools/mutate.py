#!/usr/bin/env python3
"""Mutation testing.  Usage: mutate.py FILE OLD NEW
Copies rocq/ to a scratch directory outside /verif, replaces the unique
occurrence of OLD by NEW in theories/FILE, rebuilds, and whenever a proof breaks
replaces it by Admitted (in the scratch copy only) and goes on.  Prints the
broken lemmas and the Props theorems that depend on a broken lemma.
run(..., only) builds and checks just the Props files of the properties in only."""
import os, re, subprocess, sys, shutil
from multiprocessing.pool import ThreadPool
root = os.path.dirname(os.path.dirname(os.path.abspath(__file__)))
D = os.environ.get("MUTDIR", "/tmp/mut")
S = D + "/rocq"
# a proof that does not come to an end on the mutant is a broken proof
LIMIT = '-set "Default Timeout=200"'
HEAD = re.compile(r"^\s*(?:Local |Global )?(?:Lemma|Theorem|Corollary|Example|Fact|Remark|Instance)\s+([A-Za-z0-9_']+)", re.M)
def run(f, old, new, only=()):
    os.makedirs(D, exist_ok=True)
    subprocess.run(["rsync", "-a", "--delete", "--exclude=.git", root + "/rocq/", S + "/"], check=True) if shutil.which("rsync") else \
        (shutil.rmtree(S, ignore_errors=True), shutil.copytree(root + "/rocq", S, copy_function=shutil.copy2))
    p = f"{S}/theories/{f}"
    s = open(p).read()
    if s.count(old) != 1: return ("ERR", f"{s.count(old)} occurrences of OLD")
    open(p, "w").write(s.replace(old, new))
    subprocess.run("coq_makefile -f _CoqProject -o Makefile", shell=True, cwd=S, check=True, stdout=subprocess.DEVNULL)
    props = [fn for fn in sorted(os.listdir(f"{S}/theories")) if fn.startswith("Props_") and fn.endswith(".v") and
             any(re.search(rf"^Theorem {c}_", open(f"{S}/theories/{fn}").read(), re.M) for c in only)]
    if only and not props: return ("ERR", f"no theorems for {only}")
    targets = " ".join(f"theories/{fn}o" for fn in props)
    broken, timeouts = [], []
    for it in range(400):
        r = subprocess.run(f"make -k -j2 COQEXTRAFLAGS='{LIMIT}' " + targets, shell=True, cwd=S, capture_output=True, text=True)
        out = r.stdout + r.stderr
        if r.returncode == 0: break
        errs = re.findall(r'File "\./theories/(\w+\.v)", line (\d+), characters [\d-]+:\nError(: Timeout!)?', out)
        if not errs: return ("ERR", out[-2000:])
        done = set()
        for fn, ln, late in errs:
            if fn in done: continue
            done.add(fn)
            q = f"{S}/theories/{fn}"
            t = open(q).read()
            pos = sum(len(l) + 1 for l in t.split("\n")[:int(ln)])
            hs = [m for m in HEAD.finditer(t) if m.start() < pos]
            if not hs: return ("ERR", f"{fn}:{ln}\n" + out[-1500:])
            h = hs[-1]
            a = t.find("Proof.", h.start())
            e = re.compile(r"\b(Qed|Defined|Admitted)\.").search(t, a)
            if t[a:e.end()].replace("\n", " ").strip() == "Proof. Admitted." or a > pos:
                return ("ERR", f"cannot skip {fn}:{ln} {h.group(1)}\n" + out[-1500:])
            k = t[a:e.end()].count("\n")
            open(q, "w").write(t[:a] + "Proof. Admitted." + "\n" * k + t[e.end():])
            broken.append(f"{fn[:-2]}.{h.group(1)}")
            if late: timeouts.append(broken[-1])
    else: return ("ERR", "still failing after 400 rounds")
    names = set(b.split(".")[1] for b in broken)
    failed = [b.split(".")[1] for b in broken if b.startswith("Props_")]
    # dependence through Print Assumptions, in the files that import a file with a broken lemma
    imports = {}
    for fn in os.listdir(f"{S}/theories"):
        if fn.endswith(".v"):
            t = open(f"{S}/theories/{fn}").read()
            imports[fn[:-2]] = set(w for m in re.findall(r"From Verif Require (?:Import|Export)([^.]*)\.", t) for w in m.split())
    def reaches(x, seen):
        if x in bad: return True
        seen.add(x)
        return any(reaches(y, seen) for y in imports.get(x, ()) if y not in seen)
    bad = set(b.split(".")[0] for b in broken)
    def check(fn):
        t = open(f"{S}/theories/{fn}").read()
        r = subprocess.run(["coqc", "-Q", "theories", "Verif", f"theories/{fn}"], cwd=S, capture_output=True, text=True)
        # a compiler that was killed (signal, out of memory) must not look like a surviving mutant
        if r.returncode != 0: raise RuntimeError(f"coqc {fn}: exit {r.returncode} {r.stderr[-300:]}")
        blocks = re.split(r"^(?=Axioms:|Closed under)", r.stdout, flags=re.M)[1:]
        ths = re.findall(r"^Print Assumptions ([A-Za-z0-9_']+)\.", t, re.M)
        return [th for th, b in zip(ths, blocks) if set(x.split(".")[-1] for x in re.findall(r"^([A-Za-z0-9_'.]+)\s*(?::|$)", b, re.M)) & names]
    todo = sorted(fn + ".v" for fn in imports if fn.startswith("Props_") and (not props or fn + ".v" in props) and reaches(fn, set()))
    # sequential when a Props file imports another one, which must not be rewritten meanwhile
    leaves = [fn for fn in todo if not any(fn[:-2] in imports[g] for g in imports)]
    try:
        with ThreadPool(2) as pool: found = pool.map(check, leaves)
        found += [check(fn) for fn in todo if fn not in leaves]
    except RuntimeError as e: return ("ERR", str(e))
    for l in found: failed += [th for th in l if th not in failed]
    return ("OK", broken, failed, timeouts)
if __name__ == "__main__":
    r = run(*sys.argv[1:4])
    if r[0] == "ERR": print("ERROR", r[1]); sys.exit(1)
    print("broken lemmas:", " ".join(r[1])); print("failed theorems:", " ".join(r[2]))
