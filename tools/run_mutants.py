#!/usr/bin/env python3
"""Runs the mutants of seeded/mutants.py that are not in seeded/LOG.jsonl yet (optional: id prefix) and appends to the log.
MUTREV=1 goes through them backwards.  Only the files with the theorems of the claimed properties are checked
("checked" in the log); MUTALL=1 checks all theorems."""
import json, os, re, sys
sys.path.insert(0, os.path.join(os.path.dirname(os.path.abspath(__file__)), "..", "seeded"))
sys.path.insert(0, os.path.dirname(os.path.abspath(__file__)))
import mutate, mutants
log = os.path.join(mutate.root, "seeded", "LOG.jsonl")
done = set(json.loads(l)["id"] for l in open(log)) if os.path.exists(log) else set()
assert len({x["id"] for x in mutants.M}) == len(mutants.M), "ids are not unique"
pre = sys.argv[1] if len(sys.argv) > 1 else ""
for x in (mutants.M[::-1] if os.environ.get("MUTREV") else mutants.M):
    if x["id"] in done or not x["id"].startswith(pre): continue
    only = [] if os.environ.get("MUTALL") else sorted(set(re.findall(r"C\d{2,3}", x["claim"])))
    r = mutate.run(x["file"], x["old"], x["new"], only)
    if r[0] == "ERR": print(x["id"], "ERROR", r[1], flush=True); continue
    e = dict(id=x["id"], definition=f"{x['file']}:{x['definition']}", edit=x["edit"] + f" [{x['old'].strip()} -> {x['new'].strip()}]",
             claim=x["claim"], broken_lemmas=r[1], failed=r[2], tightened=x["tightened"])
    if only: e["checked"] = only
    if r[3]: e["timed_out"] = r[3]
    open(log, "a").write(json.dumps(e) + "\n")
    print(x["id"], "KILLED" if r[2] else "SURVIVED", len(r[2]), flush=True)
