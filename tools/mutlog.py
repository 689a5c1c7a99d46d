#!/usr/bin/env python3
"""Writes seeded/LOG.jsonl from /tmp/mut/results.jsonl (last result of each mutant) and seeded/tightened.json
(mutant -> theorems that failed before tightening, theorems tightened or added because of it)."""
import json, os
T = json.load(open("/verif/seeded/tightened.json"))
res = {}
log = "/verif/seeded/LOG.jsonl"
old = {}
if os.path.exists(log):
    for l in open(log):
        d = json.loads(l); old[d["mutant"]] = d
for l in open("/tmp/mut/results.jsonl"):
    r = json.loads(l)
    if r["status"] == "ok": res[r["name"]] = r
for n, r in res.items():
    t = T.get(n)
    d = {"mutant": n, "definition": r["definition"], "file": r["file"], "edit": "%s: `%s` -> `%s`" % (r["edit"], r["old"], r["new"]), "property": r["property"],
         "claim_broken": r["claim"], "theorems_failed": r["failed"], "theorems_tightened": []}
    if t:
        d["theorems_failed"] = t["before"]; d["theorems_tightened"] = t["tightened"]; d["failed_after_tightening"] = r["failed"]
    old[n] = d
with open(log, "w") as o:
    for d in old.values(): o.write(json.dumps(d) + "\n")
print(len(old), "mutants logged;", [n for n, d in old.items() if not d["theorems_failed"] and not d["theorems_tightened"]], "without a failing theorem")
