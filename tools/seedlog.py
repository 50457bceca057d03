"""Turn results of mutate.py into seeded/LOG.jsonl: seedlog.py results.jsonl ...

Lines already in the log (same definition and edit) are kept, so notes about
tightened theorems survive."""
import json, os, sys

log = os.path.join(os.path.dirname(os.path.dirname(os.path.abspath(__file__))), "seeded", "LOG.jsonl")
old = {}
if os.path.exists(log):
    for l in open(log):
        if l.strip():
            d = json.loads(l)
            old[(d["definition"], d["edit"])] = d
for f in sys.argv[1:]:
    for l in open(f):
        d = json.loads(l)
        k = (d["definition"], d["edit"])
        e = {"definition": d["definition"], "edit": d["edit"], "claim": d["claim"],
             "theorems_failed": sorted(d["theorems_failed"]),
             "lemmas_failed": sorted(d["lemmas"]),
             "theorems_tightened": d.get("theorems_tightened") or old.get(k, {}).get("theorems_tightened", [])}
        if k in old and "note" in old[k]:
            e["note"] = old[k]["note"]
        old[k] = e
with open(log, "w") as o:
    for e in old.values():
        o.write(json.dumps(e) + "\n")
print(len(old), "entries;", [k for k, e in old.items() if not e["theorems_failed"]])
