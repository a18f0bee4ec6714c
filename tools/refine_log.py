#!/usr/bin/env python3
"""refine_log.py DEPS.json: in seeded/LOG.jsonl, replace theorems_failed by the property theorems
whose proofs use (directly or not) the first lemmas that failed to compile."""
import json, os, sys
root = os.path.dirname(os.path.dirname(os.path.abspath(__file__)))
log = os.path.join(root, "seeded", "LOG.jsonl")
deps = json.load(open(sys.argv[1]))
out = []
for l in open(log):
    x = json.loads(l)
    ff = set(x.get("first_failure", []))
    if ff:
        th = sorted(k.split(".")[1] for k, v in deps.items() if ff & set(v) or k in ff)
        if th:
            x["theorems_failed"] = th
        x.pop("n_theorems_no_longer_checked", None)
    claims = [c for c in x["claim_broken"].replace(" ", ",").split(",") if len(c) == 3 and c[0] == "C" and c[1:].isdigit()]
    miss = [c for c in claims if not any(t.startswith(c) for t in x["theorems_failed"])]
    if miss:
        print(x["definition"], "claims without a failed theorem:", miss, x["first_failure"])
    out.append(json.dumps(x))
open(log, "w").write("\n".join(out) + "\n")
