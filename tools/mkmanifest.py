#!/usr/bin/env python3
"""Collect theorem names Cnn_* from rocq/theories/Props*.v into MANIFEST.json.
Status and notes come from tools/notes.json: {"Cnn": {"status": ..., "note": ...}}."""
import glob, json, os, re
root = os.path.dirname(os.path.dirname(os.path.abspath(__file__)))
notes = json.load(open(os.path.join(root, "tools", "notes.json")))
ths = {}
for f in sorted(glob.glob(os.path.join(root, "rocq/theories/Props*.v"))):
    for m in re.finditer(r"^Theorem (C\d\d)(_\w+)", open(f).read(), re.M):
        ths.setdefault(m.group(1), []).append(m.group(1) + m.group(2))
claims = []
for l in open(os.path.join(root, "properties.jsonl")):
    p = json.loads(l)["id"]
    n = notes.get(p, {})
    t = ths.get(p, [])
    default = "proved" if t and not all(x.endswith("_partial") for x in t) else "partial"
    c = {"property": p, "status": n.get("status", default), "theorems": t,
         "note": n.get("note", "" if t else "planned; not modelled yet")}
    claims.append(c)
json.dump({"claims": claims}, open(os.path.join(root, "MANIFEST.json"), "w"), indent=1)
print({s: sum(1 for c in claims if c["status"] == s) for s in ("proved", "partial", "not_applicable")},
      "unproved:", [c["property"] for c in claims if not c["theorems"]])
