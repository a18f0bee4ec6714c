#!/usr/bin/env python3
"""Apply each edit of a list to a scratch copy of the model, rebuild, and record what fails.
usage: mutate.py edits.json  (a list of {file, old, new, definition, edit, claim})
Works in /tmp/mut; appends one JSON line per edit to seeded/LOG.jsonl."""
import json, os, re, subprocess, sys, glob
root = os.path.dirname(os.path.dirname(os.path.abspath(__file__)))
work = os.environ.get("MUT_DIR", "/tmp/mut")
base = work + "_base"
def sh(c, **k): return subprocess.run(c, shell=True, stdout=subprocess.PIPE, stderr=subprocess.STDOUT, universal_newlines=True, **k)
if not os.environ.get("MUT_KEEP"):  # keep the copy of the run before
    sh("mkdir -p %s %s && rm -rf %s/* && cp -a %s/rocq/. %s/" % (base, work, base, root, base))
    sh("cd %s && coq_makefile -f _CoqProject -o Makefile && make -j3" % base)
edits = json.load(open(sys.argv[1]))
for e in edits:
    sh("rm -rf %s && cp -a %s %s" % (work, base, work))
    p = "%s/theories/%s" % (work, e["file"])
    s = open(p).read()
    if s.count(e["old"]) < 1:
        print("NOT FOUND", e["definition"], e["old"]); continue
    nth = e.get("nth", 0)
    i = -1
    for _ in range(nth + 1): i = s.index(e["old"], i + 1)
    s = s[:i] + e["new"] + s[i + len(e["old"]):]
    open(p, "w").write(s)
    out = sh("cd %s && nice -n 15 make -k -j3" % work, timeout=4000).stdout
    fails, bad_model = [], False
    for m in re.finditer(r'File "\./(theories/(\w+)\.v)", line (\d+)', out):
        f = open("%s/%s" % (work, m.group(1))).read().split("\n")
        n = int(m.group(3))
        name = None
        for k in range(n - 1, -1, -1):
            mm = re.match(r"\s*(?:Lemma|Theorem|Example|Definition|Fixpoint|Let|Corollary)\s+(\w+)", f[k])
            if mm: name = mm.group(1); break
        # warnings also print a location: keep errors only
        tail = out[m.end():m.end() + 200]
        if "Error" in tail: fails.append("%s.%s" % (m.group(2), name))
    lost = []
    stale = set(re.findall(r"COQC theories/(\w+)\.v", sh("cd %s && make -n -k" % work).stdout))  # failed, or depending on what failed
    for f in sorted(glob.glob(work + "/theories/Props*.v")):
        if os.path.basename(f)[:-2] in stale: lost += re.findall(r"^Theorem (C\d\d_\w+)", open(f).read(), re.M)
    claims = e["claim"].split()[0].split(",")
    rel = [t for t in lost if t.split("_")[0] in claims]
    r = {"definition": e["definition"], "file": "rocq/theories/" + e["file"], "edit": e["edit"], "claim_broken": e["claim"],
         "first_failure": sorted(set(fails)), "theorems_failed": rel or lost[:6], "n_theorems_no_longer_checked": len(lost),
         "theorems_tightened": e.get("tightened", []), "outcome": "caught" if fails else "survived"}
    print(json.dumps(r), flush=True)
    with open(root + "/seeded/LOG.jsonl", "a") as g: g.write(json.dumps(r) + "\n")
