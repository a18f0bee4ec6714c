#!/usr/bin/env python3
"""Which property theorems rest on which lemmas (Print Opaque Dependencies), from a built tree.
usage: deps.py BUILT_ROCQ_DIR OUT.json [FILES]"""
import sys, re, glob, json, subprocess, os
d, out = sys.argv[1], sys.argv[2]
pat = sys.argv[3] if len(sys.argv) > 3 else "Props*.v"
res = {}
for f in sorted(glob.glob(d + "/theories/" + pat)):
    mod = os.path.basename(f)[:-2]
    ths = re.findall(r"^(?:Theorem|Lemma|Example) (\w+)", open(f).read(), re.M)
    src = "From Verif Require %s.\n" % mod
    for t in ths: src += 'Check tt.\nPrint Opaque Dependencies %s.%s.\n' % (mod, t)
    p = "/tmp/deps_%s.v" % mod
    open(p, "w").write(src)
    o = subprocess.run(["coqc", "-Q", d + "/theories", "Verif", p], stdout=subprocess.PIPE, stderr=subprocess.STDOUT, universal_newlines=True).stdout
    parts = re.split(r"^tt$", o, flags=re.M)[1:]
    if len(parts) != len(ths): print("mismatch", mod, len(parts), len(ths), o[:300]); continue
    for t, x in zip(ths, parts):
        names = set(re.findall(r"^(\S+)\s*(?::|$)", x, re.M))
        res[mod + "." + t] = sorted(n for n in names if not n.startswith("Coq."))
json.dump(res, open(out, "w"))
print(len(res))
