#!/usr/bin/env python3
"""Writes MANIFEST.json from tools/claims.txt.

claims.txt: blocks  'Cxx status | note'  followed by indented theorem names.
Every theorem name is checked to exist in some rocq/theories/*.v file."""
import json, os, re, glob, sys
os.chdir(os.path.dirname(os.path.abspath(__file__)) + "/..")
text = "".join(open(f).read() for f in glob.glob("rocq/theories/*.v"))
names = set(re.findall(r"^\s*(?:Theorem|Lemma|Corollary)\s+([\w']+)", text, re.M))
props = [json.loads(l)["id"] for l in open("properties.jsonl")]
claims, cur, bad = [], None, False
for l in open("tools/claims.txt"):
    l = l.rstrip()
    if not l or l.startswith("#"): continue
    if not l[0].isspace():
        head, _, note = l.partition("|")
        pid, st = head.split()
        cur = dict(property=pid, status=st, theorems=[], note=note.strip())
        claims.append(cur)
    else:
        for n in l.split():
            if n not in names: print("UNKNOWN THEOREM", n); bad = True
            cur["theorems"].append(n)
for p in props:
    if p not in [c["property"] for c in claims]: print("no claim yet:", p)
used = {n for c in claims for n in c["theorems"]}
for n in sorted(names):
    if re.match(r"C\d\d_", n) and n not in used: print("theorem not in manifest:", n)
json.dump({"claims": claims}, open("MANIFEST.json", "w"), indent=1)
sys.exit(bad)
