#!/usr/bin/env python3
"""Writes /verif/MANIFEST.json from the theorem names in rocq/theories/Properties."""
import json, os, re, glob
root = os.path.join(os.path.dirname(os.path.abspath(__file__)), "..")
thms = {}
for f in sorted(glob.glob(os.path.join(root, "rocq/theories/Properties/*.v"))):
    for m in re.finditer(r"^(?:Theorem|Corollary)\s+((C\d\d+)_\w+)", open(f).read(), re.M):
        thms.setdefault(m.group(2), []).append(m.group(1))
notes = json.load(open(os.path.join(root, "tools/notes.json")))
claims = []
for l in open(os.path.join(root, "properties.jsonl")):
    p = json.loads(l)["id"]
    t = thms.get(p, [])
    if not t:
        print("no theorem yet:", p); 
        claims.append(dict(property=p, status="partial", theorems=[], note="not proved yet")); continue
    st = "partial" if (notes.get(p, "").startswith("PARTIAL") or all(x.endswith("_partial") for x in t)) else "proved"
    claims.append(dict(property=p, status=st, theorems=t, note=notes.get(p, "")))
json.dump({"claims": claims}, open(os.path.join(root, "MANIFEST.json"), "w"), indent=1)
print(len(claims))
