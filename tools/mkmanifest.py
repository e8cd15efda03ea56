#!/usr/bin/env python3
"""Regenerates MANIFEST.json from the theorem names (Cnn_...) in rocq/theories/Props and tools/notes.json
({"C01": {"status": "proved", "note": "..."}})."""
import json, re, glob, os
root = os.path.dirname(os.path.dirname(os.path.abspath(__file__)))
notes = json.load(open(os.path.join(root, "tools/notes.json")))
props = [json.loads(l)["id"] for l in open(os.path.join(root, "properties.jsonl")) if l.strip()]
thms = {}
for f in sorted(glob.glob(os.path.join(root, "rocq/theories/Props/*.v"))):
    for m in re.finditer(r"^\s*Theorem\s+((C\d+)_\w+)", open(f).read(), re.M):
        thms.setdefault(m.group(2), []).append(m.group(1))
claims = []
for p in props:
    n = notes.get(p)
    if n is None and p not in thms: continue
    n = n or {}
    claims.append({"property": p, "status": n.get("status", "partial"), "theorems": thms.get(p, []), "note": n.get("note", "")})
json.dump({"claims": claims}, open(os.path.join(root, "MANIFEST.json"), "w"), indent=1)
print(len(claims), "claims;", "no claim:", [p for p in props if p not in [c["property"] for c in claims]])
