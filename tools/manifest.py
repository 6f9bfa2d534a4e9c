#!/usr/bin/env python3
"""Regenerates MANIFEST.json from the Properties*.v files and tools/notes.json."""
import glob, json, os, re
root = os.path.dirname(os.path.dirname(os.path.abspath(__file__)))
notes = json.load(open(os.path.join(root, "tools", "notes.json")))
props = [json.loads(l)["id"] for l in open(os.path.join(root, "properties.jsonl")) if l.strip()]
thms = {}
for p in sorted(glob.glob(os.path.join(root, "rocq/theories/Properties*.v"))):
    for m in re.finditer(r"^Theorem\s+(C\d\d)_(\w+)", open(p).read(), re.M):
        thms.setdefault(m.group(1), []).append(m.group(1) + "_" + m.group(2))
claims = []
for c in props:
    n = notes.get(c, {})
    ts = thms.get(c, [])
    status = n.get("status")
    if status is None:
        if not ts:
            continue
        status = "partial" if any(t.endswith("_partial") for t in ts) else "proved"
    claims.append({"property": c, "status": status, "theorems": ts, "note": n.get("note", "")})
json.dump({"claims": claims}, open(os.path.join(root, "MANIFEST.json"), "w"), indent=1)
print(len(claims), "claims,", sum(len(c["theorems"]) for c in claims), "theorems; missing:",
      [c for c in props if c not in [x["property"] for x in claims]])
