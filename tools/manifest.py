#!/usr/bin/env python3
"""Regenerate MANIFEST.json: theorem names come from rocq/theories/P_*.v, notes from tools/notes.json."""
import glob, json, os, re
root = os.path.dirname(os.path.dirname(os.path.abspath(__file__)))
notes = json.load(open(os.path.join(root, "tools", "notes.json")))
ids = [json.loads(l)["id"] for l in open(os.path.join(root, "properties.jsonl")) if l.strip()]
thms = {i: [] for i in ids}
for f in sorted(glob.glob(os.path.join(root, "rocq/theories/P_*.v"))):
    for m in re.finditer(r"^Theorem\s+((C\d+)_\w+)", open(f).read(), re.M):
        thms[m.group(2)].append(m.group(1))
claims = []
for i in ids:
    if not thms[i]:
        continue
    partial = any(t.endswith(("_partial", "_refuted")) for t in thms[i])
    claims.append({"property": i, "status": "partial" if partial else "proved",
                   "theorems": thms[i], "note": notes.get(i, "")})
json.dump({"claims": claims}, open(os.path.join(root, "MANIFEST.json"), "w"), indent=1)
print(len(claims), "claims;", sum(len(c["theorems"]) for c in claims), "theorems; missing:",
      [i for i in ids if not thms[i]], "; no note:", [c["property"] for c in claims if not c["note"]])
