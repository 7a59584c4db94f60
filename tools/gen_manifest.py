#!/usr/bin/env python3
"""Regenerate MANIFEST.json from the theorems in rocq/theories/Props_*.v and notes.json."""
import json, re, glob, os
root = os.path.dirname(os.path.dirname(os.path.abspath(__file__)))
thms = {}
for f in sorted(glob.glob(root + "/rocq/theories/Props_*.v")):
    for m in re.finditer(r"^Theorem (C\d\d+)(\w*)", open(f).read(), re.M):
        thms.setdefault(m.group(1), []).append(m.group(1) + m.group(2))
notes = json.load(open(root + "/tools/notes.json"))
claims = []
for l in open(root + "/properties.jsonl"):
    i = json.loads(l)["id"]
    ts = thms.get(i, [])
    n = notes.get(i, {})
    st = n.get("status")
    if st is None:
        st = "partial" if (not ts or any(t.endswith(("_partial", "_refuted")) for t in ts)) else "proved"
    claims.append({"property": i, "status": st, "theorems": ts,
                   "note": n.get("note", "" if ts else "no theorem yet")})
json.dump({"claims": claims}, open(root + "/MANIFEST.json", "w"), indent=1)
print(sum(c["status"] == "proved" for c in claims), "proved,", sum(bool(c["theorems"]) for c in claims), "with theorems")
