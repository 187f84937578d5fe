#!/usr/bin/env python3
"""Regenerate MANIFEST.json: collect the theorems named Cnn_* from rocq/theories and combine them with the
notes and statuses of tools/notes.json (status defaults to "proved", or "partial" when only partial or refuted)."""
import json, re, glob, os
root = os.path.dirname(os.path.dirname(os.path.abspath(__file__)))
thms = {}
for f in sorted(glob.glob(root + "/rocq/theories/*.v")):
    src = open(f).read()
    for m in re.finditer(r"^\s*(?:Theorem|Corollary)\s+((C\d\d+)_[A-Za-z0-9_']*)", src, re.M):
        thms.setdefault(m.group(2), []).append(m.group(1))
notes = json.load(open(root + "/tools/notes.json"))
claims = []
for line in open(root + "/properties.jsonl"):
    p = json.loads(line)["id"]
    n = notes.get(p, {})
    ts = thms.get(p, [])
    if n.get("status"):
        st = n["status"]
    elif not ts or any(t.endswith(("_partial", "_refuted")) for t in ts):
        st = "partial"
    else:
        st = "proved"
    claims.append({"property": p, "status": st, "theorems": ts, "note": n.get("note", "" if ts else "not yet modelled")})
json.dump({"claims": claims}, open(root + "/MANIFEST.json", "w"), indent=1)
print(sum(1 for c in claims if c["status"] == "proved"), "proved", sum(1 for c in claims if c["theorems"]), "with theorems of", len(claims))
