#!/usr/bin/env python3
"""Regenerate MANIFEST.json from the theorem names in rocq/theories/T_*.v and the notes below."""
import glob, json, os, re
root = os.path.dirname(os.path.dirname(os.path.abspath(__file__)))
props = [json.loads(l)["id"] for l in open(root + "/properties.jsonl") if l.strip()]
thms = {}
for f in sorted(glob.glob(root + "/rocq/theories/T_*.v")):
    for m in re.finditer(r"^Theorem (C\d+\w*)", open(f).read(), re.M):
        thms.setdefault(re.match(r"C\d+", m.group(1)).group(0), []).append(m.group(1))
notes = json.load(open(root + "/tools/notes.json"))
claims = []
for p in props:
    n = notes.get(p, {})
    t = thms.get(p, [])
    status = n.get("status", "proved" if t else "not_applicable")
    claims.append({"property": p, "status": status, "theorems": t,
                   "note": n.get("note", "" if t else "not yet modelled")})
json.dump({"claims": claims}, open(root + "/MANIFEST.json", "w"), indent=1)
for c in claims:
    print(c["property"], c["status"], len(c["theorems"]))
