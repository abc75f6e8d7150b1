#!/usr/bin/env python3
"""Generate MANIFEST.json from the theorem names in rocq/theories/*_Props.v and notes below."""
import glob, json, os, re
here = os.path.dirname(os.path.abspath(__file__))
root = os.path.dirname(here)
NOTES = json.load(open(os.path.join(here, "notes.json")))
props = [json.loads(l)["id"] for l in open(os.path.join(root, "properties.jsonl"))]
thms = {p: [] for p in props}
for f in sorted(glob.glob(os.path.join(root, "rocq/theories/*_Props.v"))):
    for m in re.finditer(r"^Theorem\s+(C\d\d+)_(\w+)", open(f).read(), re.M):
        thms[m.group(1)].append(m.group(1) + "_" + m.group(2))
claims = []
for p in props:
    t = thms[p]
    n = NOTES.get(p, {})
    if not t and "status" not in n:
        continue
    status = n.get("status") or ("partial" if any("_refuted" in x or x.endswith("_partial") for x in t) else "proved")
    claims.append({"property": p, "status": status, "theorems": t, "note": n.get("note", "")})
json.dump({"claims": claims}, open(os.path.join(root, "MANIFEST.json"), "w"), indent=1, ensure_ascii=False)
print(len(claims), "claims;", sum(len(c["theorems"]) for c in claims), "theorems; missing:", [p for p in props if not thms[p]])
