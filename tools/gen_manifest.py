#!/usr/bin/env python3
"""Build MANIFEST.json from the theorem names in rocq/theories/*Thms.v.

A theorem named Cnn_... belongs to property Cnn.  Status and notes are given below;
the default status is "proved".
"""
import glob, json, os, re
root = os.path.join(os.path.dirname(__file__), "..")
thms = {}
for f in sorted(glob.glob(os.path.join(root, "rocq/theories/*Thms.v"))):
    for m in re.finditer(r"^Theorem (C\d\d+)(_\w+)", open(f).read(), re.M):
        thms.setdefault(m.group(1), []).append(m.group(1) + m.group(2))
info = json.load(open(os.path.join(root, "tools/status.json")))
props = [json.loads(l) for l in open(os.path.join(root, "properties.jsonl"))]
claims = []
for p in props:
    i = p["id"]
    st, note = info.get(i, ["proved", ""])
    if i not in thms:
        if st != "not_applicable":
            continue
    claims.append({"property": i, "status": st, "theorems": thms.get(i, []), "note": note})
extra = set(thms) - {p["id"] for p in props}
if extra:
    print("WARNING: theorems without property:", sorted(extra))
json.dump({"claims": claims}, open(os.path.join(root, "MANIFEST.json"), "w"), indent=1)
print(len(claims), "claims;", sum(len(c["theorems"]) for c in claims), "theorems")
