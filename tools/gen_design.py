#!/usr/bin/env python3
"""Regenerate sections 4 (disagreements) and 5 (assumptions) of DESIGN.md from the theorem
files and MANIFEST.json."""
import glob, json, os, re
root = os.path.join(os.path.dirname(__file__), "..")
man = json.load(open(os.path.join(root, "MANIFEST.json")))["claims"]
props = {}
for l in open(os.path.join(root, "properties.jsonl")):
    p = json.loads(l); props[p["id"]] = p
comment, where = {}, {}
for f in sorted(glob.glob(os.path.join(root, "rocq/theories/*Thms.v"))):
    s = open(f).read()
    for m in re.finditer(r"(?:\(\*\*((?:(?!\*\)).)*)\*\)\s*\n)?Theorem (C\d\d+_\w+)", s, re.S):
        where[m.group(2)] = os.path.basename(f)
        if m.group(1) and not m.group(1).strip().startswith("*"):
            comment[m.group(2)] = " ".join(m.group(1).split())
out = ["## 4. Disagreements found between code and expected behaviour", "",
       "Each is a theorem with a concrete witness, checked by computation on the model (`_refuted`).",
       "The remark after a property says on which domain its positive theorems hold.", ""]
for c in man:
    ref = [t for t in c["theorems"] if t.endswith("_refuted")]
    if not ref: continue
    out.append(f"- **{c['property']}** {props[c['property']]['title']}. {c['note']}")
    for t in ref:
        out.append(f"  - `{t}`" + (f": {comment[t]}" if t in comment else ""))
out += ["", "## 5. Assumptions per theorem", "",
        "Every theorem below is followed by `Print Assumptions` in its file; the answer is",
        "`Closed under the global context` for all of them: no axioms, not even of the standard",
        "library.  (`coqchk -o` on the whole development lists the module-type fields",
        "`Coq.ssr.ssrunder.Under_rel.*` of the standard library as axioms of loaded library",
        "files; no theorem here depends on them.)", ""]
byf = {}
for t, f in where.items(): byf.setdefault(f, []).append(t)
for f in sorted(byf):
    out.append(f"- `{f}`: " + ", ".join(byf[f]))
p = os.path.join(root, "DESIGN.md")
s = open(p).read()
s = s[:s.index("## 4. Disagreements")] + "\n".join(out) + "\n"
open(p, "w").write(s)
