#!/usr/bin/env python3
"""Regenerate MANIFEST.json from the theorem names in the T*.v files listed in rocq/_CoqProject.

A theorem named Cnn_... belongs to property Cnn.  The status and note of each property are in
tools/notes.json; properties without theorems are left out.
"""
import json, os, re, sys
here = os.path.dirname(os.path.abspath(__file__))
root = os.path.dirname(here)
notes = json.load(open(os.path.join(here, "notes.json")))
thms = {}
files = re.findall(r"^theories/(\w+)\.v$", open(os.path.join(root, "rocq/_CoqProject")).read(), re.M)
for mod in files:
    text = open(os.path.join(root, "rocq/theories", mod + ".v")).read()
    if re.search(r"\b(Admitted|admit)\b", text):
        sys.exit(mod + ": unfinished proof")
    if not mod.startswith("T"):
        continue
    for m in re.finditer(r"^Theorem\s+((C\d+)_\w*)", text, re.M):
        thms.setdefault(m.group(2), []).append(f"Verif.{mod}.{m.group(1)}")
ids = [json.loads(l)["id"] for l in open(os.path.join(root, "properties.jsonl"))]
claims = []
for i in ids:
    n = notes.get(i, {})
    ts = thms.get(i, [])
    if not ts and n.get("status") != "not_applicable":
        print("no theorem for", i)
        continue
    claims.append({"property": i, "status": n.get("status", "proved"), "theorems": ts,
                   "note": n.get("note", "")})
json.dump({"claims": claims}, open(os.path.join(root, "MANIFEST.json"), "w"), indent=1)
print(len(claims), "claims", sum(len(c["theorems"]) for c in claims), "theorems")
