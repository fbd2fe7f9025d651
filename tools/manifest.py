#!/usr/bin/env python3
"""Regenerate MANIFEST.json from the property theorems and tools/notes.json.

A property's theorems are all `Theorem Cnn_...` in rocq/theories/*_Properties.v.
notes.json maps a property id to {"status": ..., "note": ...}.
"""
import glob, json, os, re
root = os.path.join(os.path.dirname(os.path.abspath(__file__)), "..")
thms = {}
for f in sorted(glob.glob(os.path.join(root, "rocq/theories/*_Properties.v"))):
    for m in re.finditer(r"^(?:Theorem|Lemma) (C\d\d+)_(\w+)", open(f).read(), re.M):
        thms.setdefault(m.group(1), []).append(m.group(1) + "_" + m.group(2))
notes = json.load(open(os.path.join(root, "tools/notes.json")))
ids = [json.loads(l)["id"] for l in open(os.path.join(root, "properties.jsonl")) if l.strip()]
claims = []
for i in ids:
    n = notes.get(i)
    if n is None:
        if i in thms: print("no note for", i)
        continue
    t = thms.get(i, [])
    if not t and n["status"] != "not_applicable": print("no theorem for", i)
    claims.append({"property": i, "status": n["status"], "theorems": t, "note": n["note"]})
for i in thms:
    if i not in ids: print("theorem for unknown property", i)
json.dump({"claims": claims}, open(os.path.join(root, "MANIFEST.json"), "w"), indent=1)
print(len(claims), "claims,", sum(len(c["theorems"]) for c in claims), "theorems; missing:", [i for i in ids if i not in notes])
