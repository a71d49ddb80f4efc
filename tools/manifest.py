#!/usr/bin/env python3
"""Writes MANIFEST.json: theorem names are collected from rocq/theories/Prop_*.v (prefix Cxx_)."""
import json, os, re, glob
root = os.path.join(os.path.dirname(os.path.abspath(__file__)), "..")
props = [json.loads(l) for l in open(os.path.join(root, "properties.jsonl"))]
thms = {}
for f in sorted(glob.glob(os.path.join(root, "rocq/theories/Prop_*.v"))):
    for m in re.finditer(r"^Theorem\s+((C\d\d\d?)_\w+)", open(f).read(), re.M):
        thms.setdefault(m.group(2), []).append(m.group(1))
notes = json.load(open(os.path.join(root, "tools/notes.json")))
claims = []
for p in props:
    i = p["id"]; t = thms.get(i, []); n = notes.get(i, {})
    st = n.get("status") or ("partial" if (not t or any(x.endswith("_partial") or x.endswith("_refuted") for x in t)) else "proved")
    claims.append({"property": i, "status": st, "theorems": t, "note": n.get("note", "" if t else "not yet modelled")})
json.dump({"claims": claims}, open(os.path.join(root, "MANIFEST.json"), "w"), indent=1)
for c in claims: print(c["property"], c["status"], len(c["theorems"]))
