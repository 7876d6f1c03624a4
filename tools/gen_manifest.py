#!/usr/bin/env python3
"""Generates /verif/MANIFEST.json from the Prop*.v files and tools/notes.py."""
import json, os, re, glob
here = os.path.dirname(os.path.abspath(__file__))
ns = {}
exec(open(os.path.join(here, "notes.py")).read(), ns)
NOTES, STATUS, NA = ns["NOTES"], ns["STATUS"], ns["NA"]
thms = {}
for f in sorted(glob.glob(os.path.join(here, "../rocq/theories/Prop*.v"))):
    for m in re.finditer(r"^Theorem\s+((C\d+)_\w+)", open(f).read(), re.M):
        thms.setdefault(m.group(2), []).append(m.group(1))
ids = [json.loads(l)["id"] for l in open(os.path.join(here, "../properties.jsonl"))]
claims = []
for i in ids:
    if i in NA:
        claims.append(dict(property=i, status="not_applicable", theorems=[], note=NA[i])); continue
    t = thms.get(i, [])
    if not t:
        print("no theorem for", i); continue
    st = STATUS.get(i) or ("partial" if any(x.endswith("_partial") or x.endswith("_refuted") for x in t) else "proved")
    claims.append(dict(property=i, status=st, theorems=t, note=NOTES.get(i, "")))
for i in thms:
    assert i in ids, i
json.dump({"claims": claims}, open(os.path.join(here, "../MANIFEST.json"), "w"), indent=1)
print(len(claims), "claims", sum(len(c["theorems"]) for c in claims), "theorems")
