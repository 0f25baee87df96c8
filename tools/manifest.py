#!/usr/bin/env python3
"""Regenerates MANIFEST.json from the table below; theorem names are checked against rocq/theories/Prop*.v."""
import json, re, glob, os
root = os.path.dirname(os.path.dirname(os.path.abspath(__file__)))
thms = set()
for f in glob.glob(root + '/rocq/theories/*.v'):
    thms |= set(re.findall(r'^(?:Theorem|Lemma)\s+(\S+)', open(f).read(), re.M))
claims = []
def c(p, status, theorems, note=""):
    for t in theorems:
        assert t in thms, t
    claims.append({"property": p, "status": status, "theorems": theorems, "note": note})
exec(open(root + '/tools/claims.py').read())
ids = [json.loads(l)["id"] for l in open(root + '/properties.jsonl')]
have = {x["property"] for x in claims}
for i in ids:
    if i not in have:
        claims.append({"property": i, "status": "partial", "theorems": [], "note": "not proved yet"})
claims.sort(key=lambda x: int(x["property"][1:]))
json.dump({"claims": claims}, open(root + '/MANIFEST.json', 'w'), indent=1)
