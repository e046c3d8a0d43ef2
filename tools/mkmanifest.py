#!/usr/bin/env python3
"""Regenerate MANIFEST.json: theorems named Cnn_* in rocq/theories/Prop_*.v, plus status and notes from tools/notes.json."""
import json, re, glob
notes = json.load(open('/verif/tools/notes.json'))
th = {}
for f in sorted(glob.glob('/verif/rocq/theories/Prop_*.v')):
    for m in re.finditer(r'^(?:Theorem|Example|Lemma|Corollary)\s+(C\d\d_\w+)', open(f).read(), re.M):
        if 'witness' in m.group(1): continue
        th.setdefault(m.group(1)[:3], []).append(m.group(1))
claims = []
for line in open('/verif/properties.jsonl'):
    p = json.loads(line)['id']
    n = notes.get(p, {})
    if p in th:
        claims.append({"property": p, "status": n.get("status", "proved"), "theorems": th[p], "note": n.get("note", "")})
    elif n.get("status") == "not_applicable":
        claims.append({"property": p, "status": "not_applicable", "theorems": [], "note": n["note"]})
json.dump({"claims": claims}, open('/verif/MANIFEST.json', 'w'), indent=1)
print(len(claims), 'claims')
