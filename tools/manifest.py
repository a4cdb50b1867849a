#!/usr/bin/env python3
"""Regenerates MANIFEST.json from the theorem names in rocq/theories/Prop*.v
and the status notes below, so that the manifest never names a theorem that
does not exist."""
import json, re, glob, os
root = os.path.dirname(os.path.dirname(os.path.abspath(__file__)))
names = {}
for f in sorted(glob.glob(root + '/rocq/theories/Prop*.v')):
    for m in re.finditer(r'^(?:Theorem|Corollary|Lemma) ((C\d\d)_\w+)', open(f).read(), re.M):
        names.setdefault(m.group(2), []).append(m.group(1))
notes = json.load(open(root + '/tools/notes.json'))
claims = []
for line in open(root + '/properties.jsonl'):
    pid = json.loads(line)['id']
    ths = names.get(pid, [])
    st, note = notes.get(pid, ["", ""])
    if not st:
        st = "partial" if any('_partial' in t or '_refuted' in t for t in ths) else "proved"
    if not ths and st != "not_applicable":
        continue
    claims.append({"property": pid, "status": st, "theorems": ths, "note": note})
json.dump({"claims": claims}, open(root + '/MANIFEST.json', 'w'), indent=1)
print(len(claims), 'claims;', sum(len(c['theorems']) for c in claims), 'theorems;',
      'missing:', [json.loads(l)['id'] for l in open(root+'/properties.jsonl') if json.loads(l)['id'] not in names])
