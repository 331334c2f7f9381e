#!/usr/bin/env python3
"""Regenerate MANIFEST.json from the theorem names in rocq/theories/Prop*.v and tools/notes.json."""
import json, re, glob
notes = json.load(open('/verif/tools/notes.json'))
thms = {}
for f in sorted(glob.glob('/verif/rocq/theories/Prop*.v')):
    for m in re.finditer(r'^Theorem (C(\d+)_\w+)', open(f).read(), re.M):
        thms.setdefault('C' + m.group(2), []).append(m.group(1))
claims = []
for l in open('/verif/properties.jsonl'):
    i = json.loads(l)['id']
    ts = thms.get(i, [])
    n = notes.get(i, {})
    st = n.get('status')
    if st is None:
        if not ts: continue
        st = 'partial' if any(t.endswith('_partial') for t in ts) else 'proved'
    claims.append({'property': i, 'status': st, 'theorems': ts, 'note': n.get('note', '')})
for i in thms:
    assert any(c['property'] == i for c in claims), i
json.dump({'claims': claims}, open('/verif/MANIFEST.json', 'w'), indent=1)
print(len(claims), [c['property'] for c in claims if c['status'] != 'proved'])
