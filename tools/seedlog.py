#!/usr/bin/env python3
"""Append results of seedall.py to seeded/LOG.jsonl.

usage: seedlog.py OUT.jsonl...
"failed" are the theorems that rest on a proof that no longer passes; they may still be true of the
edited program. "missed" are properties expected to fail that did not. seeded/tightened.json maps an
edit to the theorems that were strengthened or added because of it, with a note."""
import json, os, sys
log = '/verif/seeded/LOG.jsonl'
tight = json.load(open('/verif/seeded/tightened.json'))
have = {(d['definition'], d['edit']) for d in map(json.loads, open(log))}
with open(log, 'a') as f:
    for p in sys.argv[1:]:
        for d in map(json.loads, open(p)):
            if (d['definition'], d['edit']) in have: continue
            t = tight.get(d['edit'], {})
            r = {k: d[k] for k in ('definition', 'edit', 'claim', 'failed')}
            r['tightened'] = t.get('theorems', [])
            if 'note' in t: r['note'] = t['note']
            elif d['missed']: r['note'] = 'MISSED ' + ' '.join(d['missed'])
            if d.get('stuck'): r['stuck'] = d['stuck']
            f.write(json.dumps(r) + '\n')
