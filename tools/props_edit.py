#!/usr/bin/env python3
"""Update or append entries of properties.jsonl: reads a JSON list of objects on stdin, merged by id."""
import json, sys, re
p = '/verif/properties.jsonl'
items = [json.loads(l) for l in open(p)]
ids = {d['id']: d for d in items}
for e in json.load(sys.stdin):
    if e['id'] in ids:
        ids[e['id']].update(e)
    else:
        assert all(k in e for k in ('title', 'statement', 'quantifier', 'why_tests_cant', 'anchors')), e['id']
        items.append(e); ids[e['id']] = e
items.sort(key=lambda d: int(d['id'][1:]))
with open(p, 'w') as f:
    for d in items:
        f.write(json.dumps({k: d[k] for k in ('id', 'title', 'statement', 'quantifier', 'why_tests_cant', 'anchors')}) + '\n')
