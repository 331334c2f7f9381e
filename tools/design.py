#!/usr/bin/env python3
"""Writes the table of properties into DESIGN.md from properties.jsonl, MANIFEST.json and methods.json."""
import json, os
top = os.path.dirname(os.path.dirname(os.path.abspath(__file__)))
props = [json.loads(l) for l in open(os.path.join(top, 'properties.jsonl'))]
claims = {c['property']: c for c in json.load(open(os.path.join(top, 'MANIFEST.json')))['claims']}
methods = json.load(open(os.path.join(top, 'tools', 'methods.json')))
rows = ['| Id | Claim | Modelled by | Proved by | Theorems |', '|----|-------|-------------|-----------|----------|']
for p in props:
    m = methods[p['id']]
    rows.append('| %s | %s | %s | %s | %s |' % (p['id'], p['title'], m[0], m[1], ', '.join('`%s`' % t for t in claims[p['id']]['theorems'])))
path = os.path.join(top, 'DESIGN.md')
s = open(path).read()
a, b = '<!-- properties -->\n', '<!-- end of properties -->\n'
i, j = s.index(a) + len(a), s.index(b)
open(path, 'w').write(s[:i] + '\n'.join(rows) + '\n' + s[j:])
