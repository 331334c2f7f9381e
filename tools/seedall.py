#!/usr/bin/env python3
"""Run seed.py over a list of wrong programs.

usage: seedall.py LIST.json OUT.jsonl
LIST is a JSON list of {"file", "definition", "old", "new", "edit", "claim", "breaks"}, where
"breaks" lists the properties that are false of the edited program. One JSON line per entry goes to
OUT, with "missed": the properties of "breaks" none of whose theorems failed."""
import json, re, subprocess, sys, os, time
here = os.path.dirname(os.path.abspath(__file__))
muts = json.load(open(sys.argv[1]))
done = set()
if os.path.exists(sys.argv[2]):
    done = {json.loads(l)['edit'] for l in open(sys.argv[2])}
for m in muts:
    if m['edit'] in done: continue
    t = time.time()
    r = subprocess.run([sys.executable, here + '/seed.py', m['file'], m['old'], m['new']],
                       stdout=subprocess.PIPE, stderr=subprocess.STDOUT, text=True)
    try: out = json.loads(r.stdout)
    except ValueError:
        print('FAILED', m['edit'], r.stdout[-1500:], flush=True); continue
    failed = {re.match(r'(C\d+)', n).group(1) for n in out['failed'] if n.startswith('C')}
    missed = [c for c in m['breaks'] if c not in failed]
    rec = {'definition': '%s.%s' % (m['file'][:-2], m['definition']), 'edit': m['edit'], 'claim': m['claim'],
           'failed': out['failed'], 'missed': missed, 'tightened': [],
           'stuck': out['stuck'], 'seconds': round(time.time() - t)}
    open(sys.argv[2], 'a').write(json.dumps(rec) + '\n')
    print(m['edit'], '| failed', len(out['failed']), '| missed', missed, '| stuck', list(out['stuck']), rec['seconds'], 's', flush=True)
