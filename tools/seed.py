#!/usr/bin/env python3
"""Test the theorems against a wrong program.

usage: seed.py FILE.v OLD NEW [max_parallel]

Works in /tmp/seed, a copy of rocq/ made if missing (with compiled files).  Replaces OLD by NEW in
theories/FILE.v, rebuilds what depends on it, and replaces each proof that no longer passes by
Admitted (in the scratch copy only).  Prints the property theorems that now rest on such a
lemma, and restores the copy.
"""
import concurrent.futures as cf, os, re, shutil, subprocess, sys, json

SRC, DST = '/verif/rocq', '/tmp/seed'
TH = DST + '/theories'
# What Print Assumptions lists for theorems on real numbers.
LIBRARY = {'ClassicalDedekindReals.sig_not_dec', 'ClassicalDedekindReals.sig_forall_dec',
           'FunctionalExtensionality.functional_extensionality_dep', 'Classical_Prop.classic', 'classic'}
LIMIT = int(os.environ.get('SEED_LIMIT', '300'))

def sh(*a, **k):
    return subprocess.run(a, stdout=subprocess.PIPE, stderr=subprocess.STDOUT, text=True, errors='replace', **k)

def deps():
    files = [l.strip() for l in open(DST + '/_CoqProject') if l.strip().endswith('.v')]
    d = {}
    for f in files:
        s = open(DST + '/' + f).read()
        need = set()
        for m in re.finditer(r'From Verif Require (?:Import|Export) ([^.]*)\.', s):
            need |= set(m.group(1).split())
        d[os.path.basename(f)[:-2]] = need
    return d

START = re.compile(r'^\s*(?:Local |Global |#\[[^\]]*\]\s*)*(Lemma|Theorem|Example|Corollary|Remark|Fact|Goal|Instance|Definition|Fixpoint)\b', re.M)

def admit(src, pos):
    """Replace the proof around pos by Admitted.  Returns (new source, name) or None."""
    starts = [m for m in START.finditer(src) if m.start() <= pos]
    if not starts: return None
    m = starts[-1]
    end = re.compile(r'\b(Qed|Defined|Admitted)\.').search(src, max(pos, m.start()))
    prf = re.compile(r'\bProof\b[^.]*\.').search(src, m.start())
    if not end or not prf or prf.start() > pos + 0 and prf.start() > end.start(): return None
    if end.group(1) == 'Admitted': return None
    name = re.match(r'\s*(?:Local |Global )*\w+\s+([\w\']+)', src[m.start():]).group(1)
    if prf.end() > end.start(): return None
    if pos < prf.start(): return None
    return src[:prf.start()] + 'Admitted.' + src[end.end():], name

def build(mod):
    """Compile one file, admitting what fails."""
    path = TH + '/' + mod + '.v'
    admitted = []
    for _ in range(400):
        try:
            r = sh('bash', '-c', f'ulimit -v 5000000; cd {TH}; timeout {LIMIT} coqc -time -Q . Verif {mod}.v')
            out = r.stdout
        except Exception as e:
            return admitted, 'crash %s' % e, ''
        if r.returncode == 0:
            return admitted, None, out
        src = open(path, 'rb').read()
        m = re.search(r'File "[^"]*", line (\d+), characters (\d+)-(\d+):\s*\n(?!Warning)', out)
        err = None
        for m in re.finditer(r'File "[^"]*", line (\d+), characters (\d+)-(\d+):\s*\n(\w+)', out):
            if m.group(4) != 'Warning': err = m
        if err:
            lines = src.split(b'\n')
            pos = sum(len(l) + 1 for l in lines[:int(err.group(1)) - 1]) + int(err.group(2))
        else:  # time or memory: after the last sentence done
            ts = re.findall(r'^Chars (\d+) - (\d+)', out, re.M)
            pos = (int(ts[-1][1]) if ts else 0) + 1
        text = src.decode('latin-1')
        a = admit(text, pos)
        if not a:
            return admitted, 'cannot repair %s: %s' % (mod, out[-600:]), out
        open(path, 'wb').write(a[0].encode('latin-1'))
        admitted.append(a[1])
    return admitted, 'too many', ''

def main():
    fn, old, new = sys.argv[1:4]
    par = int(sys.argv[4]) if len(sys.argv) > 4 else 3
    if not os.path.exists(DST):
        shutil.copytree(SRC, DST, copy_function=shutil.copy2)
    d = deps()
    mod = fn[:-2] if fn.endswith('.v') else fn
    src = open(f'{TH}/{mod}.v').read()
    if src.count(old) != 1:
        print('OLD occurs', src.count(old), 'times'); sys.exit(2)
    todo, changed = {mod}, True
    while changed:
        changed = False
        for f, need in d.items():
            if f not in todo and need & todo:
                todo.add(f); changed = True
    keep = '/tmp/seed_keep'
    shutil.rmtree(keep, ignore_errors=True); os.makedirs(keep)
    for f in todo:
        for e in ('v', 'vo', 'glob', 'vok', 'vos'):
            p = f'{TH}/{f}.{e}'
            if os.path.exists(p): shutil.copy2(p, keep)
    res, failed = {}, {}
    try:
        open(f'{TH}/{mod}.v', 'w').write(src.replace(old, new))
        done, left, running = set(d) - todo, set(todo), {}
        for f in todo:
            if os.path.exists(f'{TH}/{f}.vo'): os.remove(f'{TH}/{f}.vo')
        with cf.ThreadPoolExecutor(par) as ex:
            while left or running:
                for f in sorted(left, key=lambda x: list(d).index(x)):
                    if d[f] <= done and len(running) < par:
                        left.discard(f); running[ex.submit(build, f)] = f
                if not running: break
                for fu in cf.wait(running, return_when=cf.FIRST_COMPLETED).done:
                    f = running.pop(fu); a, e, out = fu.result(); res[f] = (a, e, out)
                    if e: failed[f] = e
                    else: done.add(f)
        broken, ok = [], []
        for f in d:
            if f not in todo or not f.startswith('Prop'): continue
            text = open(f'{keep}/{f}.v').read()
            names = re.findall(r'^Print Assumptions (\S+?)\.', text, re.M)
            if f not in done:
                broken += [n + '(file)' for n in names]; continue
            out = res[f][2]
            out = re.sub(r'^Chars \d+ - \d+ \[.*$\n?', '', out, flags=re.M)
            parts = re.split(r'(Closed under the global context|Axioms:)', out)[1:]
            marks = ['Axioms:' if m == 'Axioms:' and not set(re.findall(r'^(\S+)\s*:', rest, re.M)) <= LIBRARY else 'Closed'
                     for m, rest in zip(parts[::2], parts[1::2])]
            if len(marks) != len(names):
                failed[f] = 'assumptions: %d for %d' % (len(marks), len(names))
            for n, m in zip(names, marks):
                (broken if m == 'Axioms:' else ok).append(n)
        print(json.dumps({'edited': mod, 'failed': broken, 'survived': ok,
                          'lemmas': {f: r[0] for f, r in res.items() if r[0]}, 'stuck': failed}, indent=1))
    finally:
        for p in os.listdir(keep):
            shutil.copy2(f'{keep}/{p}', TH)

main()
