#!/usr/bin/env python3
"""Seeded-bug check.  Copies rocq/theories to a scratch directory, applies one
textual edit to a model file, rebuilds everything that depends on it and
reports which theorems no longer prove.  A lemma whose proof breaks is admitted
in the scratch copy so that the build can go on; a property theorem counts as
failed when its own proof breaks or its Print Assumptions lists such a lemma.

usage: mutate.py SPEC.json     (list of {file, def, old, new, claim[, count]})
Results are appended to seeded/LOG.jsonl."""
import sys, os, re, json, shutil, subprocess
ROOT = os.path.dirname(os.path.dirname(os.path.abspath(__file__)))
TH = os.path.join(ROOT, 'rocq', 'theories')
SCR = os.environ.get('SCR', '/tmp/mut')

def deps(f):
    s = open(os.path.join(TH, f)).read()
    out = []
    for m in re.finditer(r'From Verif Require (?:Import|Export)? ?([^.]*)\.', s):
        out += [x + '.v' for x in m.group(1).split()]
    return out

def closure(target):
    files = [f for f in os.listdir(TH) if f.endswith('.v')]
    d = {f: deps(f) for f in files}
    aff = {target}
    ch = True
    while ch:
        ch = False
        for f in files:
            if f not in aff and any(x in aff for x in d[f]):
                aff.add(f); ch = True
    order = []
    def go(f):
        if f in order or f not in aff: return
        for x in d[f]: go(x)
        order.append(f)
    for f in sorted(aff): go(f)
    return order

HEAD = re.compile(r'^\s*(?:Local |Global |#\[[^\]]*\] )?(Lemma|Theorem|Corollary|Example|Fact|Remark)\s+([A-Za-z0-9_\']+)', re.M)

def coqc(f, to=300):
    return subprocess.run(['timeout', str(to), 'coqc', '-Q', '.', 'Verif', f], cwd=SCR,
                          capture_output=True, text=True)

def run(spec):
    if os.path.isdir(SCR): shutil.rmtree(SCR)
    shutil.copytree(TH, SCR)
    p = os.path.join(SCR, spec['file'])
    s = open(p).read()
    n = s.count(spec['old'])
    if n != spec.get('count', 1):
        print('!! occurrences', n, spec); return None
    open(p, 'w').write(s.replace(spec['old'], spec['new']))
    broken, failed = [], []
    bad_axioms = set()
    for f in closure(spec['file']):
        for _ in range(60):
            r = coqc(f)
            if r.returncode == 0: break
            out = r.stdout + r.stderr
            m = re.search(r'line (\d+), characters', out)
            src = open(os.path.join(SCR, f)).read()
            if r.returncode == 124 and not m:
                broken.append(f + ':timeout'); break
            if not m:
                broken.append(f + ':?' + out[-200:]); break
            pos = sum(len(l) + 1 for l in src.split('\n')[:int(m.group(1)) - 1]) + 1
            heads = [h for h in HEAD.finditer(src) if h.start() <= pos + 200]
            heads = [h for h in heads if src[:h.end()].count('\n') + 1 <= int(m.group(1))]
            if not heads:
                broken.append(f + ':toplevel ' + out[-300:]); break
            h = heads[-1]
            q = re.search(r'\b(Qed|Defined)\.', src[h.start():])
            pr = re.search(r'\bProof\b[^.]*\.', src[h.start():])
            if not q or not pr or pr.end() > q.end():
                broken.append(f + ':toplevel ' + out[-300:]); break
            if h.start() + q.end() < pos:
                broken.append(f + ':def ' + out[-300:]); break
            name = h.group(2)
            broken.append(f[:-2] + '.' + name)
            bad_axioms.add(name)
            new = src[:h.start() + pr.start()] + 'Admitted.' + src[h.start() + q.end():]
            open(os.path.join(SCR, f), 'w').write(new)
        if f.startswith('P_'):
            src = open(os.path.join(SCR, f)).read()
            r = coqc(f)
            names = re.findall(r'^Print Assumptions ([A-Za-z0-9_\']+)\.', src, re.M)
            chunks = re.split(r'(?=^Closed under the global context|^Axioms:)', r.stdout, flags=re.M)
            chunks = [c for c in chunks if c.startswith(('Closed', 'Axioms'))]
            for nm, c in zip(names, chunks):
                if c.startswith('Axioms') or nm in bad_axioms:
                    failed.append(nm)
            if r.returncode != 0: failed.append(f + ':does not compile')
    rec = {'file': spec['file'], 'definition': spec['def'],
           'edit': (spec['old'].strip() + '  ==>  ' + spec['new'].strip())[:400],
           'claim_broken': spec['claim'], 'first_broken_lemmas': broken[:6],
           'theorems_failed': failed, 'theorems_tightened': spec.get('tightened', [])}
    return rec

if __name__ == '__main__':
    specs = json.load(open(sys.argv[1]))
    only = sys.argv[2:] and [int(x) for x in sys.argv[2:]]
    for i, sp in enumerate(specs):
        if only and i not in only: continue
        rec = run(sp)
        if rec is None: continue
        print(i, json.dumps(rec)); sys.stdout.flush()
        if not os.environ.get('DRY'):
            with open(os.path.join(ROOT, 'seeded', 'LOG.jsonl'), 'a') as fh:
                fh.write(json.dumps(rec) + '\n')
