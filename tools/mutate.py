#!/usr/bin/env python3
"""Seed a bug into a scratch copy of the model and report which property theorems stop proving.

usage: mutate.py mutations.json     (list of {file, def, old, new, claim, edit, [tightened], [nth]})
The scratch copy lives in /tmp/mut; failing proofs are admitted there so that later ones are
still tried; a theorem counts as failed if its own proof fails or if it depends on a failed lemma.
"""
import json, os, re, shutil, subprocess, sys
ORIG, SRC, DST = '/verif/rocq', '/tmp/mut/base', '/tmp/mut/rocq'
LOG = '/verif/seeded/LOG.jsonl'
HEAD = re.compile(r'^\s*(?:Local\s+|Global\s+)?(?:Lemma|Theorem|Example|Corollary|Fact|Remark)\s+([A-Za-z0-9_\']+)')

def order():
    return [l.strip() for l in open(SRC + '/_CoqProject') if l.strip().endswith('.v')]

def coqc(f, timeout=400):
    p = subprocess.run(['timeout', str(timeout), 'coqc', '-Q', 'theories', 'Verif', '-w', 'none', f],
                       cwd=DST, capture_output=True, text=True)
    return p.returncode, p.stdout, p.stderr

def deps(mod):
    """files that (transitively) need module mod, in build order"""
    fs = order(); need = {}
    for f in fs:
        t = open(DST + '/' + f).read()
        s = set()
        for m in re.finditer(r'From Verif Require (?:Import|Export)([^.]*)\.', t):
            s |= set(m.group(1).split())
        need[f] = s
    bad = {mod}; out = []
    for _ in range(len(fs)):
        for f in fs:
            n = os.path.basename(f)[:-2]
            if n not in bad and need[f] & bad: bad.add(n)
    for f in sorted((f for f in fs if os.path.basename(f)[:-2] in bad), key=lambda f: 0): out.append(f)
    # topological
    res, done = [], set()
    def visit(f):
        if f in done: return
        done.add(f)
        for g in out:
            if os.path.basename(g)[:-2] in need[f]: visit(g)
        res.append(f)
    for f in out: visit(f)
    return res

def admit_at(path, line):
    ls = open(path).read().split('\n')
    i = line - 1
    while i >= 0 and not HEAD.match(ls[i]): i -= 1
    if i < 0: return None
    name = HEAD.match(ls[i]).group(1)
    j = i
    while j < len(ls) and not re.search(r'\bProof\b', ls[j]): j += 1
    k = j
    while k < len(ls) and not re.search(r'\b(Qed|Defined)\.', ls[k]): k += 1
    if k >= len(ls) or line - 1 > k + 1: return None
    pre = ls[j][:ls[j].index('Proof')]
    ls[j:k+1] = [pre + 'Admitted.'] + [''] * (k - j)
    open(path, 'w').write('\n'.join(ls))
    return name

def run(m):
    if not os.path.exists(DST): os.makedirs('/tmp/mut', exist_ok=True); shutil.copytree(SRC, DST)
    else: subprocess.run(['rsync', '-a', '--delete', SRC + '/', DST + '/'], check=True) if shutil.which('rsync') else (shutil.rmtree(DST), shutil.copytree(SRC, DST))
    p = f"{DST}/theories/{m['file']}"
    t = open(p).read()
    if m['old'] not in t: return {'error': 'pattern not found'}
    n = m.get('nth', 0)
    pos = -1
    for _ in range(n + 1): pos = t.index(m['old'], pos + 1)
    t = t[:pos] + m['new'] + t[pos + len(m['old']):]
    open(p, 'w').write(t)
    failed_own, admitted, failed = [], set(), []
    for f in deps(m['file'][:-2]):
        path = f"{DST}/{f}"
        for _ in range(80):
            rc, out, err = coqc(f)
            if rc == 0: break
            g = re.search(r'line (\d+), characters', err)
            nm = None if g is None else admit_at(path, int(g.group(1)))
            if rc == 124 and nm is None: return {'error': 'timeout in ' + f}
            if nm is None: return {'error': f'{f}: ' + err[-600:], 'so_far': failed}
            admitted.add(nm); failed_own.append(nm)
        if f.endswith('_Props.v'):
            names = re.findall(r'^Print Assumptions (\w+)', open(path).read(), re.M)
            blocks = re.split(r'^(?=Axioms:|Closed under)', out, flags=re.M)[1:]
            for nme, b in zip(names, blocks):
                ax = set(re.findall(r'^([\w.\']+)\s*(?::|$)', b, re.M))
                ax = {a.split('.')[-1] for a in ax}
                if nme in admitted or ax & admitted: failed.append(nme)
            for nme in failed_own:
                if nme.startswith('C') and nme not in failed and re.search(r'^(Theorem|Example) ' + nme + r'\b', open(path).read(), re.M):
                    failed.append(nme)
    return {'failed': failed, 'lemmas': [x for x in failed_own if x not in failed]}

if __name__ == '__main__':
    # snapshot, so that edits made while this runs do not interfere
    os.makedirs('/tmp/mut', exist_ok=True)
    shutil.rmtree(SRC, ignore_errors=True); shutil.copytree(ORIG, SRC)
    for m in json.load(open(sys.argv[1])):
        r = run(m)
        rec = {'definition': m['file'][:-2] + '.' + m['def'], 'edit': m.get('edit') or f"{m['old']}  ==>  {m['new']}",
               'claim_broken': m['claim'], 'theorems_failed': r.get('failed', []),
               'theorems_tightened': m.get('tightened', [])}
        if 'error' in r: print('ERROR', m['def'], r); continue
        if r['lemmas']: rec['lemmas_failed'] = r['lemmas']
        if m.get('note'): rec['note'] = m['note']
        print(json.dumps(rec)[:400])
        if not m.get('dry'):
            with open(LOG, 'a') as fh: fh.write(json.dumps(rec) + '\n')
