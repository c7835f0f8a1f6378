#!/usr/bin/env python3
"""Mutation testing of the theorems (seeded/LOG.jsonl).

  seed.py                run every mutation of seeded/mutations.py that is not yet in LOG.jsonl
  seed.py NAME ...       run the named mutations (again)

For each mutation the compiled tree is copied to /tmp/seed, the edit is applied to the model and the tree is
rebuilt.  The first lemma that no longer compiles is found from the error position, and the claim theorems
(Cnn_...) whose proofs use that lemma, directly or not, from the .glob files of the unmodified build.
With SEED_KEEP set the build goes on after the first failure (make -k), so that independent failures are listed too.
A mutation after which everything still compiles is reported as SURVIVED: some theorem is too weak (or the
edit is harmless)."""
import json, os, re, shutil, subprocess, sys
ROOT = os.environ.get('SEED_ROOT', '/verif/rocq'); SEED = '/tmp/seed/rocq'; LOG = '/verif/seeded/LOG.jsonl'
sys.path.insert(0, '/verif/seeded')
from mutations import MUTATIONS

def globs():
    """user graph: node 'Lib.name' -> set of nodes it refers to"""
    g, kinds = {}, {}
    for d, _, fs in os.walk(ROOT + '/theories'):
        for f in fs:
            if not f.endswith('.glob'): continue
            lib, defs, refs = None, [], []
            for l in open(os.path.join(d, f), errors='replace'):
                if l.startswith('F'): lib = l[1:].strip(); continue
                m = re.match(r'R(\d+):\d+ (\S+) (\S+) (\S+) (\S+)', l)
                if m:
                    refs.append((int(m[1]), m[2] + '.' + m[4].split(':')[0]))
                    continue
                m = re.match(r'(prf|def|thm|ind|rec|constr|proj|inst|coe|fix) (\d+):\d+ (\S+) (\S+)', l)
                if m and m[1] in ('prf', 'def', 'thm', 'ind', 'rec', 'inst', 'coe', 'fix'):
                    defs.append((int(m[2]), lib + '.' + m[4]))
            defs.sort(); refs.sort()
            j = -1
            for pos, r in refs:
                while j + 1 < len(defs) and defs[j + 1][0] <= pos: j += 1
                if j >= 0: g.setdefault(defs[j][1], set()).add(r)
    return g

def claims_using(g, target):
    rev = {}
    for a, bs in g.items():
        for b in bs: rev.setdefault(b, set()).add(a)
    seen, todo = {target}, [target]
    while todo:
        for a in rev.get(todo.pop(), ()):
            if a not in seen: seen.add(a); todo.append(a)
    return sorted({a.split('.')[-1] for a in seen if re.match(r'C\d\d_', a.split('.')[-1])})

def enclosing(path, line):
    name = None
    for i, l in enumerate(open(path), 1):
        if i > line: break
        m = re.match(r'\s*(?:Local |Global |#\[.*\] )?(?:Lemma|Theorem|Corollary|Definition|Fixpoint|Example|Instance|Let|Remark|Fact)\s+([\w\']+)', l)
        if m: name = m[1]
    return name

def run(m, g):
    name, file, defn, old, new, claim, props = m
    shutil.rmtree('/tmp/seed', ignore_errors=True); os.makedirs('/tmp/seed')
    subprocess.run(['cp', '-a', ROOT, SEED], check=True)
    p = f'{SEED}/theories/{file}'; s = open(p).read()
    if isinstance(old, str): old, new = [old], [new]
    for o, n in zip(old, new):
        if s.count(o) != 1: return {'name': name, 'result': f'BAD EDIT ({s.count(o)} matches of {o!r})'}
        s = s.replace(o, n)
    open(p, 'w').write(s)
    try:
        r = subprocess.run('coq_makefile -f _CoqProject -o Makefile >/dev/null; make ' + ('-k ' if os.environ.get('SEED_KEEP') else '') + '-j2 TIMECMD=\'timeout 300\' 2>&1', shell=True, cwd=SEED,
                           capture_output=True, text=True, timeout=5400)
        out = r.stdout
    except subprocess.TimeoutExpired:
        out = 'TIMEOUT'; r = None
    rec = {'name': name, 'definition': f'rocq/theories/{file}: {defn}', 'edit': ' ; '.join(f'{" ".join(o.split())}  =>  {" ".join(n.split())}' for o, n in zip(old, new)),
           'claim': claim, 'claims_broken': props}
    if r is not None and r.returncode == 0:
        rec.update(result='SURVIVED', theorems_failed=[], tightened=[]); return rec
    fails = []
    for mm in re.finditer(r'File "\./(theories/\S+\.v)", line (\d+), characters [^\n]*\n(Error|.*?\nError)', out):
        if 'Warning' in mm[3]: continue
        l = enclosing(f'{SEED}/{mm[1]}', int(mm[2]))
        fails.append((mm[1], l))
    for mm in re.finditer(r'(theories/\S+\.vo)\] Error 124', out):
        fails.append((mm[1][:-1], '(no proof within 300 s)'))
    if not fails:
        rec.update(result='NO ERROR POSITION', tail=out[-600:]); return rec
    used = set()
    for f, l in fails:
        lib = 'Verif.' + f[len('theories/'):-2].replace('/', '.')
        if l and l.startswith('('):
            for n in g:
                if n.startswith(lib + '.'): used |= set(claims_using(g, n))
            continue
        used |= set(claims_using(g, f'{lib}.{l}'))
        if re.match(r'C\d\d_', l or ''): used.add(l)
    rec.update(result='killed', first_failures=[f'{f[9:-2]}: {l}' for f, l in fails],
               theorems_failed=sorted(u for u in used), 
               broken_claims_all_detected=all(any(u.startswith(c + '_') for u in used) for c in props), tightened=[])
    return rec

def main():
    done = {}
    if os.path.exists(LOG):
        for l in open(LOG):
            if l.strip(): r = json.loads(l); done[r.get('name')] = r
    g = globs()
    names = sys.argv[1:]
    for m in MUTATIONS:
        if (names and m[0] in names) or (not names and m[0] not in done):
            r = run(m, g)
            print(m[0], r['result'], r.get('first_failures', r.get('tail', '')), 'detected' if r.get('broken_claims_all_detected') else 'CHECK ' + str(m[6]) + ' vs ' + str(r.get('theorems_failed')), flush=True)
            if r['result'] in ('killed', 'SURVIVED'):
                with open(LOG, 'a') as f: f.write(json.dumps(r) + '\n')
if __name__ == '__main__': main()
