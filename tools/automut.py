#!/usr/bin/env python3
"""Automatic mutations of the model: operator and constant replacements, dropped updates.

  automut.py count            number of mutants per model file
  automut.py sample K N       a random sample
  automut.py run FILE ...     run all mutants of the given model files (Model/X.v); results go to AUTOLOG (json lines)
Each mutant is built until the first failure in a copy of the compiled tree (AUTO_BASE); survivors are the interesting
ones.  A mutant that fails to typecheck in Model/ is not counted."""
import json, os, re, subprocess, sys, shutil
BASE = os.environ.get('AUTO_BASE', '/tmp/autobase/rocq'); WORK = os.environ.get('AUTO_WORK', '/tmp/auto/rocq')
LOG = os.environ.get('AUTOLOG', '/tmp/auto/log.jsonl'); T = '/verif/rocq/theories/'
DROP = re.compile(r'let\* (\w+) := (?!Ret\b)([^\n]*?\b\1\b[^\n]*?) in$', re.M)
RULES = [('<=?', '<?'), ('<?', '<=?'), ('&&', '||'), ('||', '&&'), ('negb ', 'id '), ('true', 'false'), ('false', 'true'),
         ('add64', 'sub64'), ('sub64', 'add64'), ('mul64', 'add64'), ('shl', 'shr'), ('shr', 'shl'), ('N.land', 'N.lor'), ('N.lor', 'N.land'),
         ('=?', '<=?'), (' - 1', ''), (' + 1', '')]
FIRST = {'CompactHashTable': 'ChtWordP ChtP ChtSetP TableHistP', 'CompactNlm': 'EntriesP CompactBonsaiNlmP CompactFkNlmP NlmHistP',
  'PlainNlm': 'PlainNlmP NlmHistP', 'Map': 'MapP', 'AllocBytes': 'AllocP', 'Move': 'LimitP', 'Oom': 'OomP', 'Heap': 'HeapP PlainNlmP',
  'CompactVector': 'CompactVectorP', 'CompactBonsaiTrie': 'CompactBonsaiP', 'CompactFkhashTrie': 'CompactFkP', 'DspTable': 'DspP CompactBonsaiP',
  'PlainBonsaiTrie': 'PlainBonsaiP', 'PlainFkhashTrie': 'PlainFkP', 'StdTable': 'StdTableP', 'VByte': 'VByteP', 'Hash': 'HashP', 'Base': 'BaseP',
  'BitTools': 'BitToolsP BitTools2P SelectP', 'BitToolsSse': 'SseP', 'BitVector': 'BitVectorP', 'MaxSize': 'MaxSizeP',
  'BonsaiRemap': 'RemapP PlainBonsaiP', 'Api': 'MapHistP', 'ApiTry': 'TryP'}
def comments(s):
    """spans of comments"""
    out, i, d, st = [], 0, 0, 0
    while i < len(s):
        if s.startswith('(*', i):
            if d == 0: st = i
            d += 1; i += 2
        elif s.startswith('*)', i) and d:
            d -= 1; i += 2
            if d == 0: out.append((st, i))
        else: i += 1
    return out
def mutants(f):
    s = open(T + f).read(); cs = comments(s)
    defs = [(m.start(), m.group(2)) for m in re.finditer(r'^\s*(Definition|Fixpoint|Inductive|Record|Notation|Section|Context|Instance|From|Class|Variant|Local|Global|Existing|Arguments|Ltac|#)\s*([\w\']*)', s, re.M)]
    kinds = [(m.start(), m.group(1)) for m in re.finditer(r'^\s*(Definition|Fixpoint|Inductive|Record|Notation|Section|Context|Instance|From|Class|Variant|Local|Global|Existing|Arguments|Ltac|Lemma|#)', s, re.M)]
    def where(i):
        k = [x for p, x in kinds if p <= i]; n = [x for p, x in defs if p <= i]
        return (k[-1] if k else None), (n[-1] if n else '?')
    res = []
    def add(i, j, new):
        if any(a <= i < b for a, b in cs): return
        k, n = where(i)
        if k not in ('Definition', 'Fixpoint') or n.endswith('_default'): return
        res.append((n, i, j, new))
    for old, new in RULES:
        for m in re.finditer(re.escape(old), s):
            i, j = m.span()
            if old == '<?' and s[i-1:i] == '=': continue
            if old == '=?' and s[i-1:i] == '<': continue
            if old[0].isalpha() and (s[i-1].isalnum() or s[i-1] in '_.' or (s[j].isalnum() or s[j] == '_') and old[-1].isalnum()): continue
            if old in ('true', 'false') and re.match(r'\s*(=>|,)', s[j:]) : continue
            if old in (' + 1', ' - 1') and s[j:j+1].isdigit(): continue
            add(i, j, new)
    for m in re.finditer(r'(?<![\w.\'])(\d+)(?![\w.\'])', s):
        rest = s[m.end():m.end()+4]
        if re.match(r'\s*=>', rest): continue
        add(m.start(1), m.end(1), str(int(m.group(1)) + 1))
    for m in DROP.finditer(s):
        add(m.start(2), m.end(2), f'Ret {m.group(1)}')
    res.sort(key=lambda x: x[1])
    return s, res
def restore():
    subprocess.run(f"mkdir -p {os.path.dirname(WORK)}; if [ -d {WORK} ]; then cd {BASE} && find . -type f -newer /dev/null -print0 >/dev/null; fi", shell=True)
    shutil.rmtree(WORK, ignore_errors=True); subprocess.run(['cp', '-a', BASE, WORK], check=True)
def run(f, only=None):
    s, ms = mutants(f); done = set()
    if os.path.exists(LOG):
        for l in open(LOG): r = json.loads(l); done.add((r['file'], r['pos'], r['new']))
    for n, i, j, new in ms:
        if (f, i, new) in done or only and (i, new) not in only: continue
        restore(); t = s[:i] + new + s[j:]; open(f'{WORK}/theories/{f}', 'w').write(t)
        line = s.count('\n', 0, i); src = s.split('\n')[line].strip(); mut = t.split('\n')[line].strip()
        first = ' '.join(f'theories/Proofs/{x}.vo' for x in FIRST.get(f[6:-2], '').split())
        r = subprocess.run((f"make {first} TIMECMD='timeout 300' 2>&1 && " if first else '') + "make -j%s TIMECMD='timeout 300' 2>&1" % os.environ.get('AUTO_J', '2'), shell=True, cwd=WORK, capture_output=True, text=True, errors='replace')
        out = r.stdout; res = 'SURVIVED'; at = ''
        if r.returncode:
            m = re.search(r'File "\./theories/(\S+)", line (\d+)[^\n]*\n(?:(?!Warning)[^\n]*\n)*?Error', out)
            e = re.findall(r'\[[^\]]*?theories/(\S+)\.vo\] Error', out)
            at = (e[0] if e else '?') + (':' + m[2] if m else '')
            res = 'invalid' if (e and e[0].startswith('Model/') and not e[0].startswith('Model/Tables')) else 'killed'
        rec = {'file': f, 'def': n, 'pos': i, 'new': new, 'line': line + 1, 'src': src, 'mut': mut, 'result': res, 'at': at}
        open(LOG, 'a').write(json.dumps(rec) + '\n')
        if res == 'SURVIVED': print('SURVIVED', f, n, line + 1, '|', src, '=>', mut, flush=True)
    if not only: print('done', f, flush=True)
if __name__ == '__main__':
    if sys.argv[1] == 'count':
        tot = 0
        for f in sorted(os.listdir(T + 'Model')):
            if f.endswith('.v') and f != 'Tables.v':
                k = len(mutants('Model/' + f)[1]); tot += k; print(f, k)
        print(tot)
    elif sys.argv[1] == 'sample':  # automut.py sample K N: every N-th mutant, from the K-th, of a fixed random order of all mutants
        import random
        all_ = [(f'Model/{f}', i, new) for f in sorted(os.listdir(T + 'Model')) if f.endswith('.v') and f not in ('Tables.v', 'CompactHashTable.v')
                for _, i, _, new in mutants('Model/' + f)[1]]
        random.Random(1).shuffle(all_); k, n = int(sys.argv[2]), int(sys.argv[3])
        for f, i, new in all_[k::n]: run(f, {(i, new)})
    else:
        for f in sys.argv[2:]: run(f)
