#!/usr/bin/env python3
"""Apply one edit to the model in a scratch copy, rebuild, and report which theorems no longer follow.

usage: mutate.py muts.json [--log]
Each entry: {"definition", "file", "old", "new", "claim", "prop"}.  Lemmas whose proofs break are
admitted *in the scratch copy*; a theorem has failed when it is itself broken or when Print
Assumptions shows that it rests on such a lemma.  With --log a line is appended to seeded/LOG.jsonl.
"""
import json, os, re, shutil, subprocess, sys, time
SRC = os.environ.get('MSRC', '/verif/rocq')  # a copy, so that work can go on meanwhile
W = os.environ.get('MSCR', '/tmp/scratch')

def deps():
    out = subprocess.run(['coqdep', '-Q', 'theories', 'Verif'] + files(), cwd=W, capture_output=True, text=True).stdout
    d = {}
    for l in out.splitlines():
        m = re.match(r'theories/(\w+)\.vo\b.*?: theories/\w+\.v (.*)', l)
        if m:
            d[m.group(1)] = re.findall(r'theories/(\w+)\.vo\b', m.group(2))
    return d

def files():
    return [l.strip() for l in open(W + '/_CoqProject') if l.strip().endswith('.v')]

def admit(path, line):
    """replace the proof enclosing the line by Admitted; returns the name or None"""
    src = open(path).read().split('\n')
    i = line - 1
    start = None
    for k in range(i, -1, -1):
        if re.match(r'\s*(Local |Global |#\[\w+\] )?(Lemma|Theorem|Example|Corollary|Fact|Remark|Instance|Fixpoint|Definition)\b', src[k]):
            start = k; break
    if start is None: return None
    name = re.match(r'\s*(?:Local |Global |#\[\w+\] )?\w+\s+([\w\']+)', src[start]).group(1)
    # end of proof
    for k in range(start, len(src)):
        if re.search(r'\b(Qed|Defined)\.', src[k]):
            end = k; break
    else:
        return None
    text = '\n'.join(src[start:end + 1])
    m = re.search(r'\bProof\b', text)
    if not m or ':=' in text[:m.start()]: return None
    body = text[:m.start()] + 'Admitted.'
    open(path, 'w').write('\n'.join(src[:start] + [body] + [''] * (text.count('\n') - body.count('\n')) + src[end + 1:]))
    return name

def build(mod, broken, outs):
    path = f'{W}/theories/{mod}.v'
    for _ in range(80):
        try:
            r = subprocess.run(['bash', '-c', f'ulimit -v 9000000; timeout 900 coqc -Q theories Verif theories/{mod}.v'], cwd=W, capture_output=True, text=True)
        except Exception as e:
            return False
        if r.returncode == 0:
            outs[mod] = r.stdout
            return True
        m = re.search(r'line (\d+), characters', r.stderr)
        if not m:
            print('   cannot place error in', mod, r.stderr[-300:]); return False
        ln = int(m.group(1))
        name = admit(path, ln)
        if name is None:
            print('   error outside a proof in', mod, ln, r.stderr[-400:]); return False
        if broken[-2:] == [name, name]:
            print('   cannot repair', name, r.stderr[-300:]); return False
        broken.append(name)
    return False

def run(m):
    if not os.path.isdir(W): os.makedirs(W)
    subprocess.run(['rsync', '-a', '--delete', SRC + '/', W + '/'], check=False) if shutil.which('rsync') else (shutil.rmtree(W), shutil.copytree(SRC, W))
    p = f'{W}/theories/{m["file"]}'
    s = open(p).read()
    if s.count(m['old']) != 1:
        print('!! old text occurs', s.count(m['old']), 'times:', m['definition']); return None
    open(p, 'w').write(s.replace(m['old'], m['new']))
    d = deps()
    start = m['file'][:-2]
    dirty = {start}
    order = []
    def visit(f):
        if f in order: return
        for x in d.get(f, []): visit(x)
        order.append(f)
    for f in files(): visit(os.path.basename(f)[:-2])
    for f in order:
        if any(x in dirty for x in d.get(f, [])): dirty.add(f)
    broken, outs, failed = [], {}, set()
    dead = set()
    for f in order:
        if f not in dirty: continue
        if any(x in dead for x in d.get(f, [])): dead.add(f); continue
        if not build(f, broken, outs): dead.add(f)
    for f in dirty:
        if f.endswith('_Properties'):
            thms = re.findall(r'^Theorem (\w+)', open(f'{SRC}/theories/{f}.v').read(), re.M)
            if f in dead: failed |= set(thms); continue
            # Print Assumptions outputs in order
            src = open(f'{W}/theories/{f}.v').read()
            names = re.findall(r'Print Assumptions (\w+)', src)
            chunks = re.split(r'(?=Closed under the global context|^Axioms:)', outs[f], flags=re.M)
            chunks = [c for c in chunks if c.strip()]
            for n, c in zip(names, chunks):
                ax = re.findall(r'^(\w[\w\'.]*)\s*:', c, re.M)
                ax = [a for a in ax if a.split('.')[-1] in broken]
                if ax: failed.add(n)
            failed |= {n for n in thms if n in broken}
    return broken, sorted(failed), sorted(dead)

if __name__ == '__main__':
    muts = json.load(open(sys.argv[1]))
    for m in muts:
        t = time.time()
        r = run(m)
        if r is None: continue
        broken, failed, dead = r
        if any(x.endswith(('_Model', '_Spec')) for x in dead):
            print('!! edit does not typecheck, not logged:', m['definition']); continue
        print(f"{m['definition']}: {m['claim']}\n   broken lemmas: {broken}\n   failed: {failed} dead files: {dead}  [{time.time()-t:.0f}s]", flush=True)
        if '--log' in sys.argv:
            with open('/verif/seeded/LOG.jsonl', 'a') as f:
                f.write(json.dumps({'definition': m['definition'], 'edit': f"{m['file']}: {m['old']!r} -> {m['new']!r}", 'claim': m['claim'],
                    'theorems_failed': failed, 'lemmas_broken': broken[:12], 'theorems_tightened': m.get('tightened', [])}) + '\n')
