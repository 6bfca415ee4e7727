#!/usr/bin/env python3
"""Mutation test of the theorems.

usage: mutate.py FILE.json [-j N] [--quick]

FILE.json is a list of objects with the fields
  id, file (theories/X.v), definition, old, new, edit, breaks (property ids or a sentence)
For each mutant the development is copied to a scratch directory outside the
repository, the edit is applied to the model, and the development is rebuilt.
A lemma whose proof fails is replaced by an admitted one *in the scratch copy
only* and the build goes on, so that every failing lemma is found.  The
theorems that failed are those of the Props files whose Print Assumptions then
lists an admitted lemma (or whose statement no longer type-checks).
Results are appended to FILE.out.jsonl.
With --quick the build stops at the first error; the theorems that failed are
then those whose proofs refer, directly or through other lemmas, to the lemmas
in error (found by name in the files that import them).
"""
import sys, json, os, re, subprocess, shutil
from concurrent.futures import ThreadPoolExecutor
src = os.environ.get('MUT_SRC', '/verif/rocq')
spec = sys.argv[1]; jobs = sys.argv[sys.argv.index('-j') + 1] if '-j' in sys.argv else '2'
tmp = '/tmp/mut/' + os.path.basename(spec).replace('.json', '')
quick = '--quick' in sys.argv
out = spec.replace('.json', '.out.jsonl')
done = set()
if os.path.exists(out):
    done = {json.loads(l)['id'] for l in open(out)}

def build():
    p = subprocess.run(['nice', 'timeout', '2400', 'make'] + ([] if quick else ['-k']) + ['-j' + jobs], cwd=tmp, capture_output=True, text=True)
    return p.stdout + p.stderr

HEAD = re.compile(r'^\s*(?:Local\s+|Global\s+|#\[[^\]]*\]\s*)?(Lemma|Theorem|Corollary|Example|Fact|Instance|Definition|Fixpoint)\s+([\w\']+)', re.M)
def admit(path, line):
    """replace the proof around `line` by an admitted one; returns the lemma's name"""
    s = open(path).read(); lines = s.split('\n')
    pos = sum(len(l) + 1 for l in lines[:line - 1])
    heads = [m for m in HEAD.finditer(s) if m.start() <= pos + len(lines[line - 1])]
    m = heads[-1]
    if m.group(1) in ('Definition', 'Fixpoint'): return None
    k = s.find('Proof', m.end())
    e = re.compile(r'\bQed\.|\bDefined\.|\bAdmitted\.').search(s, k)
    if k < 0 or e is None or e.group(0) == 'Admitted.': return None
    body = s[k:e.end()]
    open(path, 'w').write(s[:k] + 'Admitted.' + '\n' * body.count('\n') + s[e.end():])
    return m.group(2)

for mu in json.load(open(spec)):
    if mu['id'] in done: continue
    os.makedirs('/tmp/mut', exist_ok=True)
    subprocess.check_call(['rsync', '-a', '--delete', src + '/', tmp + '/'] if shutil.which('rsync') else ['sh', '-c', 'rm -rf %s && cp -a %s %s' % (tmp, src, tmp)])
    f = os.path.join(tmp, mu['file']); s = open(f).read()
    res = dict(mu); 
    if s.count(mu['old']) != 1:
        res['error'] = 'old text occurs %d times' % s.count(mu['old'])
        open(out, 'a').write(json.dumps(res) + '\n'); continue
    open(f, 'w').write(s.replace(mu['old'], mu['new']))
    admitted = []; broken = []
    for it in range(80):
        log = build()
        errs = []
        for m in re.finditer(r'File "\./(theories/(\w+)\.v)", line (\d+), characters [^\n]*\n(?=Error)', log):
            errs.append((m.group(1), int(m.group(3))))
        if not errs: break
        progress = False
        for (fn, ln) in dict(errs).items():
            if os.path.basename(fn).startswith('Props'):
                broken.append((fn, ln)); continue
            n = admit(os.path.join(tmp, fn), ln)
            if n is None:
                broken.append((fn, ln))
            else:
                admitted.append(os.path.basename(fn)[:-2] + '.' + n); progress = True
        if not progress or quick: break
    failed = []
    short = {a.split('.')[1] for a in admitted}
    touched = {a.split('.')[0] for a in admitted} | {os.path.basename(b[0])[:-2] for b in broken}
    deps = {}
    for vf in os.listdir(tmp + '/theories'):
        if vf.endswith('.v'):
            text = open(tmp + '/theories/' + vf).read()
            deps[vf[:-2]] = {w for m in re.finditer(r'From Verif Require Import ([^.]*)\.', text) for w in m.group(1).split()}
    def reach(m, seen):
        if m in seen: return seen
        seen.add(m)
        for d in deps.get(m, ()): reach(d, seen)
        return seen
    def check(pf):
        text = open(tmp + '/theories/' + pf).read()
        names = re.findall(r'Print Assumptions\s+([\w\']+)\.', text)
        p = subprocess.run(['nice', 'timeout', '600', 'coqc', '-Q', 'theories', 'Verif', 'theories/' + pf], cwd=tmp, capture_output=True, text=True)
        if p.returncode: return [n + ' (file does not compile)' for n in names]
        blocks = re.split(r'^(?=Axioms:|Closed under the global context)', p.stdout, flags=re.M)[1:]
        return [n for n, b in zip(names, blocks) if set(re.findall(r'^(?:[\w\']+\.)*([\w\']+)\s*(?::|$)', b, flags=re.M)) & short]
    if quick:
        users = {}
        for vf in deps:
            cur = None
            text = re.sub(r'\(\*.*?\*\)', ' ', open(tmp + '/theories/' + vf + '.v').read(), flags=re.S)
            for m in re.finditer(r'(?:^\s*(?:Lemma|Theorem|Corollary|Example|Fact|Definition|Fixpoint)\s+([\w\']+))|([\w\']+)', text, flags=re.M):
                if m.group(1): cur = (vf, m.group(1))
                elif cur: users.setdefault(m.group(2), set()).add(cur)
        up = {vf: reach(vf, set()) for vf in deps}
        todo = [tuple(a.split('.')) for a in admitted]; seen = set(todo)
        while todo:
            fl, n = todo.pop()
            for (vf, u) in users.get(n, ()):
                if fl in up[vf] and (vf, u) not in seen and u != n: seen.add((vf, u)); todo.append((vf, u))
        res['quick'] = True
        failed = sorted(n for (vf, n) in seen if vf.startswith('Props'))
    pfs = [] if quick else [pf for pf in sorted(os.listdir(tmp + '/theories')) if pf.startswith('Props') and pf.endswith('.v') and reach(pf[:-2], set()) & touched]
    with ThreadPoolExecutor(int(jobs)) as ex:
        for r in ex.map(check, pfs): failed += r
    res['failed_lemmas'] = admitted; res['broken'] = broken; res['failed'] = failed
    open(out, 'a').write(json.dumps(res) + '\n')
    print(mu['id'], mu['definition'], '->', failed[:12], 'lemmas', admitted[:8], 'broken', broken[:3], flush=True)
