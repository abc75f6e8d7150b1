#!/usr/bin/env python3
"""Mutation testing of the theorems.

mutate.py MUTANTS.json [-j N]   run every mutant that is not in seeded/LOG.jsonl yet.

A mutant is {id, file, definition, old, new, claim, breaks}.  The edit is made in a scratch copy
of rocq/ outside /verif.  Every file that depends on the edited one is recompiled; a lemma whose
proof no longer goes through is replaced there by an assumed one (only in the scratch copy), so
that Print Assumptions tells exactly which theorems of the *_Props files rest on it: these are
the theorems that failed.
"""
import json, os, re, subprocess, sys, shutil, tempfile
from concurrent.futures import ThreadPoolExecutor
from threading import Lock

ROOT = os.path.dirname(os.path.dirname(os.path.abspath(__file__)))
SRC = os.path.join(ROOT, 'rocq')
LOG = os.path.join(ROOT, 'seeded', 'LOG.jsonl')
HEAD = re.compile(r'^[ ]*(?:Local |Global |#\[\w+\] )?(?:Lemma|Theorem|Corollary|Example|Remark|Fact|Instance)\s+([\w\']+)', re.M)
THM = re.compile(r'^Theorem\s+(C\d+_[\w\']+)', re.M)
STD = re.compile(r'^(ClassicalDedekindReals|FunctionalExtensionality|Classical_Prop|Raxioms|Rdefinitions)\.')

def deps():
    out = subprocess.run('coqdep -Q theories Verif theories/*.v', shell=True, cwd=SRC, capture_output=True, text=True).stdout
    d = {}
    for line in out.splitlines():
        m = re.match(r'theories/(\w+)\.vo ', line)
        if m:
            d[m.group(1)] = set(re.findall(r'theories/(\w+)\.vo\b', line.split(':', 1)[1]))
    return d

def order(d, start):
    aff = {start}
    while True:
        new = {f for f, ds in d.items() if ds & aff} - aff
        if not new: break
        aff |= new
    res, seen = [], set()
    def go(f):
        if f in seen: return
        seen.add(f)
        for g in sorted(d[f] & aff): go(g)
        res.append(f)
    for f in sorted(aff): go(f)
    return res

def coqc(dir, f, timeout, extra=()):
    try:
        r = subprocess.run(['timeout', str(timeout), 'coqc', '-Q', 'theories', 'Verif', *extra, f'theories/{f}.v'],
                           cwd=dir, capture_output=True)
        return r.returncode, r.stdout.decode(errors='replace'), r.stderr.decode(errors='replace')
    except Exception as e:
        return 1, '', str(e)

def assume(path, pos):
    """replace the proof (or drop the lemma) around byte offset pos; returns name or None"""
    s = open(path, 'rb').read().decode()
    pos = len(open(path, 'rb').read()[:pos].decode(errors='ignore'))
    heads = [m for m in HEAD.finditer(s) if m.start() <= pos]
    if not heads: return None
    h = heads[-1]
    e = re.compile(r'\b(Qed|Defined)\.').search(s, h.end())
    if not e or e.end() < pos: return None
    p = re.compile(r'\bProof\b[^.]*\.').search(s, h.end())
    if p and p.end() <= pos:
        s2 = s[:p.end()] + ' Admitted.' + s[e.end():]
    else:
        s2 = s[:h.start()] + s[e.end():]
        s2 = re.sub(r'^Print Assumptions ' + re.escape(h.group(1)) + r'\.$', '', s2, flags=re.M)
    open(path, 'w').write(s2)
    return h.group(1)

def error_pos(path, err):
    m = re.findall(r'File "[^"]*", line (\d+), characters (\d+)-(\d+)', err)
    if not m: return None
    l, a, b = map(int, m[-1])
    lines = open(path, 'rb').read().split(b'\n')
    return sum(len(x) + 1 for x in lines[:l - 1]) + a + 1

def hang_pos(dir, f, timeout):
    rc, out, err = coqc(dir, f, timeout, ['-time'])
    m = re.findall(r'^Chars (\d+) - (\d+)', out, re.M)
    return int(m[-1][1]) + 2 if m else 1

def run(mu, d, tmo):
    tmp = tempfile.mkdtemp(prefix='mut_', dir='/tmp')
    try:
        shutil.copytree(os.path.join(SRC, 'theories'), os.path.join(tmp, 'theories'))
        path = os.path.join(tmp, 'theories', mu['file'] + '.v')
        s = open(path).read()
        if s.count(mu['old']) != 1:
            return {'error': f"pattern occurs {s.count(mu['old'])} times"}
        open(path, 'w').write(s.replace(mu['old'], mu['new']))
        files = order(d, mu['file'])
        broken = []
        for f in files:
            p = os.path.join(tmp, 'theories', f + '.v')
            for _ in range(200):
                rc, out, err = coqc(tmp, f, tmo)
                if rc == 0: break
                pos = hang_pos(tmp, f, tmo) if rc == 124 else error_pos(p, err)
                name = assume(p, pos) if pos is not None else None
                if name is None:
                    return {'error': f'{f}: {err[-600:]}'}
                broken.append(f'{f}.{name}')
        # theorems resting on an assumed lemma
        thms = []
        req = ''
        for f in files:
            if f.endswith('_Props'):
                names = THM.findall(open(os.path.join(SRC, 'theories', f + '.v')).read())
                now = open(os.path.join(tmp, 'theories', f + '.v')).read()
                req += f'Require Verif.{f}.\n'
                for n in names:
                    thms.append((f, n, re.search(r'^Theorem\s+' + re.escape(n) + r'\b', now, re.M) is not None))
        q = req
        for f, n, there in thms:
            if there:
                q += f'Goal True. idtac "@@{n}". Abort.\nPrint Assumptions Verif.{f}.{n}.\n'
        open(os.path.join(tmp, 'theories', 'Qzz.v'), 'w').write(q)
        rc, out, err = coqc(tmp, 'Qzz', 600)
        if rc: return {'error': 'query: ' + err[-500:]}
        failed, alive = [n for f, n, there in thms if not there], []
        for chunk in out.split('@@')[1:]:
            n, rest = chunk.split('\n', 1)
            ax = [a for a in re.findall(r'^([\w.\']+)\s*:', rest, re.M) if not STD.match(a) and a != 'Axioms']
            (failed if ax else alive).append(n.strip())
        return {'first_broken': broken[:6], 'failed': failed, 'survived': alive}
    finally:
        shutil.rmtree(tmp, ignore_errors=True)

def main():
    mus = json.load(open(sys.argv[1]))
    j = int(sys.argv[sys.argv.index('-j') + 1]) if '-j' in sys.argv else 2
    only = sys.argv[sys.argv.index('--only') + 1].split(',') if '--only' in sys.argv else None
    done = {json.loads(l).get('id') for l in open(LOG)} if os.path.exists(LOG) else set()
    d = deps()
    lock = Lock()
    def one(mu):
        if mu['id'] in done or (only and mu['id'] not in only): return
        r = run(mu, d, int(mu.get('timeout', 240)))
        with lock:
            if 'error' in r:
                print('!!', mu['id'], r['error'], flush=True); return
            claim_ids = mu['claim'] if isinstance(mu['claim'], list) else [mu['claim']]
            caught = any(t.startswith(c + '_') for t in r['failed'] for c in claim_ids)
            rec = {'id': mu['id'], 'definition': f"{mu['file']}.{mu['definition']}", 'edit': f"{mu['old'].strip()}  ==>  {mu['new'].strip()}",
                   'claim': mu['claim'], 'breaks': mu['breaks'], 'caught': caught,
                   'theorems_failed': r['failed'], 'first_broken_lemmas': r['first_broken'], 'theorems_tightened': mu.get('tightened', [])}
            print('OK ' if caught else 'SURVIVED', mu['id'], len(r['failed']), 'failed;', r['first_broken'][:3], flush=True)
            with open('/tmp/mut_results.jsonl', 'a') as g: g.write(json.dumps({**rec, 'survived': r['survived']}) + '\n')
            if caught:
                with open(LOG, 'a') as g: g.write(json.dumps(rec) + '\n')
    with ThreadPoolExecutor(j) as ex: list(ex.map(one, mus))

main()
