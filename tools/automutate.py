#!/usr/bin/env python3
"""Automatic mutants of the model definitions.

automutate.py OUT.jsonl [-j N] [--per K] [--seed S] [--files A,B]

Takes up to K random small edits (comparison, constant, sign, boolean, swapped field) of every
definition of the *_Model.v files, rebuilds the dependents in a scratch copy and notes
the first lemma that no longer goes through. Examples do not count: they are dropped.
A mutant after which every lemma and theorem still goes through has survived: it is either
equivalent to the model, irrelevant for the properties, or shows that a theorem is too weak.
"""
import json, os, re, subprocess, sys, shutil, tempfile, random
from concurrent.futures import ThreadPoolExecutor
from threading import Lock
sys.argv_saved = sys.argv
ROOT = os.path.dirname(os.path.dirname(os.path.abspath(__file__)))
SRC = os.path.join(ROOT, 'rocq')
T = os.path.join(SRC, 'theories')
OPS = [(r'<=\?', '<?'), (r'(?<![<=])<\?', '<=?'), (r' =\? ', ' <? '), (r'&&', '||'), (r'\|\|', '&&'),
       (r'\btrue\b', 'false'), (r'\bfalse\b', 'true'), (r' \+ 1\b', ''), (r' - 1\b', ''), (r' \+ ', ' - '), (r' - ', ' + '),
       (r'(?<![\w.%-])\d+(?![\w.])', lambda m: str(int(m.group()) + 1)), (r'\brows\b', 'cols'), (r'\bcols\b', 'rows'),
       (r'\binner_stride\b', 'outer_stride'), (r'\bouter_stride\b', 'inner_stride'), (r'\bfst\b', 'snd'), (r'\bsnd\b', 'fst'),
       (r'\bfirstn\b', 'skipn'), (r'\bskipn\b', 'firstn'), (r'\bLower_', 'Upper_'), (r'\bNoTrans\b', 'Trans'), (r'\bTrans\b', 'NoTrans'),
       (r'\bnegb \(', '('), (r'\bNone\b', 'None_'), (r'\bZ\.max\b', 'Z.min'), (r'\bZ\.min\b', 'Z.max'),
       (r'\bS n\b', 'n'), (r'\bandb\b', 'orb'), (r'\borb\b', 'andb'), (r'\bexistsb\b', 'forallb'), (r'\bforallb\b', 'existsb'),
       (r'\bleft\b', 'right'), (r'\bsrc\b', 'dst'), (r'\bdst\b', 'src'), (r'\brev\b', ''), (r' \* ', ' + ')]
HEAD = re.compile(r'^[ ]*(?:Local |Global |#\[\w+\] )?(Lemma|Theorem|Corollary|Example|Remark|Fact|Instance|Definition|Fixpoint|Let)\s+([\w\']+)', re.M)

def deps():
    out = subprocess.run('coqdep -Q theories Verif theories/*.v', shell=True, cwd=SRC, capture_output=True, text=True).stdout
    d = {}
    for line in out.splitlines():
        m = re.match(r'theories/(\w+)\.vo ', line)
        if m: d[m.group(1)] = set(re.findall(r'theories/(\w+)\.vo\b', line.split(':', 1)[1]))
    return d

def order(d, start):
    aff = {start}
    while True:
        new = {f for f, ds in d.items() if ds & aff} - aff
        if not new: break
        aff |= new
    res, seen = [], set()
    def go(f):
        if f in seen: return
        seen.add(f)
        for g in sorted(d[f] & aff): go(g)
        res.append(f)
    for f in sorted(aff): go(f)
    return res

def candidates(f, rng, per):
    s = open(os.path.join(T, f + '.v')).read()
    # blank out comments
    t, depth, i = list(s), 0, 0
    while i < len(s):
        if s[i:i+2] == '(*': depth += 1
        if depth: t[i] = ' ' if s[i] != '\n' else '\n'
        if s[i:i+2] == '*)' and depth:
            depth -= 1; t[i+1] = ' '; i += 1
        i += 1
    c = ''.join(t)
    res = []
    ds = list(re.finditer(r'^[ ]*(?:Definition|Fixpoint)\s+([\w\']+)', c, re.M))
    for m in ds:
        a = c.find(':=', m.end())
        e = re.compile(r'\.(?=\s)').search(c, a)
        if a < 0 or not e: continue
        opts = []
        for pat, rep in OPS:
            for x in re.finditer(pat, c[a+2:e.start()]):
                b = a + 2 + x.start()
                new = rep(x) if callable(rep) else rep
                if new == 'None_': continue
                opts.append((b, b + len(x.group()), new))
        rng.shuffle(opts)
        for b, e2, new in opts[:per]:
            line = s.count('\n', 0, b) + 1
            res.append({'file': f, 'definition': m.group(1), 'line': line, 'start': b, 'end': e2, 'old': s[b:e2], 'new': new,
                        'context': s[max(0, b - 30):e2 + 30].replace('\n', ' ')})
    return res

def coqc(dir, f, timeout):
    r = subprocess.run(['timeout', str(timeout), 'coqc', '-Q', 'theories', 'Verif', f'theories/{f}.v'], cwd=dir, capture_output=True)
    return r.returncode, r.stderr.decode(errors='replace')

def run(mu, d, tmo=300):
    tmp = tempfile.mkdtemp(prefix='amut_', dir='/tmp')
    try:
        files = order(d, mu['file'])
        subprocess.run(['cp', '-rl', T, os.path.join(tmp, 'theories')], check=True)
        for f in files:
            for ext in ('.vo', '.vok', '.vos', '.glob'):
                try: os.unlink(os.path.join(tmp, 'theories', f + ext))
                except FileNotFoundError: pass
                try: os.unlink(os.path.join(tmp, 'theories', '.' + f + '.aux'))
                except FileNotFoundError: pass
            p = os.path.join(tmp, 'theories', f + '.v')
            s = open(p).read(); os.unlink(p); open(p, 'w').write(s)
        p = os.path.join(tmp, 'theories', mu['file'] + '.v')
        s = open(p).read()
        open(p, 'w').write(s[:mu['start']] + mu['new'] + s[mu['end']:])
        ex = []
        for f in files:
            p = os.path.join(tmp, 'theories', f + '.v')
            while True:
                rc, err = coqc(tmp, f, tmo)
                if rc == 0: break
                if rc == 124: return {'result': 'timeout', 'where': f}
                m = re.findall(r'File "[^"]*", line (\d+), characters (\d+)-(\d+)', err)
                if not m: return {'result': 'error', 'where': f + ' ' + err[-200:]}
                l, a, b = map(int, m[-1])
                raw = open(p, 'rb').read()
                pos = len((b'\n'.join(raw.split(b'\n')[:l-1]) + b'\n').decode()) + a + 1
                s = raw.decode()
                hs = [h for h in HEAD.finditer(s) if h.start() <= pos]
                if not hs: return {'result': 'invalid', 'where': f}
                h = hs[-1]
                if f.endswith('_Model') or h.group(1) in ('Definition', 'Fixpoint', 'Let'): return {'result': 'invalid', 'where': f + '.' + h.group(2), 'err': err[-200:]}
                if h.group(1) != 'Example': return {'result': 'killed', 'where': f + '.' + h.group(2), 'examples': ex}
                e = re.compile(r'\b(Qed|Defined)\.').search(s, h.end())
                nxt = HEAD.search(s, h.end())
                if not e or (nxt and nxt.start() < e.start()):
                    return {'result': 'invalid', 'where': f + '.' + h.group(2)}
                ex.append(f + '.' + h.group(2))
                open(p, 'w').write(s[:h.start()] + s[e.end():])
        return {'result': 'SURVIVED', 'examples': ex}
    finally:
        shutil.rmtree(tmp, ignore_errors=True)

def main():
    out = sys.argv[1]
    def arg(n, dflt): return sys.argv[sys.argv.index(n) + 1] if n in sys.argv else dflt
    j, per, seed = int(arg('-j', '2')), int(arg('--per', '1')), int(arg('--seed', '1'))
    fs = arg('--files', '')
    fs = fs.split(',') if fs else sorted(x[:-2] for x in os.listdir(T) if x.endswith('_Model.v'))
    rng = random.Random(seed)
    mus = []
    for f in fs: mus += candidates(f, rng, per)
    done = set()
    if os.path.exists(out):
        for l in open(out):
            r = json.loads(l); done.add((r['file'], r['start'], r['new']))
    d = deps(); lock = Lock()
    mus = [m for m in mus if (m['file'], m['start'], m['new']) not in done]
    rng.shuffle(mus)
    print(len(mus), 'mutants', flush=True)
    def one(mu):
        try: r = run(mu, d)
        except Exception as e: r = {'result': 'error', 'where': str(e)}
        with lock:
            with open(out, 'a') as g: g.write(json.dumps({**mu, **r}) + '\n')
            if r['result'] not in ('killed', 'invalid'):
                print(r['result'], mu['file'], mu['definition'], mu['line'], repr(mu['context']), mu['old'], '=>', mu['new'], r.get('where', ''), r.get('examples', ''), flush=True)
    with ThreadPoolExecutor(j) as ex: list(ex.map(one, mus))

main()
