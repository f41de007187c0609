#!/usr/bin/env python3
"""Automatic mutation testing: small edits generated for every definition of the model.

usage: automutate.py SRC WORK OUT.jsonl [-j N] [-n PER_DEFINITION] [-s SEED] [definition or file names...]

For each edit the files that mention the definition (or a definition using it) are rebuilt in a scratch copy; the
edit counts as caught at the first broken lemma that a property theorem depends on (by name).  Other broken lemmas
are closed with a scratch-only axiom and the search goes on.  Edits that no longer type-check are dropped.  An edit
after which everything is rebuilt is a survivor: it has to be looked at by hand (equivalent, or a gap).
WORK/base is the built copy made by mutate.py."""
import json, os, re, random, shutil, subprocess, sys, time, queue, threading, glob
src_dir, work, out = sys.argv[1:4]
args = sys.argv[4:]
def opt(k, d):
    if k in args:
        i = args.index(k); v = int(args[i + 1]); del args[i:i + 2]; return v
    return d
jobs, per, seed = opt('-j', 2), opt('-n', 2), opt('-s', 1)
base = work + '/base'
START = re.compile(r'^\s*(?:#\[[^\]]*\]\s*)?(?:Local |Global )?(Lemma|Theorem|Example|Corollary|Instance|Fact|Remark)\s+([\w\x27]+)', re.M)
DEF = re.compile(r'^[ \t]*(?:#\[[^\]]*\]\s*)?(?:Definition|Fixpoint)\s+(\w+)', re.M)
ENDDEF = re.compile(r'^\s*(?:#\[|\(\*\*|Definition|Fixpoint|Record|Inductive|Section|End|Context|Lemma|Variable|Instance|Local|Arguments|Notation|Open|Close|Example)', re.M)

text = {os.path.basename(f)[:-2]: open(f).read() for f in glob.glob(base + '/theories/*.v')}
o = subprocess.run('coqdep -Q theories Verif theories/*.v', shell=True, cwd=base, capture_output=True, text=True).stdout
g = {}
for l in o.splitlines():
    m = re.match(r'theories/(\w+)\.vo \S.*?: (.*)', l)
    if m: g[m.group(1)] = [x for x in re.findall(r'theories/(\w+)\.vo\b', m.group(2)) if x != m.group(1)]
seen, topo = set(), []
def go(x):
    if x in seen: return
    seen.add(x)
    for y in g.get(x, []): go(y)
    topo.append(x)
for x in sorted(g): go(x)
rank = {x: i for i, x in enumerate(topo)}
def ancestors(x, acc=None):
    acc = set() if acc is None else acc
    for y in g[x]:
        if y not in acc: acc.add(y); ancestors(y, acc)
    return acc
anc = {x: ancestors(x) for x in g}

# lemmas a property theorem depends on, by name
words = {}
thms = set()
for f, s in text.items():
    st = list(START.finditer(s))
    for i, x in enumerate(st):
        t = s[x.end():(st[i + 1].start() if i + 1 < len(st) else len(s))]
        words.setdefault(x.group(2), set()).update(re.findall(r'\w+', t))
        if f.startswith('P') and x.group(1) == 'Theorem': thms.add(x.group(2))
useful, todo_ = set(thms), list(thms)
while todo_:
    for w in words[todo_.pop()]:
        if w in words and w not in useful: useful.add(w); todo_.append(w)

# definitions
defs = {}
for f, s in text.items():
    if not f.startswith('M') or f == 'MutAx': continue
    for d in DEF.finditer(s):
        e = ENDDEF.search(s, d.end())
        defs[d.group(1)] = (f, d.start(), e.start() if e else len(s))
dwords = {n: set(re.findall(r'\w+', text[f][a:b])) for n, (f, a, b) in defs.items()}
def closure(n):
    c = {n}
    while True:
        new = {x for x, w in dwords.items() if x not in c and w & c}
        if not new: return c
        c |= new

SWAP = [('vadd', 'vsub'), ('madd', 'msub'), ('cadd', 'csub'), ('qadd', 'qsub'), ('padd', 'psub'), ('sin', 'cos'), ('sinh', 'cosh'), ('asin', 'acos'),
        ('left', 'right'), ('top', 'bottom'), ('near', 'far'), ('re', 'im'), ('andb', 'orb'), ('Rlt_dec', 'Rgt_dec'), ('Rle_dec', 'Rge_dec'),
        ('nadd', 'nsub'), ('nmul', 'nadd'), ('ndiv', 'nmul'), ('true', 'false'), ('Rmin', 'Rmax'), ('n0', 'n1'), ('nltb', 'nleb'), ('fst', 'snd'),
        ('yaw', 'pitch'), ('roll', 'pitch'), ('lhs', 'rhs'), ('vdot', 'vnorm_squared_'), ('exp', 'ln'), ('Some', 'None_'), ('sqrt', 'ln')]
def edits(body):
    i = body.find(':=')
    head, b = body[:i + 2], body[i + 2:]
    r = []
    def put(a, z, new, why):
        if b[a:z] != new: r.append((b[:a] + new + b[z:], '%s -> %s' % (b[max(0, a - 18):z + 18].replace('\n', ' '), why)))
    for m in re.finditer(r' ([-+*/]) ', b):
        for new in {'+': '-*', '-': '+', '*': '+', '/': '*'}[m.group(1)]:
            put(m.start(1), m.end(1), new, '`%s`' % new)
    for m in re.finditer(r'\(- ', b): put(m.start(), m.end(), '(', 'minus dropped')
    for x, y in SWAP:
        for p, q in ((x, y), (y, x)):
            for m in re.finditer(r'(?<![\w%%])%s(?![\w\'])' % p, b): put(m.start(), m.end(), q, q)
    for m in re.finditer(r'(?<![\w.])([0-9])(?![\w.])', b):
        k = int(m.group(1))
        put(m.start(), m.end(), str(1 - k) if k < 2 else str(k - 1), str(1 - k) if k < 2 else str(k - 1))
        if k in (1,): put(m.start(), m.end(), '2', '2')
    for m in re.finditer(r'\b(mtranspose|qconjugate|cconjugate|vneg|mneg|qneg|cneg|vnormalize|fvnormalize|qnormalize|sqrt|fsqrt|Rabs|negb)\b ', b):
        put(m.start(), m.end(), '', m.group(1) + ' dropped')
    for m in re.finditer(r'\b(\w*)_(lh|rh)\b', b): put(m.start(2), m.end(2), 'rh' if m.group(2) == 'lh' else 'lh', 'handedness')
    for m in re.finditer(r'\b\w*[a-z]_([xyz])\b', b):
        for c in 'xyz': put(m.start(1), m.end(1), c, c)
    for m in re.finditer(r'_(inverse_)?apply_', b): put(m.start(), m.end(), '_apply_' if m.group(1) else '_inverse_apply_', 'inverse')
    for m in re.finditer(r'(?<=[ (])([a-z]\w*) ([a-z]\w*) ([a-z]\w*)(?=[)\s.])', b):
        if m.group(1) in defs and m.group(2) != m.group(3): put(m.start(2), m.end(3), m.group(3) + ' ' + m.group(2), 'arguments swapped')
    return [(head + x, w) for x, w in r]

mutants = []
rng = random.Random(seed)
for n, (f, a, z) in sorted(defs.items()):
    if args and not (n in args or f in args): continue
    es = edits(text[f][a:z])
    rng.shuffle(es)
    mutants.append((n, [dict(id='%s~%d~%d' % (n, seed, k), file=f, definition=n, edit=w, s=text[f][:a] + x + text[f][z:]) for k, (x, w) in enumerate(es)]))

def coqc(d, f, limit):
    p = subprocess.Popen(['coqc', '-time', '-Q', 'theories', 'Verif', 'theories/%s.v' % f], cwd=d, stdout=subprocess.PIPE, stderr=subprocess.STDOUT, text=True)
    try:
        o, _ = p.communicate(timeout=limit)
        return p.returncode, o
    except subprocess.TimeoutExpired:
        p.kill(); o, _ = p.communicate()
        return -1, o or ''

def run(m, d):
    t0 = time.time()
    shutil.rmtree(d, ignore_errors=True)
    subprocess.run(['cp', '-al', base, d], check=True)
    n, f0 = m['definition'], m['file']
    cl = closure(n)
    dirty = {f0}
    for f in topo:
        if any(x in dirty for x in g[f]): dirty.add(f)
    for f in dirty:
        for e in ('.vo', '.vok', '.vos', '.glob'):
            try: os.remove('%s/theories/%s%s' % (d, f, e))
            except FileNotFoundError: pass
        p = '%s/theories/%s.v' % (d, f)
        os.remove(p); open(p, 'w').write(text[f] if f != f0 else m['s'])
    ment = lambda f, c: bool(set(re.findall(r'\w+', text[f])) & c)
    targets = [f for f in topo if f in dirty and ment(f, {n})] + [f for f in topo if f in dirty and ment(f, cl)]
    todo = []
    cost = lambda f: len([x for x in anc[f] if x in dirty])
    for f in sorted([x for x in targets if ment(x, {n})], key=cost) + sorted(targets, key=cost):
        for x in sorted([y for y in anc[f] | {f} if y in dirty], key=lambda y: rank[y]):
            if x not in todo: todo.append(x)
    failed = []
    res = lambda **k: dict(id=m['id'], file=f0, definition=n, edit=m['edit'], failed=failed, wall=round(time.time() - t0), **k)
    for f in todo:
        p = '%s/theories/%s.v' % (d, f)
        while True:
            src = open(p).read()
            rc, o = coqc(d, f, 240)
            if rc == 0: break
            if rc == -1:
                last = re.findall(r'^Chars (\d+) - (\d+)', o, re.M)
                pos = int(last[-1][1]) + 1 if last else 0
                pos = len(src.encode()[:pos].decode(errors='ignore'))
            else:
                e = re.search(r'File "[^"]*", line (\d+), characters (\d+)', o)
                if not e: return res(result='error', file2=f, out=o[-300:])
                pos = sum(len(x) + 1 for x in src.split('\n')[:int(e.group(1)) - 1]) + int(e.group(2))
            st = [x for x in START.finditer(src) if x.start() <= pos + 1]
            if f.startswith('M') and (not st or f == f0): return res(result='invalid')
            if not st: return res(result='error', file2=f, out=o[-300:])
            st = st[-1]
            pr = re.compile(r'\bProof\b').search(src, st.end())
            qd = re.compile(r'\b(Qed|Defined)\.').search(src, st.end())
            name = st.group(2)
            if not pr or not qd or pos < pr.start() - 1 or pos > qd.end(): return res(result='invalid', file2=f, at=name, out=o[-300:])
            if name in failed: return res(result='error', file2=f, at=name, out=o[-300:])
            failed.append(name)
            if name in useful: return res(result='caught', by=name, inn=f, timeout=rc == -1)
            src = src[:pr.start()] + 'Proof. exact (Verif.MutAx.mutant_axiom _). Qed.' + src[qd.end():]
            if 'Verif Require MutAx' not in src: src = 'From Verif Require MutAx.\n' + src
            open(p, 'w').write(src)
    return res(result='SURVIVED')

done = {}
if os.path.exists(out):
    for l in open(out):
        r = json.loads(l); done.setdefault(r['definition'], []).append(r)
q = queue.Queue()
order = list(mutants)
rng.shuffle(order)
for x in order: q.put(x)
lock = threading.Lock()
def worker(k):
    while True:
        try: n, ms = q.get_nowait()
        except queue.Empty: return
        good = len([r for r in done.get(n, []) if r['result'] != 'invalid'])
        ids = {r['id'] for r in done.get(n, [])}
        tries = 0
        for m in ms:
            if good >= per or tries >= 4 * per: break
            if m['id'] in ids: continue
            tries += 1
            try: r = run(m, '%s/a%d' % (work, k))
            except Exception as e: r = dict(id=m['id'], definition=n, edit=m['edit'], result='error', out=repr(e))
            if r['result'] != 'invalid': good += 1
            with lock:
                open(out, 'a').write(json.dumps(r) + '\n')
                if r['result'] != 'invalid': print(r['id'], r['result'], '|', r['edit'], '|', r.get('by', ''), r.get('wall'), flush=True)
        if good == 0 and not done.get(n):
            with lock: print(n, 'no valid mutants', len(ms), flush=True)
ts = [threading.Thread(target=worker, args=(k,)) for k in range(jobs)]
for t in ts: t.start()
for t in ts: t.join()
