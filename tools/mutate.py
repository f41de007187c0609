#!/usr/bin/env python3
"""Mutation testing of the theorems: edit one definition of the model in a scratch copy, rebuild what
depends on it, and report which of the theorems that state the broken claim no longer prove.

usage: mutate.py SRC WORK OUT.jsonl [-j N] [ids or definition names...]

SRC is rocq/ (sources); WORK a scratch directory.  WORK/base is a built copy of SRC without the
[Print Assumptions] lines; it is created when missing.  The mutants are in mutants.py.

In the scratch copy a lemma whose proof breaks is closed with a scratch-only axiom, so that everything that
does not need the broken lemma is still checked; a property theorem counts as failed when its proof needs
that axiom, or when its own statement no longer type-checks.  Nothing of this touches the sources."""
import json, os, re, shutil, subprocess, sys, time, queue, threading, glob
sys.path.insert(0, os.path.dirname(os.path.abspath(__file__)))

src_dir, work, out = sys.argv[1:4]
args = sys.argv[4:]
jobs = 3
if '-j' in args:
    i = args.index('-j'); jobs = int(args[i + 1]); del args[i:i + 2]
base = work + '/base'
CAP = 14          # stop looking for further broken lemmas after this many
START = re.compile(r'^\s*(?:#\[[^\]]*\]\s*)?(?:Local |Global )?(Lemma|Theorem|Example|Corollary|Instance|Fact|Remark)\s+([\w\x27]+)', re.M)
ENDDEF = re.compile(r'^\s*(?:#\[|\(\*\*|Definition|Fixpoint|Record|Inductive|Section|End|Context|Lemma|Variable|Instance|Local|Arguments)', re.M)

def prepare():
    if os.path.exists(base + '/ready'): return
    shutil.rmtree(base, ignore_errors=True)
    os.makedirs(base + '/theories')
    for f in glob.glob(src_dir + '/theories/*.v'):
        s = open(f).read()
        if os.path.basename(f).startswith('P'):
            s = re.sub(r'^\s*Print Assumptions [^\n]*\n', '', s, flags=re.M)
        open(base + '/theories/' + os.path.basename(f), 'w').write(s)
    open(base + '/theories/MutAx.v', 'w').write('Axiom mutant_axiom : forall P : Prop, P.\n')
    pr = open(src_dir + '/_CoqProject').read() + 'theories/MutAx.v\n'
    open(base + '/_CoqProject', 'w').write(pr)
    subprocess.run('coq_makefile -f _CoqProject -o Makefile && make -j%d' % jobs, shell=True, cwd=base, check=True,
                   stdout=subprocess.DEVNULL)
    open(base + '/ready', 'w').write('')

def deps():
    o = subprocess.run('coqdep -Q theories Verif theories/*.v', shell=True, cwd=base, capture_output=True, text=True).stdout
    g = {}
    for l in o.splitlines():
        m = re.match(r'theories/(\w+)\.vo \S.*?: (.*)', l)
        if m:
            g[m.group(1)] = [x for x in re.findall(r'theories/(\w+)\.vo\b', m.group(2)) if x != m.group(1)]
    return g

def order(g):
    seen, res = set(), []
    def go(x):
        if x in seen: return
        seen.add(x)
        for y in g.get(x, []): go(y)
        res.append(x)
    for x in sorted(g): go(x)
    return res

def theorem_files():
    r = {}
    for f in glob.glob(src_dir + '/theories/P*.v'):
        for n in re.findall(r'^Theorem (\w+)', open(f).read(), re.M):
            r[n] = os.path.basename(f)[:-2]
    return r

def edit(s, m):
    """Replace m['old'] by m['new'] inside the definition m['def']."""
    d = re.search(r'^\s*(?:#\[[^\]]*\]\s*)?(?:Definition|Fixpoint|Record|Instance)\s+%s\b' % re.escape(m['def']), s, re.M)
    if not d: return None, 'no such definition'
    e = ENDDEF.search(s, d.end())
    e = e.start() if e else len(s)
    body = s[d.start():e]
    n = body.count(m['old'])
    if n == 0: return None, 'old text does not occur'
    if n > 1 and m.get('all'): body = body.replace(m['old'], m['new'])
    elif n > 1 and not m.get('first'): return None, 'old text occurs %d times' % n
    else: body = body.replace(m['old'], m['new'], 1)
    return s[:d.start()] + body + s[e:], None

def coqc(d, f, limit):
    p = subprocess.Popen(['coqc', '-time', '-Q', 'theories', 'Verif', 'theories/%s.v' % f], cwd=d,
                         stdout=subprocess.PIPE, stderr=subprocess.STDOUT, text=True)
    try:
        o, _ = p.communicate(timeout=limit)
        return p.returncode, o
    except subprocess.TimeoutExpired:
        p.kill()
        o, _ = p.communicate()
        return -1, o or ''

def run(m, d, g, tf):
    t0 = time.time()
    shutil.rmtree(d, ignore_errors=True)
    subprocess.run(['cp', '-a', base, d], check=True)
    path = '%s/theories/%s.v' % (d, m['file'])
    s, err = edit(open(path).read(), m)
    if err: return dict(id=m['id'], error=err)
    open(path, 'w').write(s)
    names = [x for x in tf if any(x.startswith(c + '_') for c in m['props'])]
    if not names: return dict(id=m['id'], error='no theorems for ' + str(m['props']))
    dirty, want = {m['file']}, set()
    for f in order(g):
        if any(x in dirty for x in g[f]): dirty.add(f)
    def anc(x):
        if x in want: return
        want.add(x)
        for y in g[x]: anc(y)
    for n in names: anc(tf[n])
    todo = [x for x in order(g) if x in dirty and x in want]
    failed, timeouts, broken, stopped = [], [], [], False
    for f in todo:
        p = '%s/theories/%s.v' % (d, f)
        while True:
            src = open(p).read()
            rc, o = coqc(d, f, 300)
            if rc == 0: break
            if rc == -1:
                last = re.findall(r'^Chars (\d+) - (\d+)', o, re.M)
                pos = int(last[-1][1]) + 1 if last else 0
                pos = len(src.encode()[:pos].decode(errors='ignore'))
                timeouts.append(f)
            else:
                e = re.search(r'File "[^"]*", line (\d+), characters (\d+)', o)
                if not e: return dict(id=m['id'], error='no position', file=f, out=o[-500:])
                lines = src.split('\n')
                pos = sum(len(x) + 1 for x in lines[:int(e.group(1)) - 1]) + int(e.group(2))
            st = [x for x in START.finditer(src) if x.start() <= pos + 1]
            if not st: return dict(id=m['id'], error='not in a lemma', file=f, out=o[-500:])
            st = st[-1]
            pr = re.compile(r'\bProof\b').search(src, st.end())
            qd = re.compile(r'\b(Qed|Defined)\.').search(src, st.end())
            name = st.group(2)
            if not pr or not qd or pos < pr.start() - 1 or pos > qd.end():
                return dict(id=m['id'], error='statement or definition broken', file=f, at=name, out=o[-500:])
            if name in failed: return dict(id=m['id'], error='fails twice', at=name, out=o[-500:])
            failed.append(name)
            if len(failed) >= CAP: stopped = True; break
            src = src[:pr.start()] + 'Proof. exact (Verif.MutAx.mutant_axiom _). Qed.' + src[qd.end():]
            if 'Verif Require MutAx' not in src: src = 'From Verif Require MutAx.\n' + src
            open(p, 'w').write(src)
        if stopped: break
    bad, good = [], []
    if stopped:
        # name-level dependency of the property theorems on the broken lemmas found so far
        users = set(failed)
        text = {}
        for f in todo:
            s = open('%s/theories/%s.v' % (d, f)).read()
            st = list(START.finditer(s))
            for i, x in enumerate(st):
                text[x.group(2)] = s[x.end():(st[i + 1].start() if i + 1 < len(st) else len(s))]
        while True:
            new = {n for n, t in text.items() if n not in users and set(re.findall(r"[\w']+", t)) & users}
            if not new: break
            users |= new
        for n in names: (bad if n in users else good).append(n)
    else:
        q = ''.join('From Verif Require Import %s.\n' % f for f in sorted({tf[n] for n in names}))
        q += ''.join('Goal True. idtac "@@%s". exact I. Qed.\nPrint Assumptions %s.\n' % (x, x) for x in names)
        open(d + '/q.v', 'w').write(q)
        r = subprocess.run(['coqc', '-Q', 'theories', 'Verif', 'q.v'], cwd=d, capture_output=True, text=True)
        found = re.findall(r'@@(\w+)\n(.*?)(?=@@|\Z)', r.stdout, re.S)
        if len(found) != len(names): return dict(id=m['id'], error='query', out=(r.stdout + r.stderr)[-500:])
        for x, a in found: (bad if 'mutant_axiom' in a else good).append(x)
    hit = {c: [x for x in bad if x.startswith(c + '_')] for c in m['props']}
    survived = [c for c in hit if not hit[c]]
    if stopped and survived and len(survived) < len(m['props']):
        # the cap was reached before the files of these properties: try them alone
        r = run(dict(m, props=survived), d, g, tf)
        if 'error' not in r:
            bad += r['theorems_failed']; good = [x for x in good if x not in bad]
            failed += [x for x in r['failed_lemmas'] if x not in failed]; survived = r['survived']
    return dict(id=m['id'], file=m['file'], definition=m['def'], old=m['old'], new=m['new'], claim=m['claim'],
                props=m['props'], theorems_failed=bad, theorems_held=good, survived=survived,
                failed_lemmas=failed, stopped=stopped, timeouts=timeouts, wall=round(time.time() - t0))

from mutants import mutants
prepare()
g, tf = deps(), theorem_files()
done = set()
if os.path.exists(out):
    done = {json.loads(l)['id'] for l in open(out) if 'error' not in json.loads(l)}
todo = queue.Queue()
for m in mutants:
    if (args and not (m['id'] in args or m['def'] in args)) or (not args and m['id'] in done): continue
    todo.put(m)
lock = threading.Lock()
def worker(k):
    while True:
        try: m = todo.get_nowait()
        except queue.Empty: return
        try: r = run(m, '%s/w%d' % (work, k), g, tf)
        except Exception as e: r = dict(id=m['id'], error=repr(e))
        with lock:
            open(out, 'a').write(json.dumps(r) + '\n')
            if 'error' in r: print(r['id'], 'ERROR', r['error'], r.get('at', ''), r.get('out', '')[:300], flush=True)
            else: print(r['id'], m['def'], 'SURVIVED ' + str(r['survived']) if r['survived'] else 'killed', r['theorems_failed'], r['wall'], flush=True)
ts = [threading.Thread(target=worker, args=(k,)) for k in range(jobs)]
for t in ts: t.start()
for t in ts: t.join()
