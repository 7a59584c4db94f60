#!/usr/bin/env python3
"""Try a wrong program against the theorems, in a scratch copy.

usage: mutate.py MUTATIONS.json [name...]
Each mutation: {"name", "file", "old", "new", "claim"}.  The edited copy is built; a proof that
no longer checks is replaced by Admitted (only in the copy) and the build goes on.  A property
theorem has failed if its own proof broke or it rests, directly or not, on a broken lemma."""
import json, os, re, shutil, subprocess, sys, time
ROOT = os.environ.get('SNAP', '/verif/rocq'); W = os.environ.get('MUT', '/tmp/mut')
HEAD = re.compile(r'^\s*(?:Global |Local |#\[[^\]]*\]\s*)*(?:Lemma|Theorem|Corollary|Example|Fact|Remark|Instance|Program Instance)\s+([A-Za-z0-9_\']+)')

def sh(c, t=3600):
    return subprocess.run('ulimit -v 9000000; ' + c, shell=True, cwd=W, stdout=subprocess.PIPE, stderr=subprocess.STDOUT, text=True, timeout=t).stdout

def admit(path, line, broken):
    src = open(path).read().split('\n')
    i = line - 1
    while i >= 0 and not HEAD.match(src[i]): i -= 1
    if i < 0: return False
    name = HEAD.match(src[i]).group(1)
    j = i
    while j < len(src) and not re.search(r'\bProof\b', src[j]): j += 1
    k = j
    while k < len(src) and not re.search(r'\b(Qed|Defined)\.\s*$', src[k]): k += 1
    if k >= len(src) or line - 1 > k: return False
    head = src[j][:src[j].index('Proof')]
    src[j:k + 1] = [head + 'Admitted.'] + [''] * (k - j)
    open(path, 'w').write('\n'.join(src))
    broken.append(os.path.basename(path)[:-2] + '.' + name)
    return True

def run(m):
    shutil.rmtree(W, ignore_errors=True)
    subprocess.run(['cp', '-a', ROOT, W], check=True)
    path = f"{W}/theories/{m['file']}"
    s = open(path).read()
    assert s.count(m['old']) == m.get('count', 1), (m['name'], s.count(m['old']))
    open(path, 'w').write(s.replace(m['old'], m['new']))
    broken = []
    while True:
        out = sh("make -k -j%s COQEXTRAFLAGS='-set \"Default Timeout=100\"' 2>&1" % os.environ.get('MUTJ', '3'))
        errs = {}
        blocks = re.findall(r'File "\./(theories/\w+\.v)", line (\d+), characters [^\n]*\n(Error[^\n]*)', out)
        for f, l, e in blocks: errs.setdefault(f, (int(l), e))
        if not errs:
            if re.search(r'^Error|\*\*\*', out, re.M): return {'name': m['name'], 'invalid': out[-600:]}
            break
        for f, (l, e) in errs.items():
            if not admit(f'{W}/{f}', l, broken): return {'name': m['name'], 'invalid': f'{f}:{l} {e}', 'broken': broken}
    return {'name': m['name'], 'broken': broken, 'failed': failing(broken)}

def graph():
    """What each declaration of the unedited files mentions, from the .glob files; Ltac
    definitions are found by name in the text."""
    g = {}; ltac = {}; texts = {}
    T = ROOT + '/theories/'
    files = sorted(f[:-2] for f in os.listdir(T) if f.endswith('.v'))
    for f in files:
        src = open(T + f + '.v', 'rb').read()
        decls = []; refs = []
        for l in open(T + f + '.glob'):
            p = l.split()
            if p[0] in ('prf', 'def', 'ind', 'constr', 'rec', 'inst', 'scheme', 'syndef', 'not') and len(p) >= 4 and p[0] != 'not':
                decls.append((int(p[1].split(':')[0]), p[3]))
            elif p[0][0] == 'R' and len(p) >= 4 and p[1].startswith('Verif.'):
                refs.append((int(p[0][1:].split(':')[0]), (p[1][6:], p[3].split('.')[-1])))
        for m in re.finditer(rb'^\s*(?:Local )?Ltac\s+(\w+)', src, re.M): decls.append((m.start(1), 'ltac ' + m.group(1).decode()))
        for m in re.finditer(rb'^\s*(?:Local )?Tactic Notation[^"]*"(\w+)"', src, re.M): decls.append((m.start(1), 'ltac ' + m.group(1).decode()))
        decls.sort()
        for i, (s0, n) in enumerate(decls):
            e = decls[i + 1][0] if i + 1 < len(decls) else len(src)
            g.setdefault((f, n), set()); texts[(f, n)] = texts.get((f, n), '') + src[s0:e].decode()
            if n.startswith('ltac '): ltac.setdefault(n[5:], []).append((f, n))
        starts = [d[0] for d in decls]
        import bisect
        for p, r in refs:
            i = bisect.bisect_right(starts, p) - 1
            if i >= 0 and (f, decls[i][1]) != r: g[(f, decls[i][1])].add(r)
    for k, t in texts.items():
        for w in set(re.findall(r"\w+", t)):
            for x in ltac.get(w, []):
                if x != k: g[k].add(x)
    return g
GRAPH = None
def failing(broken):
    global GRAPH
    if GRAPH is None: GRAPH = graph()
    back = {}
    for k, vs in GRAPH.items():
        for v in vs: back.setdefault(v, set()).add(k)
    seen = {tuple(b.split('.')) for b in broken}; todo = list(seen)
    while todo:
        for k in back.get(todo.pop(), ()):
            if k not in seen: seen.add(k); todo.append(k)
    return sorted(n for f, n in seen if f.startswith('Props_') and re.match(r'C\d\d', n) and re.search(r'^Theorem %s\b' % n, open(f'{ROOT}/theories/{f}.v').read(), re.M))

if __name__ == '__main__':
    ms = json.load(open(sys.argv[1])); want = sys.argv[2:]
    for m in ms:
        if want and m['name'] not in want: continue
        t0 = time.time()
        try: r = run(m)
        except Exception as e: r = {'name': m['name'], 'error': repr(e)}
        r['claim'] = m['claim']; r['seconds'] = int(time.time() - t0)
        print(json.dumps(r), flush=True)
        open('/tmp/mutlog.jsonl', 'a').write(json.dumps(r) + '\n')
