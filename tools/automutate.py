#!/usr/bin/env python3
"""Small random edits of the model files, tried as in mutate.py but stopping at the first broken property theorem.

usage: automutate.py SEED COUNT OUT.jsonl [file...]"""
import json, os, random, re, sys, time, shutil, subprocess, zlib
sys.path.insert(0, os.path.dirname(os.path.abspath(__file__)))
import mutate
from mutate import ROOT, W, sh, admit, failing
FILES = "IntParse Resp UtilIndex StringC StringMap LinkedList HashC SkipList Command Db Engine Recovery Log Utf8 Persist Replication Node Future DataChannel Topic EventBus Broadcast DataMap RWLock Conn Server Process Signals Master System Start Logging Cli Client Memory Quote Host Flow FlowServer Timed Writer".split()
OPS = [(r'<\?', '<=?'), (r'<=\?', '<?'), (r'(?<![<>])=\?', '<=?'), (r' \+ 1\b', ''), (r' - 1\b', ''), (r' - 2\b', ' - 1'), (r' - 3\b', ' - 2'), (r'\btrue\b', 'false'), (r'\bfalse\b', 'true'),
       (r'\bnegb \(', '('), (r'&&', '||'), (r'\|\|', '&&'), (r'\brev \(', '('), (r'\brev (\w+)', r'\1'), (r'\bfirstn\b', 'skipn'), (r'\bskipn\b', 'firstn'),
       (r'(?<![\w.])0(?![\w.])', '1'), (r'(?<![\w.])1(?![\w.])', '0'), (r'(?<![\w.])1(?![\w.])', '2'), (r'\bS (\w+)\b', r'\1'), (r'\bSome \w+', 'None'), (r"\bfst\b", 'snd'), (r"\bsnd\b", 'fst'),
       (r'\bupd \((\w+ \w+)\) \w+ (?:\w+|\([^()]*\))', r'(\1)'), (r'<>', '='), (r'\bIn\b', '~ In'), (r'~ In\b', 'In'), (r'~ ', ''), (r'\bmin\b', 'max'), (r'\bmax\b', 'min'),
       (r'(\w+) \+\+ (\w+)', r'\2 ++ \1'), (r'\+\+ \[(\w+)\]', ''), (r'"([^"]+)"', r'"\1x"'), (r':: (\w+)', r':: []'), (r' \+ (?=\w)', ' - '), (r' - (?=\w)', ' + '), (r'\bforallb\b', 'existsb'), (r'\bexistsb\b', 'forallb'),
       (r'(?:(?<=: )|(?<=-> ))[^:>\n]*? -> (?=[^\n]*\b(?:step|move)\b)', ''), (r'\bwrap64 ', ''), (r'<(?![-=>?])', '<='), (r'<=(?!\?)', '<')]

def comments(s):
    out = []; i = 0
    while i < len(s):
        if s.startswith('(*', i):
            d = 1; j = i + 2
            while d: 
                if s.startswith('(*', j): d += 1; j += 2
                elif s.startswith('*)', j): d -= 1; j += 2
                else: j += 1
            out.append((i, j)); i = j
        else: i += 1
    return out

def candidates(f):
    s = open(f'{ROOT}/theories/{f}.v').read(); cs = comments(s); c = []
    heads = [(m.start(), m.group(2)) for m in re.finditer(r'^\s*(?:Local )?(Definition|Fixpoint|Inductive|with|CoFixpoint)\s+([\w\']+)', s, re.M) if m.group(1) != 'with' or True]
    rules = [(m.start(), m.group(1)) for m in re.finditer(r'^\s*\| ([\w\']+)[^\n=]*:', s, re.M)]
    pts = sorted([(p, n, 0) for p, n in heads] + [(p, n, 1) for p, n in rules])
    skip = [(m.start(), m.end()) for m in re.finditer(r'^\s*(?:From|Import|Require|Arguments|Open|Local Open|Notation|Set|Lemma|Proof)[^\n]*', s, re.M)]
    for o, (pat, rep) in enumerate(OPS):
        for m in re.finditer(pat, s):
            if any(a <= m.start() < b for a, b in cs) or any(a <= m.start() < b for a, b in skip): continue
            name = ''
            for p, n, k in pts:
                if p > m.start(): break
                name = (name.split()[0] + ' ' + n if k and name else n) if k else n
            if not name: continue
            new = s[:m.start()] + m.expand(rep) + s[m.end():]
            if new != s: c.append((name, m.start(), m.end(), m.expand(rep), s))
    return c

def run(f, c):
    name, a, b, rep, s = c
    shutil.rmtree(W, ignore_errors=True); subprocess.run(['cp', '-a', ROOT, W], check=True)
    open(f'{W}/theories/{f}.v', 'w').write(s[:a] + rep + s[b:])
    l0 = s.rfind('\n', 0, a) + 1; l1 = s.find('\n', b)
    r = {'name': f'auto-{f}-{a}-{zlib.crc32(rep.encode()) % 997}', 'definition': f'{f}.v: {name}', 'edit': {'old': s[l0:l1], 'new': s[l0:a] + rep + s[b:l1]}, 'claim': ''}
    broken = []
    while True:
        out = sh("make -j%s COQEXTRAFLAGS='-set \"Default Timeout=100\"' 2>&1" % os.environ.get('MUTJ', '2'))
        errs = {}
        for g, l, e in re.findall(r'File "\./(theories/\w+\.v)", line (\d+), characters [^\n]*\n(Error[^\n]*)', out): errs.setdefault(g, (int(l), e))
        if not errs:
            if re.search(r'^Error|\*\*\*', out, re.M): r['invalid'] = out[-300:]
            break
        bad = [g for g, (l, e) in errs.items() if not admit(f'{W}/{g}', l, broken)]
        if bad: r['invalid'] = f'{bad[0]} {errs[bad[0]]}'; break
        if failing(broken): break
    r['broken'] = broken; r['failed'] = failing(broken); return r

if __name__ == '__main__':
    seed, count, out = int(sys.argv[1]), int(sys.argv[2]), sys.argv[3]; rnd = random.Random(seed); fs = sys.argv[4:] or FILES
    pool = {}
    for f in fs:
        for c in candidates(f): pool.setdefault((f, c[0]), []).append(c)
    keys = sorted(pool); print(len(keys), 'definitions', sum(map(len, pool.values())), 'edits', flush=True)
    rnd.shuffle(keys); n = 0
    for k in keys:
        if n >= count: break
        t0 = time.time(); c = rnd.choice(pool[k]); n += 1
        try: r = run(k[0], c)
        except Exception as e: r = {'name': str(k), 'error': repr(e)}
        r['seconds'] = int(time.time() - t0)
        open(out, 'a').write(json.dumps(r) + '\n')
