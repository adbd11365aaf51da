"""Syntactic mutants of definitions, first failure only.  Usage: python3 tools/automut.py seed per_definition [all|untested] [Model...]
Each mutant is one small edit inside one definition of a *Model.v file; files depending on it are
rebuilt in a scratch copy until one fails.  Mutants that every theorem survives are printed
(SURVIVED) for review: either an equivalent program, or a theorem is too weak."""
import sys, os, re, json, glob, random, shutil, subprocess, collections
from concurrent.futures import ThreadPoolExecutor
root = os.path.abspath(os.path.join(os.path.dirname(__file__), '..')); th = os.path.join(root, 'rocq', 'theories')
seed, per, mode, only = int(sys.argv[1]), int(sys.argv[2]), sys.argv[3], sys.argv[4:]
random.seed(seed)
seen = set()
for l in open(os.path.join(root, 'seeded', 'LOG.jsonl')):
    seen |= set(re.findall(r"[A-Za-z_0-9']+", json.loads(l).get('definition') or ''))
D = {}
for f in glob.glob(th + '/*.v'):
    s = open(f).read(); ds = set()
    for g in re.findall(r'From Verif Require (?:Import|Export) ([\w\s]+?)\.', s): ds |= set(g.split())
    D[os.path.basename(f)[:-2]] = ds
def order(start):
    aff = {start}; ch = True
    while ch:
        ch = False
        for n, ds in D.items():
            if n not in aff and ds & aff: aff.add(n); ch = True
    out = []
    def visit(n):
        if n in out: return
        for x in sorted(D[n]):
            if x in aff: visit(x)
        out.append(n)
    for n in sorted(aff, key=lambda n: (n[:3] != start[:3], n)): visit(n)
    return out
RULES = [(r' \+ ', ' - '), (r' - ', ' + '), (r' \* ', ' / '), (r' / ', ' * '), (r'<\?', '<=?'), (r'<=\?', '<?'), (r'Rlt_dec', 'Rle_dec'), (r'Rle_dec', 'Rlt_dec'), (r'&&', '||'), (r'\|\|', '&&'),
         (r'\btrue\b', 'false'), (r'\bfalse\b', 'true'), (r'\bnegb ', ' '), (r'\bfst\b', 'snd'), (r'\bsnd\b', 'fst'), (r'\brev ', ' '), (r'ValueError', 'TypeError'), (r'TypeError', 'ValueError'), (r'KeyError', 'ValueError'),
         (r'(?<![\w.])0(?![\w.])', '1'), (r'(?<![\w.])1(?![\w.])', '2'), (r'(?<![\w.])2(?![\w.])', '3'), (r'(?<![\w.])3(?![\w.])', '2'), (r'(?<![\w.])(\d+\.\d+)(?!\w)', r'(2 * \1)'), (r'S_ "([^"]*)"', r'S_ "\1~"'),
         (r'Nat\.ltb', 'Nat.leb'), (r'Nat\.leb', 'Nat.ltb'), (r'\bsin\b', 'cos'), (r'\bcos\b', 'sin'), (r'\bexp\b', 'ln'), (r'Rmax', 'Rmin'), (r'Rmin', 'Rmax'), (r'\^ 2', '^ 3'), (r'\^ 3', '^ 2'), (r'\bfirstn\b', 'skipn'), (r'\bskipn\b', 'firstn'),
         (r'\[\] => \[\]', None), (r'if ([^;]*?) then', r'if negb (\1) then'), (r'if (Rlt_dec|Rle_dec) (\S+) (\S+) then', r'if \1 \3 \2 then'), (r'\bhd\b', 'last'), (r'\blast\b', 'hd'), (r'existsb', 'forallb'), (r'forallb', 'existsb')]
muts = []
for p in sorted(glob.glob(th + '/*Model.v')):
    F = os.path.basename(p)
    if only and F[:-2] not in only: continue
    s = open(p).read()
    for mm in re.finditer(r"^(?:Definition|Fixpoint|Let) ([A-Za-z_0-9']+)([\s\S]*?)\.[ \t]*(?=\n|\(\*)", s, re.M):
        name = mm.group(1)
        if mode == 'untested' and name in seen: continue
        a, b = mm.start(2), mm.end(2); body = s[a:b]; k = body.find(':='); 
        if k < 0: continue
        cands = []
        for pat, rep in RULES:
            if rep is None: continue
            for h in re.finditer(pat, body[k:]):
                new = body[:k + h.start()] + h.expand(rep) + body[k + h.end():]
                cands.append((h.group(0), h.expand(rep), k + h.start(), s[:a] + new + s[b:]))
        random.shuffle(cands)
        for c in cands[:per]: muts.append((F, name, c))
random.shuffle(muts)
print(len(muts), 'mutants', flush=True)
def run(i, mu):
    F, name, (old, rep, pos, text) = mu
    w = f'/tmp/am/{os.getpid()}_{i}'; shutil.rmtree(w, ignore_errors=True); os.makedirs(w)
    for f in glob.glob(th + '/*.vo'): os.symlink(f, os.path.join(w, os.path.basename(f)))
    for f in glob.glob(th + '/*.v'): os.symlink(f, os.path.join(w, os.path.basename(f)))
    os.remove(os.path.join(w, F)); open(os.path.join(w, F), 'w').write(text)
    try:
        for n in order(F[:-2]):
            vo = os.path.join(w, n + '.vo')
            if os.path.lexists(vo): os.remove(vo)
            try: r = subprocess.run(['nice', 'coqc', '-q', '-Q', '.', 'Verif', '-w', 'none', n + '.v'], cwd=w, capture_output=True, text=True, timeout=400)
            except subprocess.TimeoutExpired: return 'timeout ' + n
            if r.returncode: return 'invalid' if n == F[:-2] else 'killed ' + n
        return 'SURVIVED'
    finally: shutil.rmtree(w, ignore_errors=True)
cnt = collections.Counter()
with ThreadPoolExecutor(3) as ex:
    js = [(mu, ex.submit(run, i, mu)) for i, mu in enumerate(muts)]
    for (F, name, (old, rep, pos, text)), j in js:
        r = j.result(); cnt[r.split()[0]] += 1
        s = open(os.path.join(th, F)).read(); 
        k = next((x for x in range(len(s)) if x >= len(text) or s[x] != text[x]), 0)
        print(r, F, name, repr(old), '->', repr(rep), '' if r[0] in 'ki' else '\n      ' + text[max(0, k - 120):k + 80].replace('\n', '\n      '), flush=True)
print(cnt)
