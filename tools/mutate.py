"""Seeded-bug testing.  Usage: python3 tools/mutate.py seeded/<list>.py [only-index ...]
A list file contains calls  m('XModel.v', 'definition', 'old text', 'new text', 'claim broken').
Each mutant is built in a scratch copy (/tmp/mut); every proof that fails there is recorded and
replaced by Admitted (in the scratch copy only) so that all broken theorems are found; theorems
resting on a broken lemma count as failed.  One JSON line per mutant is appended to
seeded/LOG.jsonl."""
import sys, os, re, json, shutil, subprocess, glob
from concurrent.futures import ThreadPoolExecutor
root = os.path.abspath(os.path.join(os.path.dirname(__file__), '..'))
th = os.path.join(root, 'rocq', 'theories')
M = []
def m(f, d, old, new, claim, tightened=(), expect=None):
    M.append(dict(file=f, definition=d, old=old, new=new, claim=claim, tightened=list(tightened), expect=expect))
exec(open(sys.argv[1]).read())
only = [int(x) for x in sys.argv[2:]]

def deps():
    d = {}
    for f in glob.glob(th + '/*.v'):
        n = os.path.basename(f)[:-2]
        s = open(f).read()
        ds = set()
        for g in re.findall(r'From Verif Require (?:Import|Export) ([\w\s]+?)\.', s): ds |= set(g.split())
        d[n] = ds
    return d
D = deps()
def order(start):
    aff = {start}
    ch = True
    while ch:
        ch = False
        for n, ds in D.items():
            if n not in aff and ds & aff: aff.add(n); ch = True
    out = []
    def visit(n):
        if n in out: return
        for x in sorted(D[n]):
            if x in aff: visit(x)
        if n in aff: out.append(n)
    for n in sorted(aff): visit(n)
    return out
HEAD = re.compile(r'^\s*(?:#\[[^\]]*\]\s*)?(Lemma|Theorem|Corollary|Example|Fact|Remark|Instance|Definition|Fixpoint|Program Definition)\s+([\w\']+)', re.M)
def run(i, mu):
    w = f'/tmp/mut/{os.path.basename(sys.argv[1])[:-3]}_{i}'
    shutil.rmtree(w, ignore_errors=True); os.makedirs(w)
    for f in glob.glob(th + '/*.v') + glob.glob(th + '/*.vo'): shutil.copy2(f, w)
    p = os.path.join(w, mu['file']); s = open(p).read()
    if s.count(mu['old']) != 1: return mu, 'EDIT MATCHES %d TIMES' % s.count(mu['old']), [], {}
    s = s.replace(mu['old'], mu['new']); open(p, 'w').write(s)
    broken = {}; note = ''; outs = {}
    for f in glob.glob(w + '/*Props.v'):   # print the assumptions of every theorem
        s = open(f).read(); have = set(re.findall(r'^Print Assumptions (\w+)', s, re.M))
        s += '\n' + ''.join('Print Assumptions %s.\n' % t for t in re.findall(r'^Theorem (C\d+_\w+)', s, re.M) if t not in have)
        open(f, 'w').write(s)
    for n in order(mu['file'][:-2]):
        f = os.path.join(w, n + '.v')
        for _ in range(80):
            try:
                r = subprocess.run(['coqc', '-Q', '.', 'Verif', n + '.v'], cwd=w, capture_output=True, text=True, timeout=240)
            except subprocess.TimeoutExpired:
                note = f'timeout in {n}'; break
            if r.returncode == 0: outs[n] = r.stdout; break
            mt = re.findall(r'File "[^"]*", line (\d+)', r.stderr + r.stdout)
            if not mt: note = 'no location: ' + r.stderr[-300:]; break
            ln = int(mt[-1]); src = open(f).read(); lines = src.split('\n')
            pos = len('\n'.join(lines[:ln - 1]))
            heads = [h for h in HEAD.finditer(src) if h.start() <= pos + 1]
            h = heads[-1]; kind, name = h.group(1), h.group(2)
            pm = re.search(r'\bProof\b[^.]*\.', src[h.start():])
            if not pm: note = f'{n}:{name} statement/definition no longer typechecks'; broken[name] = n; break
            st = h.start() + pm.start()
            em = re.search(r'\b(Qed|Defined)\.', src[st:])
            if st > pos + len(lines[ln - 1]) + 1: 
                note = f'{n}:{name} statement no longer typechecks'; broken[name] = n; break
            broken[name] = n
            src = src[:st] + 'Proof. Admitted.' + src[st + em.end():]
            open(f, 'w').write(src)
        if note: break
    # theorems resting on admitted lemmas
    failed = set(k for k, v in broken.items())
    for n, out in outs.items():
        if not n.endswith('Props'): continue
        names = re.findall(r'^Print Assumptions (\w+)', open(os.path.join(w, n + '.v')).read(), re.M)
        chunks = re.split(r'^(?=Axioms:|Closed under the global context)', out, flags=re.M)[1:]
        for nm, c in zip(names, chunks):
            if any(re.search(r'\b' + re.escape(b) + r'\b', c) for b in broken): failed.add(nm)
    shutil.rmtree(w, ignore_errors=True)
    return mu, note, sorted(x for x in failed if re.match(r'C\d+_', x)), broken
with ThreadPoolExecutor(4) as ex:
    js = [ex.submit(run, i, mu) for i, mu in enumerate(M) if not only or i in only]
    for j in js:
        mu, note, failed, broken = j.result()
        ids = set(re.findall(r'C\d+', mu['claim']))
        hit = any(f.split('_')[0] in ids and '_case' not in f for f in failed) or bool(note and ('typecheck' in note or 'timeout' in note))
        print(('ok   ' if hit else 'WEAK '), mu['definition'], '|', mu['claim'][:70], '|', failed, note, '' if hit else broken, flush=True)
        if note.startswith('EDIT'): continue
        rec = dict(definition=mu['file'] + ':' + mu['definition'], edit=f"{mu['old']}  ==>  {mu['new']}", claim_broken=mu['claim'], theorems_failed=failed, theorems_tightened=mu['tightened'])
        if note: rec['note'] = note
        if not hit: rec['note'] = (rec.get('note', '') + ' no theorem of the broken claim failed').strip()
        open(os.path.join(root, 'seeded', 'LOG.jsonl'), 'a').write(json.dumps(rec, ensure_ascii=False) + '\n')
