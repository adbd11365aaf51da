"""Regenerates rocq/_CoqProject (file list) and MANIFEST.json from tools/claims.py."""
import json, os, re, subprocess
here = os.path.dirname(os.path.abspath(__file__)); root = os.path.join(here, '..')
th = os.path.join(root, 'rocq', 'theories')
files = sorted(f for f in os.listdir(th) if f.endswith('.v'))
with open(os.path.join(root, 'rocq', '_CoqProject'), 'w') as fh:
    fh.write('-Q theories Verif\n' + ''.join(f'theories/{f}\n' for f in files))
claims = {}
def c(prop, note='', status='proved'):
    claims[prop] = (status, note)
exec(open(os.path.join(here, 'claims.py')).read())
thms = {}
for f in files:
    if not f.endswith('Props.v'): continue
    for m in re.finditer(r'^\s*Theorem\s+((C\d+)_\w+)', open(os.path.join(th, f)).read(), re.M):
        thms.setdefault(m.group(2), []).append(m.group(1))
props = [json.loads(l)['id'] for l in open(os.path.join(root, 'properties.jsonl'))]
out = []
for p in props:
    t = thms.get(p, [])
    st, note = claims.get(p, ('partial' if t else 'partial', 'not yet proved' if not t else ''))
    if st != 'not_applicable' and not t: st, note = 'partial', 'no theorem yet'; print('MISSING', p)
    if p not in claims: print('no claim entry', p)
    out.append({'property': p, 'status': st, 'theorems': t, 'note': note})
json.dump({'claims': [o for o in out if o['theorems'] or o['status']=='not_applicable']}, open(os.path.join(root, 'MANIFEST.json'), 'w'), indent=1, ensure_ascii=False)
for p in thms:
    if p not in props: print('theorem without property', p)
