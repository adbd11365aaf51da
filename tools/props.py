"""Source of ../properties.jsonl: run `python3 tools/props.py` in /verif to regenerate it."""
import json, os
P = []
def p(id, title, statement, quantifier, why, anchors):
    P.append(dict(id=id, title=title, statement=statement, quantifier=quantifier,
                  why_tests_cant=why, anchors=anchors))
here = os.path.dirname(os.path.abspath(__file__))
for f in sorted(os.listdir(here)):
    if f.startswith('props_') and f.endswith('.py'):
        exec(open(os.path.join(here, f)).read())
P.sort(key=lambda d: int(d['id'][1:]))
assert len({d['id'] for d in P}) == len(P)
with open(os.path.join(here, '..', 'properties.jsonl'), 'w') as fh:
    for d in P:
        fh.write(json.dumps(d, ensure_ascii=False) + '\n')
print(len(P))
