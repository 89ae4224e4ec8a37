#!/usr/bin/env python3
"""Write MANIFEST.json: collect the theorems named Cnn_* from the *_Props.v files."""
import glob, json, os, re
root = os.path.dirname(os.path.dirname(os.path.abspath(__file__)))
thms = {}
for f in sorted(glob.glob(root + '/rocq/theories/*_Props.v')):
    for m in re.finditer(r'^Theorem (C\d\d)(_\w+)', open(f).read(), re.M):
        thms.setdefault(m.group(1), []).append(m.group(1) + m.group(2))
notes = json.load(open(root + '/tools/notes.json'))
ids = [json.loads(l)['id'] for l in open(root + '/properties.jsonl') if l.strip()]
claims = []
for i in ids:
    if i not in thms and i not in notes:
        continue
    n = notes.get(i, {})
    status = n.get('status')
    if status is None:
        status = 'partial' if any(t.endswith('_partial') for t in thms[i]) else 'proved'
    claims.append({'property': i, 'status': status, 'theorems': thms.get(i, []), 'note': n.get('note', '')})
json.dump({'claims': claims}, open(root + '/MANIFEST.json', 'w'), indent=1)
print(len(claims), 'claims,', sum(len(c['theorems']) for c in claims), 'theorems; missing:', [i for i in ids if i not in thms])
