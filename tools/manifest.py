#!/usr/bin/env python3
"""Regenerate MANIFEST.json from the property files and notes.json."""
import re, json, glob, os
root = os.path.dirname(os.path.dirname(os.path.abspath(__file__)))
props = [json.loads(l)['id'] for l in open(f'{root}/properties.jsonl')]
notes = json.load(open(f'{root}/tools/notes.json'))
thms = {p: [] for p in props}
for f in sorted(glob.glob(f'{root}/rocq/theories/P_*.v')):
    for m in re.finditer(r'^(?:Theorem|Lemma|Corollary)\s+((C\d+)_\w+)', open(f).read(), re.M):
        thms[m.group(2)].append(m.group(1))
claims = []
for p in props:
    n = notes.get(p, {})
    t = thms[p]
    if not t and n.get('status') != 'not_applicable':
        continue
    st = n.get('status') or ('partial' if any(x.endswith('_partial') or x.endswith('_refuted') for x in t) else 'proved')
    claims.append({'property': p, 'status': st, 'theorems': t, 'note': n.get('note', '')})
json.dump({'claims': claims}, open(f'{root}/MANIFEST.json', 'w'), indent=1)
print(len(claims), 'claims', sum(len(c['theorems']) for c in claims), 'theorems; missing:', [p for p in props if not thms[p]])
