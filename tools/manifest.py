#!/usr/bin/env python3
"""Regenerates MANIFEST.json from the theorem names in rocq/theories/Props (C01_... belongs to C01)
and the notes in tools/notes.json."""
import re, glob, json, os
root = os.path.dirname(os.path.dirname(os.path.abspath(__file__)))
notes = json.load(open(root + '/tools/notes.json'))
thms = {}
for f in sorted(glob.glob(root + '/rocq/theories/Props/*.v')):
    for m in re.finditer(r'^Theorem (C\d+)_(\w+)', open(f).read(), re.M):
        thms.setdefault(m.group(1), []).append(m.group(1) + '_' + m.group(2))
claims = []
for l in open(root + '/properties.jsonl'):
    p = json.loads(l); i = p['id']; t = thms.get(i, [])
    if not t and i not in notes.get('na', {}): continue
    st = 'partial' if any(x.endswith('_partial') for x in t) or i in notes.get('partial', {}) else 'proved'
    if not t: st = 'not_applicable'
    note = notes.get('partial', {}).get(i) or notes.get('na', {}).get(i) or notes.get('notes', {}).get(i, '')
    claims.append({'property': i, 'status': st, 'theorems': t, 'note': note})
json.dump({'claims': claims}, open(root + '/MANIFEST.json', 'w'), indent=1)
print(len(claims), 'claims', sum(len(c['theorems']) for c in claims), 'theorems')
