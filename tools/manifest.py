#!/usr/bin/env python3
"""Write MANIFEST.json from the theorems in rocq/theories/Prop*.v and the notes below.

A claim lists every theorem whose name starts with the property's id.  Status is
"partial" when a theorem name ends in _partial (or the note table says so)."""
import glob, json, os, re
here = os.path.dirname(os.path.abspath(__file__))
root = os.path.dirname(here)
theorems = {}
for f in sorted(glob.glob(os.path.join(root, 'rocq/theories/Prop*.v'))):
    for m in re.finditer(r'^Theorem (C\d\d+)(\w*)', open(f).read(), re.M):
        theorems.setdefault(m.group(1), []).append(m.group(1) + m.group(2))
notes = json.load(open(os.path.join(here, 'notes.json')))
claims = []
for line in open(os.path.join(root, 'properties.jsonl')):
    pid = json.loads(line)['id']
    note = notes.get(pid, '')
    ths = theorems.get(pid, [])
    if not ths:
        claims.append({'property': pid, 'status': 'partial', 'theorems': [],
                       'note': note or 'in progress: no theorem yet'})
        continue
    partial = any(t.endswith('_partial') for t in ths) or note.startswith('Partial:')
    claims.append({'property': pid, 'status': 'partial' if partial else 'proved',
                   'theorems': ths, 'note': note})
json.dump({'claims': claims}, open(os.path.join(root, 'MANIFEST.json'), 'w'), indent=1)
print(sum(1 for c in claims if c['theorems']), 'of', len(claims), 'with theorems')
