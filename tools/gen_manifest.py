#!/usr/bin/env python3
"""MANIFEST.json: the theorems of each property are the ones named after it in the Coq files; the
status and the note come from the table below."""
import json, re, glob, os
root = os.path.join(os.path.dirname(__file__), '..')
props = [json.loads(l)['id'] for l in open(os.path.join(root, 'properties.jsonl'))]
NOTES = {}
exec(open(os.path.join(root, 'tools', 'manifest_notes.py')).read())
thms = {}
for f in sorted(glob.glob(os.path.join(root, 'rocq/theories/*.v'))):
    for m in re.finditer(r'^\s*Theorem\s+((C\d\d\d?)_\w+)', open(f).read(), re.M):
        thms.setdefault(m.group(2), []).append(m.group(1))
claims = []
for p in props:
    if p not in thms: continue
    status, note = NOTES.get(p, ('proved', ''))
    claims.append({'property': p, 'status': status, 'theorems': thms[p], 'note': note})
extra = set(thms) - set(props)
assert not extra, extra
json.dump({'claims': claims}, open(os.path.join(root, 'MANIFEST.json'), 'w'), indent=1)
print(len(claims), 'claims', sum(len(c['theorems']) for c in claims), 'theorems', 'missing:', [p for p in props if p not in thms])
