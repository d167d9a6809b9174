#!/usr/bin/env python3
"""Regenerates MANIFEST.json: theorem names come from rocq/theories/Props*.v, status and notes from the table below."""
import glob, json, os, re
ROOT = os.path.dirname(os.path.dirname(os.path.abspath(__file__)))
NOTES = json.load(open(os.path.join(ROOT, 'tools', 'notes.json')))
thms = {}
for f in sorted(glob.glob(os.path.join(ROOT, 'rocq/theories/Props*.v'))):
    for m in re.finditer(r'^ *Theorem\s+((C\d+)_\w+)', open(f).read(), re.M):
        thms.setdefault(m.group(2), []).append(m.group(1))
claims = []
for line in open(os.path.join(ROOT, 'properties.jsonl')):
    pid = json.loads(line)['id']
    if pid in thms:
        st, note = NOTES.get(pid, ['proved', ''])
        claims.append({'property': pid, 'status': st, 'theorems': thms[pid], 'note': note})
json.dump({'claims': claims}, open(os.path.join(ROOT, 'MANIFEST.json'), 'w'), indent=1)
print(len(claims), 'claims,', sum(len(c['theorems']) for c in claims), 'theorems')
