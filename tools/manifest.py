#!/usr/bin/env python3
"""Writes MANIFEST.json: claims per property, theorem names collected from Prop_*.v."""
import json, re, glob, os
root = os.path.dirname(os.path.dirname(os.path.abspath(__file__)))
thms = {}
for f in sorted(glob.glob(root + '/rocq/theories/Prop_*.v')):
    for name in re.findall(r'^Theorem\s+(C\d\d\w*)', open(f).read(), re.M):
        thms.setdefault(name[:3], []).append(name)
notes = json.load(open(root + '/tools/notes.json'))
claims = []
for line in open(root + '/properties.jsonl'):
    if not line.strip():
        continue
    pid = json.loads(line)['id']
    names = thms.get(pid, [])
    status, note = notes.get(pid, ['partial', 'No theorem yet.'])
    claims.append({'property': pid, 'status': status, 'theorems': names, 'note': note})
json.dump({'claims': claims}, open(root + '/MANIFEST.json', 'w'), indent=1)
