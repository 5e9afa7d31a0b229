#!/usr/bin/env python3
"""Collect the theorems Cnn_* of rocq/theories/Prop*.v into MANIFEST.json; statuses and notes are in tools/status.json."""
import json, re, glob, os
root = os.path.dirname(os.path.dirname(os.path.abspath(__file__)))
status = json.load(open(root + '/tools/status.json'))
thms = {}
for f in sorted(glob.glob(root + '/rocq/theories/Prop*.v')):
    for m in re.finditer(r'^Theorem (C(\d\d\d?)_\w+)', open(f).read(), re.M):
        thms.setdefault('C' + m.group(2), []).append(m.group(1))
claims = []
for line in open(root + '/properties.jsonl'):
    pid = json.loads(line)['id']
    if pid in status:
        st, note = status[pid]
        claims.append({"property": pid, "status": st, "theorems": thms.get(pid, []), "note": note})
    elif pid in thms:
        print('no status for', pid)
json.dump({"claims": claims}, open(root + '/MANIFEST.json', 'w'), indent=1)
print(len(claims), 'claims', sum(len(c['theorems']) for c in claims), 'theorems')
