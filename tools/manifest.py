#!/usr/bin/env python3
"""Write MANIFEST.json: statuses and notes here, theorem names read from the
Props*.v files by their Cnn_ prefix."""
import glob, json, re
names = {}
for f in sorted(glob.glob('/verif/rocq/theories/Props*.v')):
    for m in re.finditer(r'^Theorem (C\d\d)(_\w+)', open(f).read(), re.M):
        names.setdefault(m.group(1), []).append(m.group(1) + m.group(2))
S = {}
exec(open('/verif/tools/status.py').read())
claims = []
for l in open('/verif/properties.jsonl'):
    pid = json.loads(l)['id']
    st, note = S.get(pid, ('partial', 'not yet modelled'))
    claims.append({'property': pid, 'status': st, 'theorems': names.get(pid, []), 'note': note})
json.dump({'claims': claims}, open('/verif/MANIFEST.json', 'w'), indent=1)
for c in claims:
    if not c['theorems']:
        print('no theorem:', c['property'])
