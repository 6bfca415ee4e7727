#!/usr/bin/env python3
"""Write MANIFEST.json: statuses and notes from tools/status.json, theorem names from Props*.v."""
import re, glob, json, os
B = os.path.join(os.path.dirname(os.path.abspath(__file__)), '..')
thms = {}
for f in sorted(glob.glob(B + '/rocq/theories/Props*.v')):
    for n in re.findall(r'(?m)^Theorem (\w+)', open(f).read()):
        thms.setdefault(n.split('_')[0], []).append(n)
status = json.load(open(B + '/tools/status.json'))
claims = []
for l in open(B + '/properties.jsonl'):
    p = json.loads(l)['id']
    st, note = status.get(p, ['partial', 'not modelled yet'])
    if p not in thms and st != 'not_applicable': st, note = 'partial', 'no theorem yet: ' + note
    claims.append({'property': p, 'status': st, 'theorems': thms.get(p, []), 'note': note})
json.dump({'claims': claims}, open(B + '/MANIFEST.json', 'w'), indent=1)
