#!/usr/bin/env python3
"""Regenerate MANIFEST.json from the theorems named C<nn>_* in Prop*.v."""
import json, re, glob, os
root = os.path.dirname(os.path.dirname(os.path.abspath(__file__)))
notes = json.load(open(os.path.join(root, 'tools', 'notes.json')))
thms = {}
for f in sorted(glob.glob(os.path.join(root, 'rocq/theories/Prop*.v'))):
    for m in re.finditer(r'^ *Theorem (C\d\d)(_\w+)', open(f).read(), re.M):
        thms.setdefault(m.group(1), []).append(m.group(1) + m.group(2))
claims = []
for line in open(os.path.join(root, 'properties.jsonl')):
    i = json.loads(line)['id']
    n = notes.get(i, {})
    ts = thms.get(i, [])
    st = n.get('status') or ('partial' if not ts or any(t.endswith(('_partial', '_refuted')) for t in ts) else 'proved')
    if not ts and st != 'not_applicable':
        st = 'partial'
    claims.append({'property': i, 'status': st, 'theorems': ts,
                   'note': n.get('note', '' if ts else 'not modelled yet')})
json.dump({'claims': claims}, open(os.path.join(root, 'MANIFEST.json'), 'w'), indent=1)
print({s: sum(c['status'] == s for c in claims) for s in ('proved', 'partial', 'not_applicable')})
