#!/usr/bin/env python3
"""Rebuild MANIFEST.json from the theorem names in rocq/theories/Properties*.v and status.json."""
import glob, json, re
names = {}
for f in sorted(glob.glob('/verif/rocq/theories/Properties*.v')):
    for m in re.finditer(r'^ *Theorem (C(\d+)_\w+)', open(f).read(), re.M):
        names.setdefault('C%02d' % int(m.group(2)), []).append(m.group(1))
status = json.load(open('/verif/tools/status.json'))
claims = []
for line in open('/verif/properties.jsonl'):
    pid = json.loads(line)['id']
    th = names.get(pid, [])
    st = status.get(pid, {})
    default = 'partial' if any(t.endswith(('_refuted', '_partial')) for t in th) else ('proved' if th else None)
    s = st.get('status', default)
    if s is None:
        continue
    claims.append({'property': pid, 'status': s, 'theorems': th, 'note': st.get('note', '')})
json.dump({'claims': claims}, open('/verif/MANIFEST.json', 'w'), indent=1)
print(len(claims), 'claims;', sum(len(c['theorems']) for c in claims), 'theorems;',
      [c['property'] for c in claims if c['status'] == 'partial'], 'partial')
