#!/usr/bin/env python3
"""Regenerates MANIFEST.json from the theorem names in rocq/theories/T_*.v.

Theorem names start with the property id.  A property is `partial` when its full
statement is not proved (some theorem of it is called `_partial`).
"""
import glob, json, os, re
here = os.path.dirname(os.path.dirname(os.path.abspath(__file__)))
notes = json.load(open(os.path.join(here, 'scripts', 'notes.json')))
th = {}
for f in sorted(glob.glob(os.path.join(here, 'rocq/theories/T_*.v'))):
    for m in re.finditer(r'^Theorem\s+((C\d+)_\w+)', open(f).read(), re.M):
        th.setdefault(m.group(2), []).append(m.group(1))
claims = []
for line in open(os.path.join(here, 'properties.jsonl')):
    line = line.strip()
    if not line:
        continue
    p = json.loads(line)['id']
    names = th.get(p, [])
    if not names:
        continue
    full = [n for n in names if not n.endswith('_partial') and not n.endswith('_refuted')]
    partial = any(n.endswith('_partial') for n in names) or not full
    claims.append({'property': p, 'status': 'partial' if partial else 'proved',
                   'theorems': names, 'note': notes.get(p, '')})
json.dump({'claims': claims}, open(os.path.join(here, 'MANIFEST.json'), 'w'), indent=1, ensure_ascii=False)
open(os.path.join(here, 'MANIFEST.json'), 'a').write('\n')
print(len(claims), 'claims', sum(c['status'] == 'proved' for c in claims), 'proved')
