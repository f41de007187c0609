#!/usr/bin/env python3
"""Rebuild MANIFEST.json from the theorem names in rocq/theories/P*.v and tools/notes.json.

A property is `partial` when notes.json says so (with the reason), `proved` when at least one
theorem is present, and `partial` with no theorems while work is pending."""
import json, re, glob, os
root = os.path.dirname(os.path.dirname(os.path.abspath(__file__)))
props = [json.loads(l) for l in open(root + '/properties.jsonl')]
notes = json.load(open(root + '/tools/notes.json'))
thms = {}
for f in sorted(glob.glob(root + '/rocq/theories/P*.v')):
    for m in re.finditer(r'^Theorem (C\d+)(_\w+)', open(f).read(), re.M):
        thms.setdefault(m.group(1), []).append(m.group(1) + m.group(2))
claims = []
for p in props:
    i = p['id']
    n = notes.get(i, {})
    t = thms.get(i, [])
    st = n.get('status') or ('proved' if t else 'partial')
    claims.append(dict(property=i, status=st, theorems=t, note=n.get('note', '' if t else 'not yet proved')))
json.dump({'claims': claims}, open(root + '/MANIFEST.json', 'w'), indent=1)
print({s: sum(c['status'] == s for c in claims) for s in ('proved', 'partial', 'not_applicable')},
      sum(len(c['theorems']) for c in claims), 'theorems;', 'unknown ids:', sorted(set(thms) - {p['id'] for p in props}))
