#!/usr/bin/env python3
"""Append the results of automutate.py to seeded/LOG.jsonl.  usage: mklog_auto.py LOG.jsonl OUT.jsonl...

Edits that no longer type-check are left out.  tightened.json holds the notes on survivors."""
import json, os, sys
here = os.path.dirname(os.path.abspath(__file__))
tight = json.load(open(here + '/tightened.json'))
done = {}
for p in sys.argv[2:]:
    for l in open(p):
        d = json.loads(l)
        if d['result'] != 'invalid':
            done[d['id']] = d
with open(sys.argv[1], 'a') as f:
    for i, d in done.items():
        t = tight.get(i, {})
        f.write(json.dumps({
            'id': i, 'definition': d['file'] + '.v: ' + d['definition'], 'edit': d['edit'],
            'claim_broken': 'generated edit: any theorem about ' + d['definition'], 'properties': [],
            'theorems_failed': d['failed'], 'theorems_still_proved': [],
            'survived': [d['definition']] if d['result'] == 'SURVIVED' else [],
            'theorems_tightened': t.get('tightened', []), 'note': t.get('note', '')}, ensure_ascii=False) + '\n')
