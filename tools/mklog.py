#!/usr/bin/env python3
"""Write seeded/LOG.jsonl from the output of mutate.py.  usage: mklog.py OUT.jsonl LOG.jsonl

tightened.json maps the id of a mutant to the theorems that were strengthened or added because of it."""
import json, os, sys
here = os.path.dirname(os.path.abspath(__file__))
tight = json.load(open(here + '/tightened.json'))
done = {}
for l in open(sys.argv[1]):
    d = json.loads(l)
    if 'error' not in d or d['id'] not in done:
        done[d['id']] = d
with open(sys.argv[2], 'w') as f:
    for i, d in done.items():
        if 'error' in d:
            continue
        t = tight.get(i, {})
        f.write(json.dumps({
            'id': i, 'definition': d['file'] + '.v: ' + d['definition'], 'edit': d['old'] + '  ->  ' + d['new'],
            'claim_broken': d['claim'], 'properties': d['props'], 'theorems_failed': d['theorems_failed'],
            'theorems_still_proved': d['theorems_held'], 'survived': d['survived'],
            'theorems_tightened': t.get('tightened', []), 'note': t.get('note', '')}, ensure_ascii=False) + '\n')
