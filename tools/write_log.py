#!/usr/bin/env python3
"""Write seeded/LOG.jsonl from the results of mutate.py (a file of JSON lines).

usage: write_log.py RESULTS.jsonl"""
import json, os, sys
R = os.path.dirname(os.path.dirname(os.path.abspath(__file__)))
muts = {m['name']: m for m in json.load(open(R + '/seeded/mutations.json'))}
seen = set(); out = []
for l in open(sys.argv[1]):
    r = json.loads(l); m = muts.get(r['name'])
    if not m or 'invalid' in r or r['name'] in seen: continue
    seen.add(r['name'])
    out.append({'name': r['name'], 'definition': m['file'] + (': ' + m['definition'] if 'definition' in m else ''),
                'edit': {'old': m['old'], 'new': m['new']}, 'claim': m['claim'],
                'theorems_failed': r['failed'], 'lemmas_broken': r['broken'], 'theorems_tightened': m.get('tightened', []),
                **({'note': m['note']} if 'note' in m else {})})
# The edits of automutate.py are kept with their results.
out += [json.loads(l) for l in open(R + '/seeded/auto.jsonl')]
with open(R + '/seeded/LOG.jsonl', 'w') as f:
    for o in out: f.write(json.dumps(o) + '\n')
print(len(out), 'entries;', sum(1 for o in out if not o['theorems_failed']), 'without a failing theorem')
