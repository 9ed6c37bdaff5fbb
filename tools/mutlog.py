#!/usr/bin/env python3
"""usage: mutlog.py MUTANTS.json OUT.jsonl [TIGHTENED.json]
Append one line per finished mutant of OUT.jsonl to seeded/LOG.jsonl (mutants
already logged are skipped).  "theorems_failed" are the manifest theorems that
no longer check (their proof, or one they rest on, breaks); "proofs_broken" are
the proofs that break themselves."""
import json, os, sys
root = os.path.join(os.path.dirname(os.path.abspath(__file__)), '..')
log = os.path.join(root, 'seeded', 'LOG.jsonl')
seen = {json.loads(l).get('id') for l in open(log) if l.strip()}
ms = {m['id']: m for m in json.load(open(sys.argv[1]))}
tight = json.load(open(sys.argv[3])) if len(sys.argv) > 3 else {}
with open(log, 'a') as f:
    for l in open(sys.argv[2]):
        d = json.loads(l)
        if d['id'] in seen or d['stop']: continue
        m = ms[d['id']]; t = tight.get(d['id'], {})
        r = {'id': d['id'], 'definition': m['file'].split('/')[-1] + ': ' + m['definition'], 'edit': m['edit'],
             'claim_broken': m['claim'], 'theorems_failed': d['failed'],
             'proofs_broken': sorted({a[0].split('/')[-1][:-2] + '.' + a[1] for a in d['admitted']}),
             'theorems_tightened': t.get('tightened', [])}
        if 'note' in t: r['note'] = t['note']
        f.write(json.dumps(r, ensure_ascii=False) + '\n')
