#!/usr/bin/env python3
"""Regenerate MANIFEST.json: theorem names are collected from the Properties_*.v
files (Cnn_* Theorem/Lemma names); status and notes come from NOTES below."""
import glob, json, os, re
root = os.path.join(os.path.dirname(os.path.abspath(__file__)), '..')
NOTES = json.load(open(os.path.join(root, 'tools', 'notes.json')))
thms = {}
for f in sorted(glob.glob(os.path.join(root, 'rocq/theories/Properties_*.v'))):
    src = re.sub(r'\(\*.*?\*\)', '', open(f).read(), flags=re.S)
    for m in re.finditer(r'^(?:Theorem|Lemma|Corollary)\s+(C(\d\d)_\w+)', src, re.M):
        thms.setdefault('C' + m.group(2), []).append(m.group(1))
claims = []
for line in open(os.path.join(root, 'properties.jsonl')):
    pid = json.loads(line)['id']
    if pid not in thms:
        continue
    n = NOTES.get(pid, {})
    claims.append({'property': pid, 'status': n.get('status', 'proved'),
                   'theorems': thms[pid], 'note': n.get('note', '')})
json.dump({'claims': claims}, open(os.path.join(root, 'MANIFEST.json'), 'w'), indent=1, ensure_ascii=False)
print(len(claims), 'claims')
