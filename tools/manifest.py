#!/usr/bin/env python3
"""Writes MANIFEST.json: theorem names are collected from the Props*.v files by
their C<nn>_ prefix; status and notes are given here."""
import glob, json, os, re
here = os.path.dirname(os.path.abspath(__file__))
names = {}
for f in sorted(glob.glob(here + '/../rocq/theories/Props*.v')):
    for m in re.finditer(r'^Theorem (C\d\d)(\w*)', open(f).read(), re.M):
        names.setdefault(m.group(1), []).append(m.group(1) + m.group(2))
NOTES = json.load(open(here + '/notes.json'))
claims = []
for line in open(here + '/../properties.jsonl'):
    pid = json.loads(line)['id']
    n = NOTES.get(pid, {})
    ths = names.get(pid, [])
    if not ths and n.get('status') != 'not_applicable':
        continue
    status = n.get('status') or ('partial' if any(t.endswith(('_partial', '_refuted')) for t in ths) else 'proved')
    claims.append({'property': pid, 'status': status, 'theorems': ths, 'note': n.get('note', '')})
json.dump({'claims': claims}, open(here + '/../MANIFEST.json', 'w'), indent=1)
print(len(claims), 'claims', sum(c['status'] == 'proved' for c in claims), 'proved')
