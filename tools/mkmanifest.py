#!/usr/bin/env python3
"""Regenerate MANIFEST.json: theorem names are collected from rocq/theories/Props/*.v by their
Cxx_ prefix; status and notes are in the table below."""
import re, glob, json, os
root = os.path.dirname(os.path.dirname(os.path.abspath(__file__)))
thms = {}
for f in sorted(glob.glob(root + '/rocq/theories/Props/*.v')):
    for m in re.finditer(r'^Theorem (C\d\d)_(\w+)', open(f).read(), re.M):
        thms.setdefault(m.group(1), []).append(m.group(1) + '_' + m.group(2))
notes = json.load(open(root + '/tools/status.json'))
claims = []
for line in open(root + '/properties.jsonl'):
    pid = json.loads(line)['id']
    st, note = notes.get(pid, ["", ""])
    if pid in thms:
        if not st:
            st = 'partial' if any(t.endswith('_partial') or t.endswith('_refuted') for t in thms[pid]) else 'proved'
        claims.append({"property": pid, "status": st, "theorems": thms[pid], "note": note})
    elif st == 'not_applicable':
        claims.append({"property": pid, "status": st, "theorems": [], "note": note})
with open(root + '/MANIFEST.json', 'w') as o:
    o.write('{"claims": [\n' + ',\n'.join(' ' + json.dumps(c) for c in claims) + '\n]}\n')
print(len(claims), 'claims')
