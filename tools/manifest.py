#!/usr/bin/env python3
"""Regenerate MANIFEST.json from the theorem names Cxx_... found in rocq/theories/*Props.v and the notes below."""
import json, re, glob, os
root = os.path.dirname(os.path.dirname(os.path.abspath(__file__)))
thms = {}
for f in sorted(glob.glob(root + '/rocq/theories/*Props.v')):
    for m in re.finditer(r'^\s*(?:Theorem|Corollary)\s+(C\d\d)(_\w+)', open(f).read(), re.M):
        thms.setdefault(m.group(1), []).append(m.group(1) + m.group(2))
notes = json.load(open(root + '/tools/notes.json'))
claims = []
for line in open(root + '/properties.jsonl'):
    pid = json.loads(line)['id']
    n = notes.get(pid, {})
    t = thms.get(pid, [])
    status = n.get('status') or ('proved' if t else 'partial')
    note = n.get('note', '')
    if not t and not n:
        note = 'no theorem yet; planned, see DESIGN.md'
    claims.append({'property': pid, 'status': status, 'theorems': t, 'note': note})
json.dump({'claims': claims}, open(root + '/MANIFEST.json', 'w'), indent=1, ensure_ascii=False)
open(root + '/MANIFEST.json', 'a').write('\n')
print({s: sum(c['status'] == s for c in claims) for s in ('proved', 'partial', 'not_applicable')},
      'without theorems:', [c['property'] for c in claims if not c['theorems']])
