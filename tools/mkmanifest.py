"""Regenerates MANIFEST.json from the theorem names Cnn_... in rocq/theories/*Thms*.v
and the hand-written notes in tools/notes.json."""
import collections
import glob
import json
import os
import re

root = os.path.dirname(os.path.dirname(os.path.abspath(__file__)))
notes = json.load(open(os.path.join(root, 'tools', 'notes.json')))
thms = collections.OrderedDict()
for path in sorted(glob.glob(os.path.join(root, 'rocq', 'theories', '*Thms*.v'))):
  for m in re.finditer(r'^Theorem ((C\d\d)_\w+)', open(path).read(), re.M):
    thms.setdefault(m.group(2), []).append(m.group(1))
claims = []
for line in open(os.path.join(root, 'properties.jsonl')):
  pid = json.loads(line)['id']
  note = notes.get(pid, {})
  if pid in thms:
    status = note.get('status', 'proved')
    claims.append({'property': pid, 'status': status, 'theorems': thms[pid],
                   'note': note.get('note', '')})
  elif note.get('status') == 'not_applicable':
    claims.append({'property': pid, 'status': 'not_applicable', 'theorems': [],
                   'note': note['note']})
json.dump({'claims': claims}, open(os.path.join(root, 'MANIFEST.json'), 'w'), indent=1)
print(len(claims), 'claims;', sum(len(c['theorems']) for c in claims), 'theorems')
