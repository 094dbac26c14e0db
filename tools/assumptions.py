"""Runs Print Assumptions on every property theorem, in a scratch directory, and
writes ASSUMPTIONS.md.  The theories must have been built."""
import glob
import os
import re
import subprocess
import sys
import tempfile

root = os.path.dirname(os.path.dirname(os.path.abspath(__file__)))
theories = os.path.join(root, 'rocq', 'theories')
rows = []
with tempfile.TemporaryDirectory() as tmp:
  for path in sorted(glob.glob(os.path.join(theories, '*Thms*.v'))):
    name = os.path.basename(path)[:-2]
    thms = re.findall(r'^Theorem (C\d\d_\w+)', open(path).read(), re.M)
    scratch = os.path.join(tmp, 'A_%s.v' % name)
    with open(scratch, 'w') as f:
      f.write('From Verif Require %s.\n' % name)
      for t in thms:
        f.write('Print Assumptions Verif.%s.%s.\n' % (name, t))
    out = subprocess.run(['coqc', '-Q', theories, 'Verif', scratch], check=True,
                         stdout=subprocess.PIPE, text=True).stdout
    answers = re.findall(r'^(Closed under the global context|Axioms:\n(?:.+\n?)*)', out, re.M)
    if len(answers) != len(thms):
      sys.exit('%s: %d theorems, %d answers' % (name, len(thms), len(answers)))
    rows += [(t, name, a.replace('\n', ' ').strip()) for t, a in zip(thms, answers)]
rows.sort()
with open(os.path.join(root, 'ASSUMPTIONS.md'), 'w') as f:
  f.write('# Print Assumptions of the property theorems\n\n'
          'Written by `tools/assumptions.py`.\n\n| Theorem | File | Assumptions |\n|---|---|---|\n')
  for t, name, a in rows:
    f.write('| %s | %s.v | %s |\n' % (t, name, a))
closed = sum(a.startswith('Closed') for _, _, a in rows)
print(len(rows), 'theorems;', closed, 'closed under the global context')
