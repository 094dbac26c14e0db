"""Mutation tests for the model.

  python3 tools/mutate.py seeded/mutants_X.json [WORKERS]

Each entry: {"file", "definition", "old", "new", "edit", "breaks", "expect": ["C01", ...]}.
The edit is made in a scratch copy, where the *Thms files that depend on the edited
file are built (those in HEAVY only if one of their claims is expected to fail). Proofs that no longer go through are
replaced by Admitted, one after the other, so that in the end Print Assumptions
shows which theorems have lost their proof ("failed"). That a proof script fails
does not by itself show the statement to be false of the mutant; "failed_examples"
are closed computations that come out differently, which does. A theorem
whose file cannot be built is unknown: the mutant is then not logged. One JSON line per mutant is appended
to seeded/LOG.jsonl. Entries already logged (same definition and edit) are skipped.
"""
import json
import multiprocessing
import os
import re
import shutil
import subprocess
import sys

ROOT = os.path.dirname(os.path.dirname(os.path.abspath(__file__)))
SRC = '/tmp/mutbase'  # snapshot of rocq/, taken once per run
TMP = '/tmp/mutant'  # one per worker
HEAVY = {'IsoRoundThms', 'DeromAgreeThms'}
LOG = os.path.join(ROOT, 'seeded', 'LOG.jsonl')
START = re.compile(r'^[ ]*(?:Local |Global )?(?:Lemma|Theorem|Example|Corollary|Fact|Remark|Instance)\s+(\w+)', re.M)


def prepare():
  if os.path.exists(TMP):
    shutil.rmtree(TMP)
  shutil.copytree(SRC, TMP, symlinks=True)


def requires(f):
  text = open(os.path.join(SRC, 'theories', f + '.v')).read()
  return {n for m in re.findall(r'From Verif Require (?:Import |Export )?([^.]*)\.', text) for n in m.split()}


def targets(mut):
  """The *Thms files that depend on the edited one."""
  files = [l.strip()[len('theories/'):-2] for l in open(os.path.join(SRC, '_CoqProject')) if l.startswith('theories/')]
  hit = {mut['file'][:-2]}
  for f in files:  # in dependency order
    if requires(f) & hit:
      hit.add(f)
  res = []
  for f in files:
    if f in hit and 'Thms' in f:
      claims = set(re.findall(r'^Theorem (C\d\d)', open(os.path.join(SRC, 'theories', f + '.v')).read(), re.M))
      if f not in HEAVY or claims & set(mut['expect']):
        res.append(f)
  return res


def make(names):
  p = subprocess.run(['bash', '-c', 'ulimit -v 6000000; timeout 1500 make -k -j2 %s 2>&1' % ' '.join('theories/%s.vo' % n for n in names)],
                     cwd=TMP, capture_output=True, text=True)
  return p.returncode, p.stdout


def admit_at(path, line):
  """Admits the proof enclosing the line; returns its name or None."""
  text = open(path).read()
  offs = [0]
  for l in text.split('\n'):
    offs.append(offs[-1] + len(l) + 1)
  pos = offs[line - 1]
  end_of_line = offs[line] if line < len(offs) else len(text)
  best = None
  for m in START.finditer(text):
    if m.start() < end_of_line:
      best = m
  if best is None:
    return None
  pm = re.compile(r'\bProof\b[^.]*\.').search(text, best.end())
  qm = re.compile(r'\b(?:Qed|Defined)\.').search(text, best.end())
  if not pm or not qm or pm.start() > qm.start() or qm.end() < pos:
    return None
  text = text[:pm.start()] + 'Admitted.' + text[qm.end():]
  # keep line numbers out of it: the file is compiled again anyway
  open(path, 'w').write(text)
  return best.group(1)


def run(mut):
  prepare()
  names = targets(mut)
  path = os.path.join(TMP, 'theories', mut['file'])
  text = open(path).read()
  if text.count(mut['old']) != 1:
    raise SystemExit('%s: old text occurs %d times: %r' % (mut['file'], text.count(mut['old']), mut['old']))
  open(path, 'w').write(text.replace(mut['old'], mut['new']))
  admitted, broken_files = [], []
  logs = {}
  for _ in range(120):
    rc, out = make(names)
    if rc == 0:
      break
    for f in set(re.findall(r'theories/(\w+)\.vo\] Error', out)):
      for e in ('.vo', '.vos', '.vok'):
        vo = os.path.join(TMP, 'theories', f + e)
        if os.path.exists(vo):
          os.remove(vo)
    errs = re.findall(r'File "\./theories/(\w+)\.v", line (\d+), characters [\d-]+:\s*\nError', out)
    progress = False
    for f, l in errs:
      if f in broken_files:
        continue
      name = admit_at(os.path.join(TMP, 'theories', f + '.v'), int(l))
      if name is None:
        broken_files.append(f)
        print('   cannot admit', f, l)
      else:
        admitted.append(name)
      progress = True
    if not progress:
      print(out[-1500:])
      break
  return admitted, *probe(admitted, names)


def probe(admitted, files):
  """Theorems whose proof uses an admitted lemma, and theorems about which
  nothing is known because their file could not be built or loaded."""
  # Files left over from the snapshot must not stand in for ones that failed.
  failed, unknown = [], []
  for f in files:
    names = re.findall(r'^Theorem (C\d\d_\w+)', open(os.path.join(TMP, 'theories', f + '.v')).read(), re.M)
    with open(os.path.join(TMP, 'probe.v'), 'w') as g:
      g.write('From Verif Require Import %s.\n' % f)
      for n in names:
        g.write('Print Assumptions %s.\n' % n)
    p = subprocess.run(['coqc', '-Q', 'theories', 'Verif', 'probe.v'], cwd=TMP,
                       capture_output=True, text=True)
    parts = [x for x in re.split(r'(?m)^(?=Closed under|Axioms:)', p.stdout) if x.strip()]
    if p.returncode != 0 or len(parts) != len(names):
      unknown += names
      continue
    for n, x in zip(names, parts):
      if any(re.search(r'(?m)^(?:[\w.]+\.)?%s\b' % a, x) for a in admitted):
        failed.append(n)
  return failed, unknown


def one(mut):
  """Runs one mutant in the directory of this worker."""
  global TMP
  TMP = '/tmp/mutant%d' % os.getpid()
  try:
    admitted, failed, unknown = run(mut)
  except SystemExit as e:
    return mut, None, str(e), None
  finally:
    shutil.rmtree(TMP, ignore_errors=True)
  return mut, admitted, failed, unknown


def main():
  muts = json.load(open(sys.argv[1]))
  workers = int(sys.argv[2]) if len(sys.argv) > 2 else 2
  if os.path.exists(SRC):
    shutil.rmtree(SRC)
  shutil.copytree(os.path.join(ROOT, 'rocq'), SRC, symlinks=True)
  # The snapshot must be up to date, or old proofs would count as failed.
  p = subprocess.run('make -j4', shell=True, cwd=SRC, capture_output=True, text=True)
  if p.returncode != 0:
    raise SystemExit('baseline not clean\n' + p.stdout[-1500:] + p.stderr[-500:])
  done = set()
  if os.path.exists(LOG):
    for l in open(LOG):
      if l.strip():
        d = json.loads(l)
        done.add((d['definition'], d['edit']))
  muts = [m for m in muts if (m['definition'], m['edit']) not in done]
  with multiprocessing.Pool(workers) as pool:
    for mut, admitted, failed, unknown in pool.imap_unordered(one, muts):
      if admitted is None:
        print('BAD', failed)
        continue
      miss = [e for e in mut.get('expect', []) if not any(f.startswith(e) for f in failed)]
      status = 'UNKNOWN' if unknown else 'killed' if failed and not miss else 'SURVIVED'
      examples = [a for a in admitted if re.match(r'C\d\d_\w*example', a)]
      print(status, mut['definition'], '|', mut['edit'], '| failed:', failed, '| unknown:', unknown,
            '| examples:', examples, '| lemmas:', [a for a in admitted if a not in examples][:6], '| missing:', miss)
      sys.stdout.flush()
      if status == 'killed':
        with open(LOG, 'a') as f:
          f.write(json.dumps({'definition': mut['definition'], 'file': mut['file'],
                              'edit': mut['edit'], 'breaks': mut['breaks'],
                              'failed': failed, 'failed_examples': examples,
                              'failed_lemmas': [a for a in admitted if a not in examples],
                              'tightened': mut.get('tightened') or []}) + '\n')


if __name__ == '__main__':
  main()
