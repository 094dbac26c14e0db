"""Writes PhonTables.v: the base tables of the multilingual phoneme inventory and the table of its
documentation.  Usage: genphon.py REPO OUTDIR.  Reads the sources as text; nothing is run."""
import ast
import sys

REPO, OUT = sys.argv[1:3]
D = REPO + '/nisaba/scripts/natural_translit/phonology/'


def assigns(path):
  return {n.targets[0].id: n for n in ast.parse(open(path).read()).body
          if isinstance(n, ast.Assign) and isinstance(n.targets[0], ast.Name)}


def const(e):
  if isinstance(e, ast.Constant): return e.value
  if isinstance(e, ast.List): return [const(x) for x in e.elts]
  if isinstance(e, ast.Attribute): return e.attr
  raise ValueError(ast.dump(e))


FT = assigns(D + 'feature.py')
FEATURES = [const(x) for n in ('ARTICULATION_FEATURE', 'FEATURE_QUALIFIER') for x in FT[n].value.generators[0].iter.elts]
ROWS = [const(x) for x in FT['ROWS'].value.generators[0].iter.elts]
ROW = dict(ROWS)


def feats(e):
  if isinstance(e, ast.BinOp): return feats(e.left) + feats(e.right)
  if isinstance(e, ast.List): return [x.attr for x in e.elts]
  return list(ROW[e.attr])


def trs(e):
  if isinstance(e, ast.BinOp): return trs(e.left) + trs(e.right)
  assert e.value.id == 'tr'
  return [e.attr]


INV = assigns(D + 'phoneme_inventory.py')
MODS = assigns(D + 'modify_phon.py')


def base_rows(name):
  n = INV[name].value
  if isinstance(n, ast.List): rows = [c.args for c in n.elts]
  else: rows = [r.elts for r in n.generators[0].iter.elts]
  out = []
  for r in rows:
    txn, ft, ipa, tr = const(r[0]), feats(r[1]), const(r[2]), trs(r[3])
    out.append((txn, ft, ipa, tr, const(r[4]) if len(r) > 4 else ''))
  return out, INV[name].lineno, INV[name].end_lineno


def mod_rows(name):
  n = MODS[name].value
  if isinstance(n, ast.List): rows = [c.args for c in n.elts]
  else: rows = [r.elts for r in n.generators[0].iter.elts]
  return [(const(r[0]), const(r[1]), feats(r[2]), const(r[3])) for r in rows], MODS[name].lineno, MODS[name].end_lineno


BASE = ['SILENCE', 'STANDALONE_FEATURE', 'UNASSIGNED_VOWEL', 'BASE_VOWEL', 'VOICED_NASAL', 'VOICELESS_STOP', 'VOICED_STOP',
        'VOICELESS_FRICATIVE', 'VOICED_FRICATIVE', 'CENTRAL_APPROXIMANT', 'LATERAL_APPROXIMANT', 'VOICED_FLAP',
        'VOICED_TRILL', 'CLICK_RELEASE']
MOD = ['COMBINER', 'MODIFIER_FEATURE', 'FEATURE_QUALIFIER']


def pairs(name, inv=INV):
  """Rows of a qualifier and an IPA string."""
  rows = [r.elts for r in inv[name].value.generators[0].iter.elts]
  return [(r[0].attr, const(r[1])) for r in rows], inv[name].lineno, inv[name].end_lineno


def doc():
  rows = []
  for line in open(D + 'docs/phon_table.md').read().split('\n')[2:]:
    if not line.strip(): continue
    cells = [c.strip() for c in line.split(' | ')]
    rows.append(cells)
  return rows


def S(s):
  assert '"' not in s and all(ord(c) < 128 for c in s)
  return '"%s"' % s


def N(s):
  return '[' + '; '.join(str(ord(c)) for c in s) + ']%N'


def L(xs): return '[' + '; '.join(xs) + ']'


def main():
  o = ['(** The multilingual phoneme inventory and the table of its documentation.\n    Generated by rocq/gen/genphon.py, do not edit. *)',
       'From Coq Require Import String List NArith.\nImport ListNotations.\nLocal Open Scope string_scope.\nLocal Open Scope list_scope.\n']
  P = 'nisaba/scripts/natural_translit/phonology/'
  o.append('(** %sfeature.py, lines 36-106: features with categories *)' % P)
  o.append('Definition feature_table : list (string * string) :=\n  %s.\n' % L('(%s, %s)' % (S(a), S(b)) for a, b in FEATURES))
  o.append('(** %sphoneme_inventory.py: transcription, features, IPA, transliteration, alias (if given).  The rows of features of\n    feature.py, lines 111-144, are written out *)' % P)
  o.append('Definition base_row : Type := string * list string * list N * list string * string.\n')
  for b in BASE:
    rows, x, y = base_rows(b)
    o.append('(** lines %d-%d *)' % (x, y))
    o.append('Definition %s : list base_row :=\n  [%s].\n' % (b.lower(), ';\n   '.join(
        '(%s, %s, %s, %s, %s)' % (S(t), L(map(S, f)), N(i), L(map(S, r)), S(a)) for t, f, i, r, a in rows)))
  o.append('(** %smodify_phon.py: alias, transcription, features, IPA *)' % P)
  o.append('Definition mod_row : Type := string * string * list string * list N.\n')
  for b in MOD:
    rows, x, y = mod_rows(b)
    o.append('(** lines %d-%d *)' % (x, y))
    o.append('Definition %s : list mod_row :=\n  [%s].\n' % (b.lower(), ';\n   '.join(
        '(%s, %s, %s, %s)' % (S(a), S(t), L(map(S, f)), N(i)) for a, t, f, i in rows)))
  o.append('(** qualifiers with IPA *)')
  for b, inv, f in [('DURATION', MODS, 'modify_phon.py'), ('STRESS', INV, 'phoneme_inventory.py'), ('PITCH', INV, 'phoneme_inventory.py'),
                    ('CONTOUR', INV, 'phoneme_inventory.py'), ('INTONATION', INV, 'phoneme_inventory.py')]:
    rows, x, y = pairs(b, inv)
    o.append('(** %s%s, lines %d-%d *)' % (P, f, x, y))
    o.append('Definition %s : list (string * list N) :=\n  %s.\n' % (b.lower() + '_table', L('(%s, %s)' % (S(a), N(i)) for a, i in rows)))
  o.append('(** %sdocs/phon_table.md: alias, transcription, ph without braces, IPA without backquotes, features *)' % P)
  rows = []
  for c in doc():
    ph = c[2]
    assert ph[0] == '{' and ph[-1] == '}'
    rows.append('(%s, %s, %s, %s, %s)' % (S(c[0]), S(c[1]), L(map(S, ph[1:-1].split('}{'))), N(c[6].strip('`').strip().replace('\\|', '|')), L(S(x) for x in c[7].split(', '))))
  o.append('Definition phon_table : list (string * string * list string * list N * list string) :=\n  [%s].\n' % ';\n   '.join(rows))
  open(OUT + '/PhonTables.v', 'w').write('\n'.join(o))


if __name__ == '__main__':
  main()
