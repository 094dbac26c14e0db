#!/usr/bin/env python3
"""Writes SoundTables.v (from descriptive.py, x_uni.py, latn.py, en.py) and
SoundDocs.v (from the documentation pages) by reading the source text.

Usage: genfeatures.py REPO OUTDIR
"""
import ast
import re
import sys

repo, out = sys.argv[1], sys.argv[2]
NT = repo + '/nisaba/scripts/natural_translit/'


def tree(path):
  return ast.parse(open(NT + path, encoding='utf-8').read())


def function(t, name):
  return next(n for n in t.body if isinstance(n, ast.FunctionDef) and n.name == name)


def q(s):
  return '"' + s.replace('"', '""') + '"'


def lst(xs, sep='; '):
  return '[' + sep.join(xs) + ']'


def dotted(e):
  """features.height.open -> 'height.open'; phf.nasal -> 'nasal'"""
  parts = []
  while isinstance(e, ast.Attribute):
    parts.append(e.attr)
    e = e.value
  assert isinstance(e, ast.Name), ast.dump(e)
  return '.'.join(reversed(parts))


def refs(es):
  r = []
  for e in es:
    r += refs(e.elts) if isinstance(e, (ast.List, ast.Tuple)) else [dotted(e)]
  return r


def call(e):
  return e.func.attr if isinstance(e.func, ast.Attribute) else e.func.id


def step(e):
  for k in e.keywords:
    if k.arg == 'step':
      return k.value.value
  return 1


def value(e):
  """A feature or a value list; steps in quarters"""
  name = call(e)
  if name == 'f':
    a = [x.value for x in e.args]
    return f'Feat {q(a[0])} {q(a[-1])}'
  kind = {'equidistant': 'EQUIDISTANT', 'linear': 'LINEAR', 'cyclic': 'CYCLIC'}[name]
  s = step(e) * 4
  assert s == int(s)
  return (f'Vals {q(e.args[0].value)} {kind} {int(s)} '
          + lst([value(x) for x in e.args[1:]]))


o = []
o.append('(** Feature inventories and what is said about symbols, from the source text; written by gen/genfeatures.py.')
o.append('    Sources, in nisaba/scripts/natural_translit: phonology/features/descriptive.py, phonology/inventories/x_uni.py,')
o.append('    script/inventories/latn.py, language_params/en.py. *)')
o.append('From Verif Require Import Base FeatureModel.')
o.append('From Coq Require Import String.')
o.append('Local Open Scope string_scope.')
o.append('Local Open Scope list_scope.')
o.append('')
o.append('(** A feature with its alias and text, or a value list with its alias, type, step (in quarters) and items *)')
o.append('Inductive feature_tree := Feat (alias text : string) | Vals (alias : string) (t : list_type) (step : Z) (items : list feature_tree).')

d = function(tree('phonology/features/descriptive.py'), '_features')
inv = next(n for n in d.body if isinstance(n, ast.Assign) and isinstance(n.value, ast.Call) and call(n.value) == 'Inventory').value
o.append('(** descriptive.py, the aspects *)')
o.append('Definition descriptive_aspects : list feature_tree :=\n  ['
         + ';\n   '.join(value(a.args[0]) for a in inv.args[1:]) + ']%Z.')
sets, mixed, profiles = [], [], []
for n in d.body:
  if isinstance(n, ast.For):
    target = dotted(n.body[0].value.func.value)
    assert call(n.body[0].value) == 'set'
    for t in n.iter.elts:
      sets.append((target, t.elts[0].value, refs(t.elts[1].elts)))
  elif isinstance(n, ast.Expr) and isinstance(n.value, ast.Call):
    c = n.value
    if call(c) == 'set':
      sets.append((dotted(c.func.value), c.args[0].value, refs(c.args[1:])))
    elif call(c) == 'make_sets':
      mixed += [(t.elts[0].value, refs(t.elts[1].elts)) for t in c.args]
    elif call(c) == 'add_profile':
      profiles.append((c.args[0].value, refs(c.args[1:])))
    else:
      raise ValueError(ast.dump(c))


def table(name, comment, rows):
  o.append(f'(** {comment} *)')
  o.append(f'Definition {name} : list (string * list string) :=\n  ['
           + ';\n   '.join(f'({q(a)}, {lst([q(r) for r in rs])})' for a, rs in rows) + '].')


o.append('(** descriptive.py, sets of features of one aspect *)')
o.append('Definition descriptive_aspect_sets : list (string * string * list string) :=\n  [' + ';\n   '.join(f'({q(a)}, {q(b)}, {lst([q(r) for r in rs])})' for a, b, rs in sets) + '].')
table('descriptive_sets', 'descriptive.py, sets of features of several aspects', mixed)
table('descriptive_profiles', 'descriptive.py, profiles', profiles)


def updates(stmts, prefix):
  """for-loops and single calls of update_descriptives"""
  r = []

  def chain(e, targets):
    if isinstance(e.func.value, ast.Call):
      chain(e.func.value, targets)
    assert call(e) == 'update_descriptives', ast.dump(e)
    r.append((targets, refs(e.args)))

  for n in stmts:
    if isinstance(n, ast.For):
      ts = [prefix + dotted(x) for x in n.iter.elts]
      for b in n.body:
        chain(b.value, ts)
    elif isinstance(n, ast.Expr) and isinstance(n.value, ast.Call) and call(n.value) == 'update_descriptives':
      chain(n.value, [prefix + dotted(n.value.func.value)])
  return r


def update_table(name, comment, rows):
  o.append(f'(** {comment} *)')
  o.append(f'Definition {name} : list (list string * list string) :=\n  ['
           + ';\n   '.join(f'({lst([q(a) for a in ts])}, {lst([q(r) for r in rs])})' for ts, rs in rows) + '].')


x = function(tree('phonology/inventories/x_uni.py'), '_phoneme_inventory')
lists = {n.targets[0].id: n.value for n in x.body if isinstance(n, ast.Assign) and isinstance(n.value, ast.List)}
phonemes = {}
for k in ('vowels', 'consonants'):
  rows = [[e.value for e in t.elts] for t in lists[k].elts]
  phonemes[k] = rows
  o.append(f'(** x_uni.py, {k}: alias and name *)')
  o.append(f'Definition x_uni_{k} : list (string * string) :=\n  ['
           + ';\n   '.join(f'({q(r[1])}, {q(r[2])})' for r in rows) + '].')
cut = max(i for i, n in enumerate(x.body) if isinstance(n, ast.Assign))
update_table('x_uni_vowel_updates', 'x_uni.py, updates of vowels', updates(x.body[:cut], ''))
update_table('x_uni_consonant_updates', 'x_uni.py, updates of consonants', updates(x.body[cut:], ''))

l = function(tree('script/inventories/latn.py'), '_build_inventory')
lists = {n.targets[0].id: n.value for n in l.body if isinstance(n, ast.Assign) and isinstance(n.value, ast.List)}
for k in ('lowercase_vowels', 'lowercase_consonants'):
  o.append(f'(** latn.py, {k} *)')
  o.append(f'Definition latn_{k} : list string := {lst([q(e.value) for e in lists[k].elts])}.')
o.append('(** latn.py, numbers *)')
o.append(f'Definition latn_numbers : list string := {lst([q(t.elts[1].value) for t in lists["numbers"].elts])}.')
cut = next(i for i, n in enumerate(l.body) if isinstance(n, ast.Assign) and getattr(n.targets[0], 'id', '') == 'lowercase_consonants')
upper = next(i for i, n in enumerate(l.body) if isinstance(n, ast.For) and n.target.id == 'char')
update_table('latn_vowel_updates', 'latn.py, updates of vowels', updates(l.body[:cut], ''))
update_table('latn_consonant_updates', 'latn.py, updates of consonants', updates(l.body[cut:upper], ''))

e = function(tree('language_params/en.py'), '_latn_inventory')
lower = next(n.value for n in e.body if isinstance(n, ast.Assign) and getattr(n.targets[0], 'id', '') == 'lowercase')
o.append('(** en.py, lowercase *)')
o.append(f'Definition en_lowercase : list string := {lst([q(dotted(t)) for t in lower.elts])}.')
rows = []
for n in e.body:
  if isinstance(n, ast.Expr) and isinstance(n.value, ast.Call) and call(n.value) == 'update_descriptives_from_symbol':
    def full(a):
      base = a
      while isinstance(base, ast.Attribute):
        base = base.value
      return {'ph': 'x_uni.', 'gr': 'en.'}[base.id] + dotted(a)
    rows.append((dotted(n.value.func.value), [full(a) for a in n.value.args]))
table('en_sounds', 'en.py, update_descriptives_from_symbol: a letter, and phonemes or letters', rows)
open(out + '/SoundTables.v', 'w', encoding='utf-8').write('\n'.join(o) + '\n')

# Documentation
o = []
o.append('(** What the generated documentation pages list; written by gen/genfeatures.py.  Sources, in nisaba/scripts/natural_translit:')
o.append('    phonology/features/docs/descriptive.md, phonology/inventories/docs/x_uni.md, script/inventories/docs/latn.md and en_latn.md. *)')
o.append('From Verif Require Import Base.')
o.append('From Coq Require Import String.')
o.append('Local Open Scope string_scope.')
o.append('Local Open Scope list_scope.')
words = {}


def word(w):
  n = 'w_' + re.sub(r'\W', '_', w)
  assert words.setdefault(n, w) == w
  return n


def symbols(path, skip):
  src = open(NT + path, encoding='utf-8').read()
  r = []
  for m in re.finditer(r'^### alias: (\S+)\t(.*?)\n(.*?)(?=^### |\Z)', src, re.S | re.M):
    rows = re.findall(r'^\| (\S+) +\| (.*?) *\|$', m.group(3), re.M)
    rows = [(a, v.split(', ')) for a, v in rows if a not in skip and not a.startswith('**')]
    r.append((m.group(1), rows))
  heads = {tuple(a for a, _ in rows) for _, rows in r}
  assert len(heads) == 1
  return list(heads.pop()), [(a, [v for _, v in rows]) for a, rows in r]


defs = []
for name, path in (('x_uni', 'phonology/inventories/docs/x_uni.md'), ('latn', 'script/inventories/docs/latn.md'), ('en_latn', 'script/inventories/docs/en_latn.md')):
  head, rows = symbols(path, ('aspects',))
  defs.append(f'(** {path.split("/")[-1]}: aspects, and each symbol with the values of these aspects *)')
  defs.append(f'Definition {name}_aspects_documented : list string := {lst([q(h) for h in head])}.')
  defs.append(f'Definition {name}_documented : list (string * list (list string)) :=\n  ['
              + ';\n   '.join(f'({q(a)}, {lst([lst([word(w) for w in v]) for v in vs])})' for a, vs in rows) + '].')
src = open(NT + 'phonology/features/docs/descriptive.md', encoding='utf-8').read()
ds = []
for m in re.finditer(r'aspect: (\S+)\nmax_dist: (\S+)\n\n(.*?)(?=\n\n|\Z)', src, re.S):
  lines = [[c.strip() for c in ln.strip('|').split('|')] for ln in m.group(3).split('\n') if ln.startswith('|')]
  assert [ln[0] for ln in lines[2:]] == lines[0][1:]
  quarters = lambda v: str(int(float(v) * 4))
  ds.append(f'({q(m.group(1))}, {quarters(m.group(2))}, {lst([q(h) for h in lines[0][1:]])},\n     '
            + lst([lst([quarters(v) for v in ln[1:]]) for ln in lines[2:]]) + ')')
defs.append('(** descriptive.md: each aspect, its greatest distance (in quarters), its features and their distances *)')
defs.append('Definition distances_documented : list (string * Z * list string * list (list Z)) :=\n  [' + ';\n   '.join(ds) + ']%Z.')
for n, w in sorted(words.items()):
  o.append(f'Definition {n} : string := {q(w)}.')
open(out + '/SoundDocs.v', 'w', encoding='utf-8').write('\n'.join(o + defs) + '\n')
