#!/usr/bin/env python3
"""Writes SpelloutTables.v (brahmic/en_spellout.py, the list of _spellout_inventory) by
reading the source text.

Usage: genspellout.py REPO OUTDIR
"""
import ast
import sys

repo, out = sys.argv[1], sys.argv[2]
path = repo + '/nisaba/scripts/natural_translit/brahmic/en_spellout.py'
tree = ast.parse(open(path, encoding='utf-8').read())
cls = next(n for n in tree.body if isinstance(n, ast.ClassDef) and n.name == '_EnLetterSpellOut')
init = next(n for n in cls.body if isinstance(n, ast.FunctionDef))
columns = [a.arg for a in init.args.args][2:]
fun = next(n for n in tree.body if isinstance(n, ast.FunctionDef) and n.name == '_spellout_inventory')
rows = next(ast.literal_eval(n.value) for n in fun.body if isinstance(n, ast.Assign))
first = next(n.value.lineno for n in fun.body if isinstance(n, ast.Assign))
last = next(n.value.end_lineno for n in fun.body if isinstance(n, ast.Assign))


def string(s):
  return '[' + '; '.join(str(ord(c)) for c in s) + ']'


with open(out + '/SpelloutTables.v', 'w') as f:
  f.write('(** Generated by gen/genspellout.py: the letters of English and their names in other\n'
          '    languages and scripts, nisaba/scripts/natural_translit/brahmic/en_spellout.py:%d-%d. *)\n' % (first, last))
  f.write('From Coq Require Import String.\nFrom Verif Require Import Base.\n')
  f.write('Local Open Scope N_scope.\nLocal Open Scope string_scope.\nLocal Open Scope list_scope.\n')
  f.write('Definition spellouts : list (N * list (string * list N)) :=\n [')
  f.write(';\n  '.join('(%d, [%s])' % (ord(r[0].lower()), ';\n    '.join('("%s", %s)' % (c, string(v)) for c, v in zip(columns, r[1:]))) for r in rows))
  f.write('].\n')
