"""Writes ArabTables.v from the data of nisaba/scripts/abjad_alphabet.

Usage: genarab.py REPO OUT_DIR
"""
import os
import re
import sys
import gentables as g

A = g.ARAB
PREFIX = A + '/uname_prefix.textproto'
LANGS = 'ar azb bal ckb fa ks ms pa prs ps sd ug ur uz'.split()


def components(lang):
  """component name -> textproto paths, from BUILD.bazel."""
  d = os.path.join(A, lang)
  text = re.sub(r'#.*', '', open(d + '/BUILD.bazel').read())
  comps = {}
  for m in re.finditer(r'^(empty_components_tsv|components_tsv_local_with_common|components_tsv_local)'
                       r'\((.*?)\n?\)', text, re.S | re.M):
    kind, body = m.groups()
    for n in re.findall(r'"(\w+)"', body):
      local, common = '%s/%s.textproto' % (d, n), '%s/%s.textproto' % (A, n)
      comps[n] = {'empty_components_tsv': [],
                  'components_tsv_local_with_common': [PREFIX, local, common],
                  'components_tsv_local': [PREFIX, local]}[kind]
  return comps


def rules(rs):
  """A missing right-hand side of a rule file is empty."""
  return [(a, b or '') for a, b in rs]


def main():
  parts = []
  for name, doc in (('presentation_forms', 'presentation_forms'), ('visual_norm', 'arab_visual_norm')):
    p = [PREFIX, '%s/%s.textproto' % (A, name)]
    parts.append(g.coq_rules(doc, rules(g.rows(p)), g.rel(p[1:])))
  parts.append('(** The five rule files of a language *)\nRecord lang_rules := LangRules {\n  visual_norm_tsv : list rule; nonfinal_tsv : list rule; '
               'final_isolated_tsv : list rule; isolated_tsv : list rule; reading_norm_tsv : list rule }.\n')
  for lang in LANGS:
    c = components(lang)
    names = []
    for n in ('visual_norm', 'visual_norm_nonfinal', 'visual_norm_final_isolated', 'visual_norm_isolated', 'reading_norm'):
      rs = g.rows(c[n]) if c[n] else []
      if n.startswith('visual_norm_'): assert all(b is not None for _, b in rs)
      names.append('%s_%s' % (n, lang))
      parts.append(g.coq_rules(names[-1], rules(rs), g.rel(c[n][1:])))
    parts.append('Definition rules_%s : lang_rules := LangRules %s.\n' % (lang, ' '.join(names)))
  parts.append('(** The languages: abjad_alphabet/util.py, lines 29-30 *)\nDefinition arab_langs : list lang_rules :=\n  [%s].\n' %
               '; '.join('rules_' + l for l in LANGS))
  with open(os.path.join(g.OUT, 'ArabTables.v'), 'w') as f:
    f.write('(** Rules for languages in Arabic script.\n    Generated by rocq/gen/genarab.py, do not edit. *)\n')
    f.write('From Verif Require Import Base RuleModel.\n\n')
    f.write('\n'.join(parts))
  print(g.NOTES)


main()
