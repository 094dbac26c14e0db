"""Writes theories/MarkTables.v: the characters of general category Mn among the
characters of the Brahmic scripts, by Python's unicodedata.

Usage: python3 genmarks.py /repo ../theories
"""
import importlib.util
import os
import sys
import unicodedata

SPEC = importlib.util.spec_from_file_location(
    'gentables', os.path.join(os.path.dirname(os.path.abspath(__file__)), 'gentables.py'))
G = importlib.util.module_from_spec(SPEC)
SPEC.loader.exec_module(G)
FILES = ['accept', 'coda', 'consonant', 'dead_consonant', 'standalone', 'subjoined_consonant',
         'virama', 'vowel', 'vowel_length_sign', 'vowel_sign']
RULES = ['nfc', 'reading_norm', 'visual_rewrite']


def main():
  chars = set()
  for s in G.SCRIPTS:
    comps = G.build_components(s)
    for k in FILES:
      for a, _ in G.rows_or_empty(comps.get(k)):
        chars |= set(a)
    for k in RULES:
      for a, b in G.rows_or_empty(comps.get(k)):
        chars |= set(a) | set(b or '')
  marks = sorted(ord(c) for c in chars if unicodedata.category(c) == 'Mn')
  lines = ['; '.join(str(c) for c in marks[i:i + 12]) for i in range(0, len(marks), 12)]
  with open(os.path.join(sys.argv[2], 'MarkTables.v'), 'w') as f:
    f.write('(** The characters of general category Mn among those of the Brahmic scripts,\n'
            '    from Python\'s unicodedata (char_util.py:62-71).\n'
            '    Generated by rocq/gen/genmarks.py, do not edit. *)\n'
            'From Verif Require Import Base.\n\n'
            'Definition mn_chars : list N :=\n  [%s]%%N.\n\n'
            '(** [unicodedata.category(c) == \'Mn\'] for these characters. *)\n'
            'Definition is_mark (c : N) : bool := memN c mn_chars.\n' % ';\n   '.join(lines))


if __name__ == '__main__':
  main()
