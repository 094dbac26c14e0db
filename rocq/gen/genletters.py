"""Writes theories/LetterTables.v: the letters of Arabic script with their languages and
regions, and the characters that their names denote by Python's unicodedata.

Usage: python3 genletters.py /repo ../theories
"""
import os
import re
import sys
import unicodedata

PATH = 'nisaba/scripts/abjad_alphabet/data/Arab/letter_languages.textproto'


def strings(text):
  return re.findall('"(.*?)"', text)


def main():
  with open(os.path.join(sys.argv[1], PATH), encoding='utf8') as f:
    text = re.sub(r'(?m)(^|\s)#.*$', '', f.read())
  prefixes = strings(re.search(r'uname_prefix:\s*\[(.*?)\]', text, re.S).group(1))
  rows, names = [], []
  for item in re.findall(r'item \{(.*?)\n\}', text, re.S):
    letter = re.search(r'letter \{ (.*?) \}', item).group(1)
    fields = {}
    for source in (letter, item[item.index('}') + 1:]):
      for key, value in re.findall(r'(\w+):\s*(\[.*?\]|"[^"]*")', source, re.S):
        fields.setdefault(key, []).extend(strings(value))
    assert set(fields) <= {'uname', 'raw', 'language', 'region'}, fields
    quoted = lambda k: '[' + '; '.join('"%s"' % x for x in fields.get(k, [])) + ']'
    raw = fields.get('raw', [''])[0]
    rows.append('entry_of %s [%s] %s %s' % (
        quoted('uname'), '; '.join(str(ord(c)) for c in raw), quoted('language'), quoted('region')))
    for name in fields.get('uname', []):
      for prefix in prefixes + ['']:
        full = (prefix + ' ' + name).lstrip()
        try:
          names.append('("%s", [%s])' % (full, '; '.join(str(ord(c)) for c in unicodedata.lookup(full))))
        except KeyError:
          pass
  with open(os.path.join(sys.argv[2], 'LetterTables.v'), 'w') as f:
    f.write('(** The letters of Arabic script and their languages, and the characters with these names in\n'
            "    Python's unicodedata.  Generated by rocq/gen/genletters.py, do not edit. *)\n"
            'From Coq Require Import String Ascii.\n'
            'From Verif Require Import Base DataModel LetterModel.\n'
            'Local Open Scope list_scope.\nLocal Open Scope N_scope.\n\n'
            'Definition codes (s : string) : str := map N_of_ascii (list_ascii_of_string s).\n'
            'Definition entry_of (names : list string) (r : str) (ls rs : list string) : entry :=\n'
            '  Entry {| uname := map codes names; raw := r; to_uname := []; to_raw := [] |}\n'
            '    (map codes ls) (map codes rs).\n\n'
            '(** %s *)\n'
            'Definition letter_prefixes : list str := map codes [%s]%%string.\n'
            'Definition letter_entries : list entry :=\n  [%s]%%string.\n\n'
            '(** The names that the prefixes and these entries spell *)\n'
            'Definition letter_names : list (string * str) :=\n  [%s]%%string.\n'
            'Definition letter_chars : list (str * str) := map (fun row => (codes (fst row), snd row)) letter_names.\n'
            % (PATH, '; '.join('"%s"' % p for p in prefixes), ';\n   '.join(rows), ';\n   '.join(names)))


if __name__ == '__main__':
  main()
