"""Reads the data textprotos of /repo and writes theories/*Tables*.v.

Mirrors nisaba/scripts/utils/unicode_strings_to_tsv.{bzl,py}: per script and
component the BUILD.bazel file says which textprotos are concatenated; raw
fields are used where present and checked against the Unicode names.

Usage: python3 gentables.py /repo ../theories
"""
import os
import re
import sys
import unicodedata

REPO, OUT = sys.argv[1], sys.argv[2]
BRAHMIC = os.path.join(REPO, 'nisaba/scripts/brahmic/data')
ARAB = os.path.join(REPO, 'nisaba/scripts/abjad_alphabet/data/Arab')
# nisaba/scripts/brahmic/util.py:75-96
SCRIPTS = re.findall(r'"(\w{4})"', re.search(
    r'^SCRIPTS = \[(.*?)\]', open(os.path.join(
        REPO, 'nisaba/scripts/brahmic/util.py')).read(), re.S | re.M).group(1))

TOKEN = re.compile(r'\s+|#[^\n]*|"((?:[^"\\]|\\.)*)"|([A-Za-z_]+|[{}\[\]:,<>]|-?\d+)')


def tokens(text):
  pos = 0
  while pos < len(text):
    m = TOKEN.match(text, pos)
    if not m:
      raise ValueError('cannot tokenize %r' % text[pos:pos + 30])
    pos = m.end()
    if m.group(1) is not None:
      yield ('s', m.group(1).encode('latin-1', 'backslashreplace').decode('unicode_escape')
             if '\\' in m.group(1) else m.group(1))
    elif m.group(2):
      yield ('t', m.group(2))


def parse_message(toks, i, end):
  msg = []
  while i < len(toks) and toks[i] != ('t', '}'):
    name = toks[i][1]
    i += 1
    if toks[i] == ('t', ':'):
      i += 1
    if toks[i] == ('t', '{'):
      sub, i = parse_message(toks, i + 1, True)
      assert toks[i] == ('t', '}')
      i += 1
      msg.append((name, sub))
    elif toks[i] == ('t', '['):
      i += 1
      while toks[i] != ('t', ']'):
        if toks[i] != ('t', ','):
          msg.append((name, toks[i][1]))
        i += 1
      i += 1
    else:
      val = toks[i][1]
      i += 1
      while toks[i:i + 1] and toks[i][0] == 's' and toks[i - 1][0] == 's':
        val += toks[i][1]
        i += 1
      msg.append((name, val))
  return msg, i


def parse(paths):
  text = '\n'.join(open(p, encoding='utf8').read() for p in paths)
  msg, _ = parse_message(list(tokens(text)), 0, False)
  return msg


NOTES = []


def char_of(name, prefixes):
  found = set()
  for p in prefixes + ['']:
    try:
      c = unicodedata.lookup((p + ' ' + name).strip())
      if unicodedata.category(c) != 'Cc':
        found.add(c)
    except KeyError:
      pass
  return found


def field(item, raw, uname, prefixes, where):
  raws = [v for k, v in item if k == raw]
  names = [v for k, v in item if k == uname]
  by_name = None
  if names:
    parts = [char_of(n, prefixes) for n in names]
    if all(len(p) == 1 for p in parts):
      by_name = ''.join(next(iter(p)) for p in parts)
    else:
      NOTES.append('%s: unresolved %s' % (where, names))
  if raws:
    if by_name is not None and by_name != raws[-1]:
      NOTES.append('%s: raw %r differs from names %s' % (where, raws[-1], names))
    return raws[-1]
  return by_name


def rows(paths):
  msg = parse(paths)
  prefixes = [v for k, v in msg if k == 'uname_prefix']
  to_prefixes = [v for k, v in msg if k == 'to_uname_prefix'] or prefixes
  out = []
  for k, item in msg:
    if k != 'item':
      continue
    src = field(item, 'raw', 'uname', prefixes, paths[-1])
    dst = field(item, 'to_raw', 'to_uname', to_prefixes, paths[-1])
    assert src, (paths, item)
    out.append((src, dst))
  return out


def build_components(script):
  """component name -> textproto paths, from BUILD.bazel."""
  d = os.path.join(BRAHMIC, script)
  text = re.sub(r'#.*', '', open(os.path.join(d, 'BUILD.bazel')).read())
  comps = {}
  for m in re.finditer(
      r'^(empty_components_tsv|components_tsv_from_common|components_tsv_local_with_common|'
      r'components_tsv_local)\((.*?)\n?\)', text, re.S | re.M):
    kind, body = m.groups()
    more = re.search(r'more_text_protos_from = \[(.*?)\]', body, re.S)
    more = re.findall(r'"//([^"]+)"', more.group(1)) if more else []
    body = re.sub(r'more_text_protos_from = \[(.*?)\]', '', body, flags=re.S)
    prefix = os.path.join(d, 'uname_prefix.textproto')
    names = re.findall(r'"(\w+)"', body)
    for name in names:
      local = os.path.join(d, name + '.textproto')
      common = os.path.join(BRAHMIC, name + '.textproto')
      comps[name] = {
          'empty_components_tsv': [],
          'components_tsv_from_common': [prefix, common],
          'components_tsv_local_with_common': [prefix, local, common],
          'components_tsv_local': [prefix, local],
      }[kind] + [os.path.join(REPO, m, name + '.textproto') for m in more]
  return comps


def coq_str(s):
  return '[' + '; '.join(str(ord(c)) for c in s) + ']'


def coq_rules(name, rs, doc):
  body = ';\n   '.join('Rule %s %s' % (coq_str(a), coq_str(b if b is not None else a))
                       for a, b in rs)
  return '(** %s *)\nDefinition %s : list rule :=\n  [%s]%%N.\n' % (doc, name, body)


def coq_strs(name, rs, doc):
  body = ';\n   '.join(coq_str(a) for a, _ in rs)
  return '(** %s *)\nDefinition %s : list str :=\n  [%s]%%N.\n' % (doc, name, body)


def rel(paths):
  return ', '.join(os.path.relpath(p, REPO) for p in paths) or 'an empty file'


def emit(fname, head, parts):
  with open(os.path.join(OUT, fname), 'w') as f:
    f.write('(** %s\n    Generated by rocq/gen/gentables.py, do not edit. *)\n' % head)
    f.write('From Verif Require Import Base RuleModel.\n\n')
    f.write('\n'.join(parts))


def rows_or_empty(p):
  return rows(p) if p else []


def emit_unicode(chars):
  """Canonical decompositions and combining classes of the listed characters."""
  todo, seen = set(chars), set()
  decomp = {}
  while todo:
    c = todo.pop()
    seen.add(c)
    d = unicodedata.decomposition(c)
    if d and not d.startswith('<'):
      decomp[c] = ''.join(chr(int(x, 16)) for x in d.split())
      todo |= set(decomp[c]) - seen
  ccc = {c: unicodedata.combining(c) for c in seen if unicodedata.combining(c)}
  emit('UnicodeTables.v',
       'Canonical decomposition mappings and combining classes (Unicode %s) of the\n'
       '    characters in the NFC rule tables.' % unicodedata.unidata_version,
       ['Definition decomp_table : list (N * str) :=\n  [%s]%%N.\n' % ';\n   '.join(
           '(%d, %s)' % (ord(c), coq_str(d)) for c, d in sorted(decomp.items())),
        'Definition ccc_table : list (N * N) :=\n  [%s]%%N.\n' % '; '.join(
            '(%d, %d)' % (ord(c), k) for c, k in sorted(ccc.items()))])


GENSYMS = {}


def gensym(name):
  """A label outside the Unicode range for each generated symbol."""
  assert name.startswith('[') and name.endswith(']'), name
  return GENSYMS.setdefault(name, 0x110000 + len(GENSYMS))


FIELDS = ['accept', 'coda', 'consonant', 'dead_consonant', 'inherent_vowel', 'standalone',
          'subjoined_consonant', 'virama', 'vowel', 'vowel_length_sign', 'vowel_sign']
RULE_FIELDS = ['nfc', 'reading_norm', 'visual_rewrite']


def pair_list(rs):
  return '[' + ';\n     '.join(
      '(%s, %s)' % (coq_str(a), 'None' if not b else 'Some ' + coq_str(b)) for a, b in rs) + ']'


def emit_scripts(comps):
  parts = []
  for s in SCRIPTS:
    fields = []
    for n in FIELDS:
      fields.append('  sd_%s := %s%%N' % (n, pair_list(rows_or_empty(comps[s][n]))))
    for n in RULE_FIELDS:
      rs = rows_or_empty(comps[s][n])
      assert all(b for _, b in rs)
      fields.append('  sd_%s := [%s]%%N' % (n, ';\n     '.join(
          'Rule %s %s' % (coq_str(a), coq_str(b)) for a, b in rs)))
    fields.append('  sd_preserve := [%s]%%N' % '; '.join(
        'Preserve %s %d' % (coq_str(a), gensym(b))
        for a, b in rows_or_empty(comps[s]['preserve'])))
    config = os.path.join(BRAHMIC, s, 'script_config.textproto')
    noinh = os.path.exists(config) and ('no_inherent_vowel', 'true') in parse([config])
    fields.append('  sd_no_inherent_vowel := %s' % ('true' if noinh else 'false'))
    parts.append('Definition data_%s : script_data := {|\n%s |}.\n' % (s, ';\n'.join(fields)))
  parts.append('Definition all_scripts : list script_data :=\n  [%s].\n' %
               '; '.join('data_' + s for s in SCRIPTS))
  with open(os.path.join(OUT, 'ScriptTables.v'), 'w') as f:
    f.write('(** The component tables of the Brahmic scripts of brahmic/util.py:75-96, from\n'
            '    nisaba/scripts/brahmic/data/<Script>/*.textproto as combined by BUILD.bazel.\n'
            '    Generated by rocq/gen/gentables.py, do not edit. *)\n')
    f.write('From Verif Require Import Base RuleModel VisualModel ScriptData.\n\n')
    f.write('\n'.join(parts))


def main():
  comps = {s: build_components(s) for s in SCRIPTS}
  parts = []
  for s in SCRIPTS:
    p = comps[s]['nfc']
    parts.append(coq_rules('nfc_' + s, rows(p) if p else [], rel(p)))
  parts.append('(** nfc.py:45-52: all_rules, in the order of u.SCRIPTS *)\n'
               'Definition nfc_BRAHMIC : list rule :=\n  %s.\n' %
               ' ++ '.join('nfc_' + s for s in SCRIPTS))
  parts.append('Definition nfc_brahmic_tables : list (list rule) :=\n  [%s].\n' %
               '; '.join('nfc_' + s for s in SCRIPTS))
  p = [os.path.join(ARAB, 'nfc.textproto')]
  parts.append(coq_rules('nfc_ARAB', rows(p), rel(p)))
  emit('NfcTables.v', 'NFC rule tables of the Brahmic scripts and of Arabic.', parts)
  emit_unicode([c for s in SCRIPTS for row in rows_or_empty(comps[s]['nfc']) for x in row
                for c in x] + [c for row in rows(p) for x in row for c in x])
  emit_scripts(comps)
  r = [os.path.join(ARAB, 'reversible_roman.textproto')]
  emit('RomanTables.v', 'The reversible romanization table of Arabic script.',
       ['(** %s *)\nDefinition roman_table : list (str * str) :=\n  [%s]%%N.\n' % (
           rel(r), ';\n   '.join('(%s, %s)' % (coq_str(a), coq_str(b)) for a, b in rows(r)))])
  f = [os.path.join(BRAHMIC, 'Mlym', 'fixed.textproto')]
  emit('FixedTables.v', 'Fixed rule romanization of Malayalam.', [coq_rules('fixed_Mlym', [(a, b or '') for a, b in rows(f)], rel(f))])
  for n in sorted(set(NOTES)):
    print('note:', n)


if __name__ == '__main__':
  main()
