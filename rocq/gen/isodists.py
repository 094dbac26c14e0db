"""Certificates for the ISO machines: pairs of automaton states and how much dearer one
can be than the other.  Coq checks them; this only proposes them.

usage: isodists.py REPO OUT
"""
import os
import sys
sys.path.insert(0, os.path.dirname(os.path.abspath(__file__)))
import gentables as g

g_sym = [('‌', '|'), ('‍', '+')]


def maps(comp):
  def tab(n):
    return [(a, b if b else a) for a, b in g.rows_or_empty(comp[n])]
  def ins(n):
    return [a for a, _ in tab(n)]
  return [tab('consonant'), tab('subjoined_consonant') or [('', '')], [('', '')],
          tab('vowel_sign'), tab('vowel'), tab('vowel_length_sign'), tab('coda'),
          tab('dead_consonant'), tab('standalone'), [('', x) for x in ins('inherent_vowel')],
          [('', '-')], [('', '.')], [(x, '') for x in ins('virama')],
          [(x, '˘') for x in ins('virama')], g_sym]


def leaf(n): return ('L', n)
def cat(*l):
  r = l[-1]
  for x in reversed(l[:-1]): r = ('.', x, r)
  return r
def alt(*l):
  r = l[-1]
  for x in reversed(l[:-1]): r = ('|', x, r)
  return r
def star(a): return ('*', a)


def iso_body():
  consonant = cat(leaf(0), alt(leaf(1), leaf(2)))
  vowel_sign, vowel, ins, dv = leaf(3), leaf(4), leaf(9), leaf(12)
  dot = cat(leaf(11), vowel)
  dots = cat(dot, star(dot))
  low = ('W', 1)
  return alt(
      cat(consonant, vowel_sign), cat(consonant, ins, low), cat(consonant, dv, low),
      cat(vowel, low), cat(leaf(6), low), leaf(7), leaf(5), cat(leaf(8), low),
      cat(leaf(10), vowel_sign, star(dot), low), cat(leaf(13), ('W', 2)), leaf(14),
      cat(vowel, dots, low), cat(consonant, vowel_sign, dots), cat(consonant, dv, dots),
      cat(consonant, ins, dots))


def nulls(env, s):
  k = s[0]
  if k == 'L': return [(o, 0) for i, o in env[s[1]] if i == '']
  if k == 'W': return [('', s[1])]
  if k == '.': return [(a + b, x + y) for a, x in nulls(env, s[1]) for b, y in nulls(env, s[2])]
  if k == '|': return nulls(env, s[1]) + nulls(env, s[2])
  assert not nulls(env, s[1])
  return [('', 0)]
def read_row(i, o, k):
  if not i: return []
  if len(i) == 1: return [(o, 0, i, (None, k))]
  return [('', 0, i[0], ((i[1:], o), k))]
def pre(l, m): return [(a + o, x + w, c, q) for a, x in l for o, w, c, q in m]
def direct(env, s, k):
  t = s[0]
  if t == 'L': return [m for i, o in env[s[1]] for m in read_row(i, o, k)]
  if t == 'W': return []
  if t == '.': return direct(env, s[1], (s[2],) + k) + pre(nulls(env, s[1]), direct(env, s[2], k))
  if t == '|': return direct(env, s[1], k) + direct(env, s[2], k)
  return direct(env, s[1], (s,) + k)
def stack_moves(env, body, k):
  if not k: return direct(env, body, ())
  return direct(env, k[0], k[1:]) + pre(nulls(env, k[0]), stack_moves(env, body, k[1:]))
def stack_nulls(env, k):
  if not k: return [('', 0)]
  return [(a + b, x + y) for a, x in nulls(env, k[0]) for b, y in stack_nulls(env, k[1:])]


def nfa(env, s):
  st = [(None, ())]
  idx = {st[0]: 0}
  tr, fin = [], []
  i = 0
  while i < len(st):
    q = st[i]
    t = {}
    for o, w, c, q2 in (read_row(*q[0], q[1]) if q[0] else stack_moves(env, s, q[1])):
      if q2 not in idx:
        idx[q2] = len(st)
        st.append(q2)
      t.setdefault(c, set()).add((o, w, idx[q2]))
    tr.append({c: sorted(l) for c, l in t.items()})
    fin.append([] if q[0] else stack_nulls(env, q[1]))
    i += 1
  return sorted({c for t in tr for c in t}), st, tr, fin


INF = 10 ** 6


def dist(tr, fin, cap=6):
  n = len(tr)
  f = [min([w for _, w in x], default=None) for x in fin]
  d = [[-cap] * n for _ in range(n)]
  best = [{c: sorted({(w, q) for _, w, q in l}) for c, l in t.items()} for t in tr]
  changed = True
  while changed:
    changed = False
    for q in range(n):
      for p in range(n):
        if d[q][p] >= INF: continue
        v = -cap if f[p] is None else (INF if f[q] is None else f[q] - f[p])
        for c, l in best[p].items():
          if v > cap: break
          lq = best[q].get(c, [])
          for w, p2 in l:
            v = max(v, min([w2 - w + d[q2][p2] for w2, q2 in lq], default=INF))
        if v > cap: v = INF
        if v > d[q][p]:
          d[q][p] = v
          changed = True
  return d


def lcp(l):
  a = l[0]
  for b in l[1:]:
    a = os.path.commonprefix([a, b])
  return a


def det(al, tr, d, maxn):
  """Reachable pruned configurations, or None when too many."""
  k0 = ((0, '', 0),)
  seen, todo = {k0}, [k0]
  while todo:
    k = todo.pop(0)
    for c in al:
      conf = {(q, o + o2, w + w2) for p, o, w in k for o2, w2, q in tr[p].get(c, [])}
      if not conf: continue
      conf = [x for x in conf if not any(w2 + d[q][x[0]] < x[2] for q, _, w2 in conf)]
      m, pf = min(w for _, _, w in conf), lcp([o for _, o, _ in conf])
      k2 = tuple(sorted((q, o[len(pf):], w - m) for q, o, w in conf))
      if k2 not in seen:
        seen.add(k2)
        todo.append(k2)
        if len(seen) > maxn: return None
  return seen


def used(al, tr, d, seen):
  need = set()
  for k in seen:
    for c in al:
      conf = {(q, o + o2, w + w2) for p, o, w in k for o2, w2, q in tr[p].get(c, [])}
      keep = [x for x in conf if not any(w2 + d[q][x[0]] < x[2] for q, _, w2 in conf)]
      for x in conf:
        if x in keep: continue
        b = [y for y in keep if y[2] + d[y[0]][x[0]] < x[2]]
        if any(y[0] == x[0] for y in b): continue
        need.add((min(b, key=lambda y: (d[y[0]][x[0]], y[0]))[0], x[0]))
  todo = sorted(need)
  res = set(need)
  while todo:
    q, p = todo.pop()
    for c, l in tr[p].items():
      for _, w, p2 in l:
        b = [(w2 + d[q2][p2], q2) for _, w2, q2 in tr[q].get(c, [])
             if w2 + d[q2][p2] <= w + d[q][p]]
        b.sort(key=lambda t: (t[1] != p2, (t[1], p2) not in res, t[0]))
        q2 = b[0][1]
        if q2 != p2 and (q2, p2) not in res:
          res.add((q2, p2))
          todo.append((q2, p2))
  return sorted(res)


def main():
  out = ['(** GENERATED by rocq/gen/isodists.py.  For each script, in both directions, entries\n'
         '    (q, p, a, b): what automaton state p reads, state q reads for at most a - b more.\n'
         '    These are proposals; [check_dists] decides them. *)\n'
         'From Verif Require Import Base.\n\n']
  for s in g.SCRIPTS + ['Guru_nfc']:
    env = maps(g.build_components(s[:4]))
    if s == 'Guru_nfc':  # Without SHA, which NFC removes
      env[0] = [(i, o) for i, o in env[0] if i != '\u0a36']
    for name, e in (('from', env), ('to', [[(o, i) for i, o in m] for m in env])):
      al, st, tr, fin = nfa(e, iso_body())
      d = dist(tr, fin)
      seen = det(al, tr, d, 600)
      l = used(al, tr, d, seen) if seen else []
      print(s, name, len(st), seen and len(seen), len(l))
      ents = ['((%d, %d)%%positive, %d, %d)' % (q + 1, p + 1, max(d[q][p], 0), max(-d[q][p], 0)) for q, p in l]
      body = ';\n   '.join('; '.join(ents[i:i + 8]) for i in range(0, len(ents), 8))
      out.append('Definition dists_%s_%s : list (positive * positive * N * N) :=\n  [%s]%%N.\n' % (name, s, body))
  for name in ('from', 'to'):
    out.append('Definition dists_%s : list (list (positive * positive * N * N)) :=\n  [%s].\n' % (
        name, '; '.join('dists_%s_%s' % (name, s) for s in g.SCRIPTS)))
  with open(os.path.join(sys.argv[2], 'IsoDists.v'), 'w') as f: f.write(''.join(out))


if __name__ == '__main__':
  main()
