#!/usr/bin/env python3
"""Checks the source lines cited in the model files.

For every comment with "lines A-B" or "line A", each name of the comment that the cited
file defines (def, class, function or constant) should be defined or used within the
range.  Prints what is not, and ranges past the end of the file.

Usage: citations.py REPO FILE.v ...
"""
import os, re, sys

repo, files = sys.argv[1], sys.argv[2:]
index = {}
for d, _, fs in os.walk(repo):
    for f in fs:
        index.setdefault(f, []).append(os.path.join(d, f))
EXT = r'(?:py|cc|h|grm|tsv|textproto|bzl)'
bad = n = 0
for v in files:
    text = open(v).read()
    default = None
    for m in re.finditer(r'\(\*(.*?)\*\)', text, re.S):
        c = ' '.join(m.group(1).split())
        line = text[:m.start()].count('\n') + 1
        paths = re.findall(r'[\w/.-]+\.' + EXT + r'\b', c)
        if default is None and paths:
            default = paths[0]
        for r in re.finditer(r'\blines? (\d+)(?:-(\d+))?', c):
            n += 1
            a, b = int(r.group(1)), int(r.group(2) or r.group(1))
            before = [p for p in re.finditer(r'[\w/.-]+\.' + EXT + r'\b', c) if p.start() < r.start()]
            name = before[-1].group(0) if before else default
            if not name:
                print(f'{v}:{line}: no file for lines {a}-{b}'); bad += 1; continue
            cands = [p for p in index.get(os.path.basename(name), []) if p.endswith(name.lstrip('./'))]
            if default and len(cands) > 1:
                near = [p for p in cands if os.path.dirname(default) and os.path.dirname(default) in p]
                cands = near or cands
            if not cands:
                print(f'{v}:{line}: {name} not found'); bad += 1; continue
            ok, why = False, ''
            for p in cands:
                src = open(p, errors='replace').read().split('\n')
                if b > len(src):
                    why = f'past the end ({len(src)})'; continue
                chunk = '\n'.join(src[a - 1:b])
                seg = c[(before[-1].end() if before else 0):r.start()]
                seg = c[:r.start()].split('lines')[-1] if not seg.strip(' ,') else seg
                words = set(re.findall(r'[A-Za-z_]\w{2,}', c[:r.start()].rsplit('lines', 1)[-1]))
                whole = '\n'.join(src)
                defined = {w for w in words if re.search(r'(?:def|class)\s+' + w + r'\b|\b' + w + r'\s*\(|^' + w + r'\s*=', whole, re.M)}
                defined = {w for w in defined if re.search(r'(?:def|class)\s+' + w + r'\b|::' + w + r'\s*\(|^\s*' + w + r'\s*=', whole, re.M)}
                miss = {w for w in defined if not re.search(r'\b' + w + r'\b', chunk)}
                if defined and miss == defined:
                    why = 'does not mention ' + ', '.join(sorted(miss))
                else:
                    ok = True; break
            if not ok:
                print(f'{v}:{line}: {name} {a}-{b}: {why}'); bad += 1
print(f'{n} citations, {bad} doubtful')
