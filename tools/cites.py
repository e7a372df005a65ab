#!/usr/bin/env python3
"""List the citations of the Coq files that do not start and end on a top-level declaration of the cited Go file, with the text
they point at.  Usage: cites.py [file.v ...]; exact citations are only counted."""
import re, os, sys, glob
ROOT = '/repo/'
idx = {}
for r, d, fs in os.walk(ROOT):
    for f in fs:
        if f.endswith('.go'):
            idx.setdefault(f, []).append(os.path.join(r, f)[len(ROOT):])
cache = {}
def text(p):
    if p not in cache:
        cache[p] = open(ROOT + p, errors='replace').read().split('\n')
    return cache[p]
def spans(p):
    """line ranges of top-level declarations, with and without their comment"""
    t = text(p); out = {}
    i = 0
    while i < len(t):
        if re.match(r'(func|type|const|var)\b', t[i]):
            b = i
            if not re.search(r'[}\)]\s*(//.*)?$', t[i]) or t[i].rstrip().endswith(('{', '(')):
                while b + 1 < len(t) and not re.match(r'[}\)]', t[b]): b += 1
            a = i
            while a > 0 and t[a - 1].startswith('//'): a -= 1
            name = t[i].split('{')[0].strip()[:70]
            out[(i + 1, b + 1)] = name; out[(a + 1, b + 1)] = name
        i += 1
    return out
def within(p, a):
    for (x, y), n in spans(p).items():
        if x <= a <= y: return n
    return '-'
files = sys.argv[1:] or sorted(glob.glob('/verif/rocq/theories/*.v'))
ex = tot = 0
for v in files:
    s = open(v).read(); cur = None; hits = []
    for c in re.finditer(r'\(\*.*?\*\)', s, re.S):
        for m in re.finditer(r'([A-Za-z0-9_/-]+\.go)(?::|\b)|(?<![\w.^=-])(\d{1,4})-(\d{1,4})(?![\w.^])|:(\d{1,4})(?![\w-])', c.group(0)):
            if m.group(1): cur = m.group(1); continue
            if cur is None: continue
            cand = [p for p in idx.get(cur.split('/')[-1], []) if ('/' + p).endswith('/' + cur)]
            a = int(m.group(2) or m.group(4)); b = int(m.group(3) or m.group(4))
            if a > b: continue
            tot += 1
            if any((a, b) in spans(p) for p in cand): ex += 1; continue
            nxt = re.search(r'(?:Definition|Fixpoint|Record|Inductive)\s+(\w+)', s[c.end():c.end() + 400])
            hits.append((s.count('\n', 0, c.start() + m.start()) + 1, cur, a, b, nxt.group(1) if nxt else '', cand))
    if hits: print('##', os.path.basename(v))
    for ln, f, a, b, d, cand in hits:
        if not cand: print(f'{ln}: {d} <- {f}:{a}-{b} NO FILE'); continue
        for p in cand[:2]:
            t = text(p)
            if b > len(t): print(f'{ln}: {d} <- {p}:{a}-{b} PAST END {len(t)}'); continue
            print(f'{ln}: {d} <- {p}:{a}-{b} in [{within(p, a)}] | {t[a-1].strip()[:60]} ... {t[b-1].strip()[:40]}')
print(tot, 'citations,', ex, 'exactly a declaration')
