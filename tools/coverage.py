#!/usr/bin/env python3
"""Which functions of /repo the models cite.  Writes the tables of section 6 of DESIGN.md between the markers."""
import re, os, glob
ROOT = '/repo/'
DIRS = {  # where a model looks for a file name that occurs more than once
 'BrioModel': ['hbook'], 'BrioGenModel': ['brio/cmd/brio-gen/internal/gen'], 'HopsModel': ['hbook'], 'LcioDataModel': ['lcio'], 'LcioFileModel': ['lcio', 'sio'], 'PredModel': ['fastjet/internal/predicates'], 'SlhaModel': ['slha'], 'HepevtModel': ['hepevt'], 'LhefModel': ['lhef'], 'CsvModel': ['csvutil'], 'YodaModel': ['hbook'], 'YodaCnvModel': ['hbook','hbook/yodacnv'], 'YodaH2Model': ['hbook'], 'PdtModel': ['heppdt'], 'SqlModel': ['groot/rsql'], 'SqlArgsModel': ['groot/rsql'], 'SqlSelectModel': ['groot/rsql'], 'SqlTypesModel': ['groot/rsql'], 'HbookModel': ['hbook'], 'SliceopModel': ['sliceop'], 'RbytesModel': ['groot/rbytes'], 'TruncModel': ['groot/rbytes'],
 'FreelistModel': ['groot/riofs'], 'KeyModel': ['groot/riofs'], 'DirModel': ['groot/riofs'], 'CompressModel': ['groot/internal/rcompress'],
 'TreeModel': ['groot/rtree'], 'HttpModel': ['groot/riofs/plugin/http', 'groot/internal/httpio'], 'RioModel': ['rio'], 'SioModel': ['sio'],
 'LcioModel': ['lcio'], 'HeapModel': ['fastjet/internal/heap'], 'FastjetModel': ['fastjet'], 'XrdModel': ['xrootd'], 'XrdCliModel': ['xrootd'],
 'XrdMuxModel': ['xrootd'], 'XrdSrvModel': ['xrootd'], 'XrdHandleModel': ['xrootd'], 'TarjanModel': ['fwk'], 'DflowModel': ['fwk'],
 'StoreModel': ['fwk'], 'ParModel': ['fwk'], 'HepmcModel': ['hepmc'], 'HepmcTextModel': ['hepmc'], 'PidModel': ['heppdt'], 'RobjModel': ['groot/rbytes', 'groot/rcont', 'groot/rbase'], 'RfileModel': ['groot/riofs'], 'RecdirModel': ['groot/riofs'], 'RwalkModel': ['groot/riofs'], 'FmomModel': ['fmom'], 'HistModel': ['hbook'] }
idx = {}
funcs = {}
for r, d, fs in os.walk(ROOT):
    for f in fs:
        if not f.endswith('.go') or f.endswith('_test.go'): continue
        p = os.path.join(r, f)[len(ROOT):]
        if '/testdata/' in '/' + p: continue
        idx.setdefault(f, []).append(p)
        t = open(ROOT + p, errors='replace').read().split('\n')
        out = []
        for i, l in enumerate(t):
            m = re.match(r'func\s+(?:\(\s*\w*\s*\*?(\w+)(?:\[.*?\])?\s*\)\s*)?(\w+)', l)
            if m:
                b = i
                if not l.rstrip().endswith('}') or l.rstrip().endswith('{}') is False:
                    while b + 1 < len(t) and not t[b].startswith('}') and not (b == i and re.search(r'\}\s*$', l)): b += 1
                out.append(((m.group(1) + '.' if m.group(1) else '') + m.group(2), i + 1, b + 1))
        funcs[p] = out
cited = {}
for v in sorted(glob.glob('/verif/rocq/theories/*Model.v') + glob.glob('/verif/rocq/theories/*.v')):
    name = os.path.basename(v)[:-2]
    s = open(v).read(); cur = None
    for c in re.finditer(r'\(\*.*?\*\)', s, re.S):
        for m in re.finditer(r'([A-Za-z0-9_/-]+\.go)(?::|\b)|(?<![\w.^=-])(\d{1,4})-(\d{1,4})(?![\w.^])|:(\d{1,4})(?![\w-])', c.group(0)):
            if m.group(1): cur = m.group(1); continue
            if cur is None: continue
            cand = [p for p in idx.get(cur.split('/')[-1], []) if ('/' + p).endswith('/' + cur)]
            pref = DIRS.get(name, [])
            if pref: cand = [p for p in cand if any(p.startswith(q + '/') for q in pref)] or cand
            if len(cand) > 1:
                exact = [p for p in cand if any(p == q + '/' + cur for q in pref)]
                cand = exact or cand
            a = int(m.group(2) or m.group(4)); b = int(m.group(3) or m.group(4))
            for p in cand[:1]:
                for (f, x, y) in funcs[p]:
                    if x <= b and a <= y: cited.setdefault(p, set()).add(f)
out = ['Generated by tools/coverage.py from the citations in the models. A function is listed as modelled when a definition cites lines of it.', '']
tot = sum(len(x) for x in funcs.values()); n = sum(len(x) for x in cited.values())
out += [f'{n} functions in {len(cited)} files are cited.', '', '| file | modelled | not modelled |', '|---|---|---|']
for p in sorted(cited):
    yes = [f for f, _, _ in funcs[p] if f in cited[p]]; no = [f for f, _, _ in funcs[p] if f not in cited[p]]
    out.append(f'| {p} | {", ".join(yes)} | {", ".join(no) or "-"} |')
pk = {}
for p in funcs:
    d = os.path.dirname(p) or '.'
    pk.setdefault(d, []).append(p)
none = sorted(d for d in pk if not any(p in cited for p in pk[d]))
part = sorted(p for p in funcs if p not in cited and os.path.dirname(p) in {os.path.dirname(q) for q in cited} and funcs[p])
out += ['', 'Files of the same packages of which nothing is modelled: ' + ', '.join(part) + '.', '', 'Packages of which nothing is modelled: ' + ', '.join(none) + '.']
D = '/verif/DESIGN.md'; s = open(D).read()
A, B = '<!-- coverage -->', '<!-- end of coverage -->'
blk = A + '\n' + '\n'.join(out) + '\n' + B
if A in s: s = s[:s.index(A)] + blk + s[s.index(B) + len(B):]
else: s = s.rstrip('\n') + '\n\n' + blk + '\n'
open(D, 'w').write(s)
print(n, 'of', tot)
