#!/usr/bin/env python3
"""Checks the citations of the model: every definition of a model file stands under a comment that cites lines of /repo (or says that it
models something of std), the lines exist, and which lines of the sources no definition cites."""
import re, os, sys
here = os.path.dirname(os.path.abspath(__file__))
th = os.path.join(here, '..', 'rocq', 'theories')
design = open(os.path.join(here, '..', 'DESIGN.md')).read()
part = design[design.index('Model (no proofs)'):design.index('Specifications (they')]
models = re.findall(r'^\| `(\w+\.v)`', part, re.M)
cite = re.compile(r'((?:src|examples|benches)/[\w/{},*.]+\.rs)(?::((?:\d+(?:-\d+)?)(?:, *\d+(?:-\d+)?)*))?')
covered = {}
bad = 0
def names(f):
    m = re.match(r'(.*)\{(.*)\}(.*)', f)
    return [m.group(1) + x + m.group(3) for x in m.group(2).split(',')] if m else [f]
for mf in models:
    text = open(os.path.join(th, mf)).read()
    # the comment a definition stands under: the last doc comment before it
    pos = 0
    comment = ''
    items = re.compile(r'\(\*\*.*?\*\)|^\s*(?:Definition|Fixpoint|Inductive|Record|Variant|CoFixpoint)\s+(\w+)', re.S | re.M)
    for m in items.finditer(text):
        if m.group(1) is None:
            comment = m.group(0)
            for f, ls in cite.findall(comment):
                for g in names(f):
                    if '*' in g: continue
                    p = '/repo/' + g
                    if not os.path.exists(p): print(mf, 'no such file', g); bad += 1; continue
                    n = len(open(p).read().split('\n'))
                    for r in (ls.split(',') if ls else []):
                        a, _, b = r.strip().partition('-'); a = int(a); b = int(b or a)
                        if not (1 <= a <= b <= n): print(mf, 'bad lines', g, r); bad += 1
                        covered.setdefault(g, set()).update(range(a, b + 1))
        elif not cite.search(comment) and not re.search(r'\bstd\b|\bcore\b|conv|machine|Rust', comment):
            print(mf, m.group(1), '|', comment[:150].replace('\n', ' ')); bad += 1
print(bad, 'problems')
for g in sorted(covered) + [x for x in ('src/lib.rs',) if x not in covered]:
    lines = open('/repo/' + g).read().split('\n')
    out = []
    test = False
    for i, l in enumerate(lines, 1):
        if re.match(r'\s*#\[cfg\(test\)\]', l): test = True
        if test: break
        s = l.strip()
        if i in covered.get(g, ()) or not s or s.startswith('//') or s.startswith('#') or s in ('}', '{', ');', '};') or s.startswith('use ') or s.startswith('pub use') or s.startswith('mod '): continue
        out.append(i)
    if out: print(g, 'not cited:', out)
