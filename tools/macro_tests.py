#!/usr/bin/env python3
"""Translates the unit tests of /repo/src/macros.rs (mod test) into rocq/theories/ConformanceMacro.v.

The invocations of parse! become token trees; the functions and blocks of the tests become Gallina functions.  Every assert_eq! on a
result becomes an equation.  Fails loudly on anything it does not understand."""
import re, sys

SRC = '/repo/src/macros.rs'
OUT = '/verif/rocq/theories/ConformanceMacro.v'
lines = open(SRC).read().split('\n')
start = next(i for i, l in enumerate(lines) if l.startswith('mod test'))

TOK = re.compile(r'''\s+|//[^\n]*|(?P<str>"[^"]*")|(?P<num>\d+)(?:[ui]\d+)?|(?P<id>[A-Za-z_]\w*)|(?P<op>->|>>|::|.)''', re.S)
def lex(s):
    out = []
    for m in TOK.finditer(s):
        for k in ('str', 'num', 'id', 'op'):
            if m.group(k) is not None: out.append((k, m.group(k)))
    return out

names = {'ret': 0, 'err': 1}
lits = []
blocks = []
FIX = {'+': 0, '-': 1, '.': 2, '::': 3, '&': 4, 'as': 5, '_': 6}
OPS = {';': 'Semi', '>>': 'Shr', '<': 'Lt', '|': 'Bar', '>': 'Gt', '*': 'Star', '@': 'At', ',': 'Comma', ':': 'Colon', '=': 'Eq', '->': 'Arrow'}
def name(x): return names.setdefault(x, len(names))
def coq_lit(k, v): return 'VStr %s%%string' % v if k == 'str' else 'VNum %s' % v
def lit(k, v):
    c = coq_lit(k, v)
    if c not in lits: lits.append(c)
    return 'Other %d' % (100 + lits.index(c))

def close(ts, i):
    """index behind the bracket closing ts[i]"""
    d = 0
    while True:
        if ts[i][1] in '([{' and ts[i][0] == 'op': d += 1
        if ts[i][1] in ')]}' and ts[i][0] == 'op': d -= 1
        i += 1
        if d == 0: return i

def trees(ts):
    out, i = [], 0
    while i < len(ts):
        k, v = ts[i]
        if (k, v) == ('op', '('):
            j = close(ts, i); out.append('Group [%s]' % '; '.join(trees(ts[i+1:j-1]))); i = j; continue
        if (k, v) == ('op', '{'):
            j = close(ts, i); blocks.append(body(ts[i+1:j-1], {})); out.append('Other %d' % (10 + len(blocks) - 1)); i = j; continue
        if k == 'id':
            out.append('Let' if v == 'let' else 'Other %d' % FIX[v] if v in FIX else 'Ident %d' % name(v))
        elif k == 'op':
            out.append(OPS[v] if v in OPS else 'Other %d' % FIX[v])
        else: out.append(lit(k, v))
        i += 1
    return out

def split(ts, sep):
    out, cur, i = [], [], 0
    while i < len(ts):
        if ts[i][0] == 'op' and ts[i][1] in '([{':
            j = close(ts, i); cur += ts[i:j]; i = j; continue
        if ts[i] == ('op', sep): out.append(cur); cur = []
        else: cur.append(ts[i])
        i += 1
    return out + ([cur] if cur else [])

def expr(ts, env):
    """a Gallina term for a value"""
    for op in '+-':
        for i in range(len(ts) - 1, 0, -1):
            if ts[i] == ('op', op): return '(v_%s %s %s)' % ({'+': 'add', '-': 'sub'}[op], expr(ts[:i], env), expr(ts[i+1:], env))
    if len(ts) == 3 and ts[1] == ('id', 'as'): return expr(ts[:1], env)
    if ts[0] == ('op', '(') and close(ts, 0) == len(ts):
        parts = split(ts[1:-1], ',')
        return '(VTup [%s])' % '; '.join(expr(p, env) for p in parts)
    assert len(ts) == 1, ts
    k, v = ts[0]
    if k == 'id': return env[v] if v in env else '(var rho %d)' % name(v)
    return '(%s)' % coq_lit(k, v)

def outcome(ts, env):
    """Data::Value(n, e), Data::Error(n, e), s.ret(e)"""
    src = [t for t in ts]
    if src[0] == ('id', 'Data'):
        kind = src[2][1]; i = 3
        if src[i] == ('op', '::'):
            while src[i] != ('op', '('): i += 1
            # Data::Value::<u32, ()>(..): the last group
            i = max(j for j in range(len(src)) if src[j] == ('op', '(') and close(src, j) == len(src))
        assert close(src, i) == len(src), src
        a, b = split(src[i+1:-1], ',')
        if len(a) == 3: pos = 'keep'
        else: pos = a[0][1]
        f = {'Value': 'value', 'Error': 'error'}[kind]
        return '(%s %s %s)' % (f if pos != 'keep' else f + '_here', '' if pos == 'keep' else pos, expr(b, env))
    if len(src) > 3 and src[1] == ('op', '.') and src[2] == ('id', 'ret'):
        i = max(j for j in range(len(src)) if src[j] == ('op', '(') and close(src, j) == len(src))
        return '(value_here %s)' % expr(src[i+1:-1], env)
    raise Exception(src)

def body(ts, env):
    stmts = split(ts, ';')
    out = outcome(stmts[-1], env)
    for st in reversed(stmts[:-1]):
        assert st[0] == ('id', 'assert_eq') and st[1] == ('op', '!'), st
        a, b = split(st[3:-1], ',')
        if b[0] == ('id', 'Input'): out = '(at_ %s %s)' % (b[2][1], out)
        elif len(a) == 3: out = '(at_ %s %s)' % (b[0][1], out)
        else: out = '(same %s %s %s)' % (expr(a, env), expr(b, env), out)
    return out

res = []
i = start
text = '\n'.join(lines)
tests = [j for j in range(start, len(lines)) if lines[j].strip() == '#[test]']
for n, j in enumerate(tests):
    tname = re.match(r'\s*fn (\w+)\(\)', lines[j+1]).group(1)
    ts = lex('\n'.join(lines[j+1:]))
    b = next(k for k in range(len(ts)) if ts[k] == ('op', '{'))
    ts = ts[b+1:close(ts, b)-1]
    fns, inputs, results, eqs, k = [], {}, {}, [], 0
    while k < len(ts):
        if ts[k] == ('id', 'fn'):
            f = ts[k+1][1]
            p = next(q for q in range(k, len(ts)) if ts[q] == ('op', '('))
            pe = close(ts, p)
            params = [q[0][1] for q in split(ts[p+1:pe-1], ',')][1:]
            b = next(q for q in range(pe, len(ts)) if ts[q] == ('op', '{'))
            be = close(ts, b)
            env = {x: '(arg ps %d)' % m for m, x in enumerate(params)}
            fns.append((name(f), f, body(ts[b+1:be-1], env)))
            k = be
        elif ts[k] == ('id', 'let'):
            var = ts[k+1][1]
            e = next(q for q in range(k, len(ts)) if ts[q] == ('op', '='))
            end = e
            while ts[end] != ('op', ';'):
                end = close(ts, end) if ts[end][0] == 'op' and ts[end][1] in '([{' else end + 1
            rhs = ts[e+1:end]
            if rhs[0] == ('id', 'Input'): inputs[var] = rhs[2][1]
            elif rhs[0] == ('id', 'parse'):
                inner = rhs[3:-1]
                parts = next((q for q in range(len(inner)) if inner[q] == ('op', ';')), None)
                results[var] = (None, None) if parts is None else (inner[parts-1][1], trees(inner[parts+1:]))
            k = end + 1
        elif ts[k] == ('id', 'assert_eq'):
            end = close(ts, k + 2)
            a, b = split(ts[k+3:end-1], ',')
            var = a[0][1]; inp, toks = results[var]
            if toks is None: eqs.append('expand_parse rust0 None = Some (CInput 0)')
            else:
                o = outcome(b, {})
                m = re.match(r'\((value|error) (\d+) (.*)\)$', o)
                eqs.append('run (fun f rho ps => %%s) [%s] %s = Some (%s)' % ('; '.join(toks), inputs[inp], ('Data (inp %s) %s' if m.group(1) == 'value' else 'Error [%s%%Z] %s') % (m.group(2), m.group(3))))
            k = end + 1
        else: assert ts[k] == ('op', ';'), ts[k]; k += 1
    table = 'bad'
    for f in reversed(fns): table = 'if f =? %d then %s else %s' % (f[0], f[2], table)
    res.append((j + 2, tname, table, eqs))

w = open(OUT, 'w')
w.write(open('/verif/tools/macro_prelude.v.txt').read())
w.write('\n(** The literals of the tests, [Other 100] and so on. *)\nDefinition literals : list val := [%s].\n' % '; '.join(lits))
w.write('\n(** Blocks in braces of the tests, [Other 10] and so on. *)\nDefinition blocks : list (tenv -> parser Z val val) :=\n  [%s].\n' % ';\n   '.join('fun rho => %s' % b for b in blocks))
w.write(open('/verif/tools/macro_eval.v.txt').read())
w.write('\n(** Names: %s. *)\n' % ', '.join('%d %s' % (v, k) for k, v in names.items()))
for line, tname, table, eqs in res:
    w.write('\n(** src/macros.rs:%d [%s]. *)\n' % (line, tname))
    uses = any('%s' in e for e in eqs)
    if uses: w.write('Definition fns_%s : nat -> tenv -> list val -> parser Z val val := fun f rho ps => %s.\n' % (tname, table))
    w.write('Example test_%s :\n  %s.\nProof. repeat split; vm_compute; reflexivity. Qed.\n' % (tname, ' /\\\n  '.join(e.replace('(fun f rho ps => %s)', 'fns_' + tname) for e in eqs)))
w.close()
print(len(res), 'tests', sum(len(r[3]) for r in res), 'equations')
