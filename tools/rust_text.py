#!/usr/bin/env python3
"""Writes rocq/theories/RustText.v and rocq/theories/BufferText.v: the text of functions of /repo/src as terms of the syntax of rocq/theories/Rust.v.

    python3 tools/rust_text.py [repo] > rocq/theories/RustText.v
    python3 tools/rust_text.py [repo] buffer > rocq/theories/BufferText.v

The Rust files are read as text: tokens, a recursive descent parser for the part of the language they use, and an
expander for the macros of src/combinators/macros.rs.  Attributes, visibility, lifetimes, types, bounds and `unsafe` are dropped.
What depends on types is listed in FROM_SAME, TRAITS and COERCE below."""
import re, sys, os

REPO = sys.argv[1] if len(sys.argv) > 1 else '/repo'
BUFFER = sys.argv[2:] == ['buffer']

# file, module, functions wanted (None: all)
FILES = [
    ('src/input.rs', 'input', None),
    ('src/parse_result.rs', 'parse_result', {'new', 'bind', 'then', 'map', 'map_err', 'inspect', 'unwrap', 'expect', 'unwrap_err', 'into_inner'}),
    ('src/parse.rs', '', None),
    ('src/parsers.rs', '', {'any', 'satisfy', 'satisfy_with', 'token', 'not_token', 'peek', 'peek_next', 'take', 'take_while', 'take_while1', 'take_till',
                            'scan', 'run_scanner', 'take_remainder', 'string', 'eof', 'unexpected', 'expected'}),
    ('src/combinators/mod.rs', '', None),
    ('src/combinators/bounded.rs', 'bounded', None),
]
BUFFER_FILES = [
    ('src/buffer/mod.rs', 'buffer', None),
    ('src/buffer/data_source.rs', 'data_source', None),
    ('src/buffer/buffer.rs', 'buffers', None),
    ('src/buffer/slice.rs', 'slice_stream', None),
    ('src/buffer/stateful.rs', 'stateful', None),
]
MACROS = 'src/combinators/macros.rs'

# `From::from` on a value which already has the type asked for (the reflexive implementation of std): file, line
FROM_SAME = {('src/parse_result.rs', 146)}
# functions and types of std
# traits whose functions are called by the name of the trait: the first argument decides
TRAITS = ['BoundedRange']
# `&e` where e is a buffer and a slice is wanted (`Deref`): file, e
COERCE = {('src/buffer/stateful.rs', 'EField (EVar "self") (Fname "buffer")')}
STD_FN = {'max': ('std', 'max')}
STD_CTOR = {'Some': ('Option', 'Some', 1), 'None': ('Option', 'None', 0), 'Ok': ('Result', 'Ok', 1), 'Err': ('Result', 'Err', 1), 'PhantomData': ('PhantomData', '', 0)}

PUNCT = ['..', '::', '->', '=>', '==', '!=', '<=', '>=', '&&', '||', '+=', '-=', '*=', '|=']

def tokenize(text):
    toks, i, line, n = [], 0, 1, len(text)
    while i < n:
        c = text[i]
        if c == '\n': line += 1; i += 1; continue
        if c.isspace(): i += 1; continue
        if text.startswith('//', i):
            while i < n and text[i] != '\n': i += 1
            continue
        if text.startswith('/*', i):
            j = text.index('*/', i); line += text.count('\n', i, j); i = j + 2; continue
        m = re.match(r"b?'(\\.|[^\\'])'", text[i:])
        if m: toks.append(('char', m.group(0), line)); i += m.end(); continue
        m = re.match(r"'[a-z_]+", text[i:])
        if m: toks.append(('life', m.group(0), line)); i += m.end(); continue
        m = re.match(r'b?"(\\.|[^"\\])*"', text[i:], re.S)
        if m: toks.append(('str', m.group(0), line)); line += m.group(0).count('\n'); i += m.end(); continue
        m = re.match(r'[A-Za-z_][A-Za-z0-9_]*', text[i:])
        if m: toks.append(('id', m.group(0), line)); i += m.end(); continue
        m = re.match(r'[0-9][0-9_]*(u8|u32|u64|usize|i8|i32)?', text[i:])
        if m: toks.append(('num', m.group(0), line)); i += m.end(); continue
        for p in PUNCT:
            if text.startswith(p, i): toks.append(('p', p, line)); i += len(p); break
        else:
            toks.append(('p', c, line)); i += 1
    return toks

OPEN, CLOSE = {'(': ')', '[': ']', '{': '}'}, {')', ']', '}'}

class Bad(Exception): pass

enums = {}      # type -> {variant: arity}
fields = {}     # types which are tuple structs: arity
macros = {}     # name -> [(pattern, body)]
functions = []  # (cfg, type or module, name, by_ref, params, body, file, line, line)
known = {}      # module -> names of functions
consts = {}     # (module, name) -> expression, file, line
flags = {}      # (module, name) -> number

def q(s): return '"' + s + '"'
def lst(xs): return '[' + '; '.join(xs) + ']'

class Parser:
    def __init__(self, toks, file, module, this=None, scope=(), renames=None, owner=''):
        self.t, self.i, self.file, self.module, self.this = toks, 0, file, module, this
        self.scope, self.renames, self.owner = list(scope), renames if renames is not None else {}, owner
        self.last = toks[0][2] if toks else 0

    # tokens
    def peek(self, k=0): return self.t[self.i + k][1] if self.i + k < len(self.t) else ''
    def kind(self, k=0): return self.t[self.i + k][0] if self.i + k < len(self.t) else ''
    def line(self): return self.t[self.i][2] if self.i < len(self.t) else self.last
    def next(self):
        t = self.t[self.i]; self.i += 1; self.last = t[2]; return t[1]
    def eat(self, s):
        if self.peek() == s and self.kind() in ('p', 'id'): self.next(); return True
        return False
    def need(self, s):
        if not self.eat(s): raise Bad('%s:%d: %s wanted, not %s' % (self.file, self.line(), s, self.peek()))
    def group(self):
        """the tokens within the delimiters that start here"""
        o = self.next(); assert o in OPEN, o
        depth, start = 1, self.i
        while depth:
            x = self.next()
            if self.t[self.i - 1][0] == 'p':
                if x in OPEN: depth += 1
                elif x in CLOSE: depth -= 1
        return self.t[start:self.i - 1]
    def sub(self, toks):
        return Parser(toks, self.file, self.module, self.this, self.scope, self.renames, self.owner)

    # what is dropped
    def attributes(self):
        """the condition of #[cfg(...)], if there is one"""
        cfg = ''
        while self.peek() == '#':
            self.next(); self.eat('!')
            g = [x[1] for x in self.group()]
            if g[0] == 'cfg': cfg = ' '.join(g[2:-1])
        return cfg
    def angle(self):
        if self.peek() == '<':
            depth = 0
            while True:
                x = self.next()
                if x in OPEN and self.t[self.i - 1][0] == 'p': self.i -= 1; self.group(); continue
                if x == '<': depth += 1
                if x == '>':
                    depth -= 1
                    if depth == 0: return
    def type(self):
        """skips a type; its first name"""
        name = None
        while self.peek() in ('&', 'mut') or self.kind() == 'life': self.next()
        if self.peek() == '(': self.group(); return 'tuple'
        if self.peek() == '[': self.group(); return 'slice'
        while True:
            if self.eat('_'): return '_'
            if self.kind() != 'id': raise Bad('%s:%d: type wanted, not %s' % (self.file, self.line(), self.peek()))
            name = self.next()
            if self.peek() == '<': self.angle()
            if self.peek() == '(':
                self.group()
                if self.eat('->'): self.type()
            if not self.eat('::'): return name
    def where(self):
        if self.peek() == 'where':
            while self.peek() not in ('{', ';'):
                if self.peek() in OPEN: self.group()
                elif self.peek() == '<': self.angle()
                else: self.next()

    # names
    def rename(self, x): return self.renames.get(x, x)
    def path(self):
        segs = []
        while True:
            if self.peek() == '<': self.angle()
            else: segs.append(self.next())
            if not self.eat('::'): return segs
    def ctor(self, segs):
        """type, variant and arity, if the path names a constructor"""
        if len(segs) == 1:
            x = segs[0]
            if x in STD_CTOR: return STD_CTOR[x]
            if self.rename(x) in fields: return (self.rename(x), '', fields[self.rename(x)])
        elif len(segs) == 2:
            ty = self.rename(self.this if segs[0] == 'Self' else segs[0])
            if ty in enums and segs[1] in enums[ty]: return (ty, segs[1], enums[ty][segs[1]])
        return None
    def name(self, segs, line):
        if len(segs) == 1 and segs[0] in self.scope: return 'EVar ' + q(segs[0])
        c = self.ctor(segs)
        if c: return ('ECtor %s %s' % (q(c[0]), q(c[1]))) if c[2] else 'ECon %s %s []' % (q(c[0]), q(c[1]))
        if segs == ['From', 'from']: return 'EFn "From" ' + ('"same"' if (self.file, line) in FROM_SAME else '"from"')
        if len(segs) == 1:
            x = segs[0]
            if (self.module, x) in flags or (self.module, x) in consts: return 'EFn "const" ' + q(self.module + '::' + x)
            if x in known.get(self.module, ()): return 'EFn %s %s' % (q(self.module), q(x))
            if x in known.get('', ()): return 'EFn "" ' + q(x)
            if x in STD_FN: return 'EFn %s %s' % tuple(map(q, STD_FN[x]))
            raise Bad('%s:%d: unknown name %s' % (self.file, line, x))
        m, x = segs[-2], segs[-1]
        if (m, x) in flags: return 'EFn "const" ' + q(m + '::' + x)
        if m == 'Self': m = self.this
        return 'EFn %s %s' % (q(m), q(x))

    # patterns: a term, and the variables go to the scope
    def pattern(self):
        while self.peek() in ('&', 'ref'): self.next()
        if self.eat('_'): return 'PWild'
        if self.kind() == 'num': return 'PNat ' + self.next()
        if self.peek() == '(':
            p = self.sub_shared(self.group()); ps = p.patterns()
            return 'PCon "" "" ' + lst(ps) if ps else 'PWild'
        mut = self.eat('mut')
        line = self.line(); segs = self.path(); c = self.ctor(segs)
        if c:
            ps = []
            if self.peek() == '(': p = self.sub_shared(self.group()); ps = p.patterns()
            return 'PCon %s %s %s' % (q(c[0]), q(c[1]), lst(ps))
        if len(segs) != 1: raise Bad('%s:%d: pattern %s' % (self.file, line, segs))
        self.scope.append(segs[0])
        return 'PVar %s %s' % ('true' if mut else 'false', q(segs[0]))
    def patterns(self):
        ps = []
        while self.i < len(self.t):
            ps.append(self.pattern())
            if self.peek() == ':': self.next(); self.type()
            if not self.eat(','): break
        return ps

    # a parser whose pattern variables should be seen by what follows shares its scope list
    def sub_shared(self, toks):
        p = self.sub(toks); p.scope = self.scope; return p

    # expressions
    def expr(self, struct=True):
        a = self.range(struct)
        if self.peek() == '=' and a.startswith('EAt '): self.next(); return 'ESetAt %s (%s)' % (a[4:], self.expr(struct))
        if self.peek() == '=' : self.next(); return 'ESet (%s) (%s)' % (a, self.expr(struct))
        for op, o in (('+=', 'OAdd'), ('-=', 'OSub')):
            if self.peek() == op:
                self.next(); return 'ESet (%s) (EBin %s (%s) (%s))' % (a, o, a, self.expr(struct))
        return a
    def range_end(self, struct):
        return self.peek() in (')', ']', ',', ';', '') or (not struct and self.peek() == '{')
    def range(self, struct):
        if self.eat('..'):
            if self.range_end(struct): return 'ERec "RangeFull" []'
            return 'ERec "RangeTo" [("end", %s)]' % self.oror(struct)
        a = self.oror(struct)
        if self.eat('..'):
            if self.range_end(struct): return 'ERec "RangeFrom" [("start", %s)]' % a
            return 'ERec "Range" [("start", %s); ("end", %s)]' % (a, self.oror(struct))
        return a
    def oror(self, struct):
        a = self.andand(struct)
        while self.peek() == '||': self.next(); a = 'EOr (%s) (%s)' % (a, self.andand(struct))
        return a
    def andand(self, struct):
        a = self.compare(struct)
        while self.peek() == '&&': self.next(); a = 'EAnd (%s) (%s)' % (a, self.compare(struct))
        return a
    def compare(self, struct):
        a = self.bits(struct)
        ops = {'==': 'OEq', '!=': 'ONe', '<': 'OLt', '<=': 'OLe', '>': 'OGt', '>=': 'OGe'}
        if self.peek() in ops and self.kind() == 'p':
            o = ops[self.next()]; a = 'EBin %s (%s) (%s)' % (o, a, self.bits(struct))
        return a
    def bits(self, struct):
        a = self.sum(struct)
        while self.peek() == '|' and self.kind() == 'p': self.next(); a = 'EBin OBitOr (%s) (%s)' % (a, self.sum(struct))
        return a
    def sum(self, struct):
        a = self.product(struct)
        while self.peek() in ('+', '-') and self.kind() == 'p':
            o = 'OAdd' if self.next() == '+' else 'OSub'; a = 'EBin %s (%s) (%s)' % (o, a, self.product(struct))
        return a
    def product(self, struct):
        a = self.unary(struct)
        while self.peek() == '*' and self.kind() == 'p': self.next(); a = 'EBin OMul (%s) (%s)' % (a, self.unary(struct))
        return a
    def unary(self, struct):
        if self.kind() == 'p':
            if self.eat('!'): return 'ENot (%s)' % self.unary(struct)
            if self.eat('*'): return self.unary(struct)
            if self.eat('&&'): return self.unary(struct)
            if self.eat('&'):
                mut = self.eat('mut')
                if not mut and BUFFER:
                    e = self.unary(struct)
                    return 'EMethod (%s) "deref" []' % e if (self.file, e) in COERCE else 'EAddr false (%s)' % e
                if BUFFER:
                    e = self.unary(struct)
                    return 'ESliceMut ' + e[7:] if e.startswith('ESlice ') else 'EAddr true (%s)' % e
                return 'EAddr %s (%s)' % ('true' if mut else 'false', self.unary(struct))
            if self.peek() == '|': return self.closure()
        a = self.postfix(struct)
        while self.peek() == 'as': self.next(); self.type()
        return a
    def closure(self):
        self.need('|'); start = self.i
        depth = 0
        while self.peek() != '|':
            self.next()
        toks = self.t[start:self.i]; self.need('|')
        p = self.sub(toks); ps = p.patterns()
        saved = list(self.scope); self.scope = p.scope
        body = self.expr(); self.scope = saved
        return 'EClos %s (%s)' % (lst(ps), body)
    def args(self):
        p = self.sub(self.group()); es = []
        while p.i < len(p.t):
            es.append(p.expr())
            if not p.eat(','): break
        if p.i < len(p.t): raise Bad('%s:%d: rest of arguments %s' % (self.file, self.line(), p.peek()))
        return es
    def postfix(self, struct):
        a = self.primary(struct)
        while True:
            if self.peek() == '(' and self.kind() == 'p':
                es = self.args()
                if a.startswith('ECtor '): a = 'ECon ' + a[6:] + ' ' + lst(es)
                elif a.split()[:2] in [['EFn', q(t)] for t in TRAITS] and es:
                    a = 'EMethod (%s) %s %s' % (es[0], a.split()[2], lst(es[1:]))
                else: a = 'ECall (%s) %s' % (a, lst(es))
            elif self.peek() == '[':
                p = self.sub(self.group())
                lo = hi = None
                if p.peek() != '..': lo = p.oror(True)
                if p.eat('..'):
                    if p.i < len(p.t): hi = p.oror(True)
                    opt = lambda x: 'None' if x is None else '(Some (%s))' % x
                    a = 'ESlice (%s) %s %s' % (a, opt(lo), opt(hi))
                else: a = 'EAt (%s) (%s)' % (a, lo)
                if p.i < len(p.t): raise Bad('%s:%d: index' % (self.file, self.line()))
            elif self.peek() == '.' and self.kind() == 'p':
                self.next()
                if self.kind() == 'num': a = 'EField (%s) (Fpos %s)' % (a, self.next())
                else:
                    x = self.next()
                    if self.peek() == '::': self.next(); self.angle()
                    if self.peek() == '(': a = 'EMethod (%s) %s %s' % (a, q(x), lst(self.args()))
                    else: a = 'EField (%s) (Fname %s)' % (a, q(x))
            else: return a
    def primary(self, struct):
        line = self.line(); k = self.kind(); x = self.peek()
        if k == 'num': self.next(); return 'ENat ' + re.match('[0-9]+', x).group(0)
        if k == 'char':
            self.next(); c = x[x.index("'") + 1:-1]; c = {'\\n': '\n', '\\r': '\r', '\\t': '\t'}.get(c, c); return 'ENat %d' % ord(c)
        if k == 'str': self.next(); return 'EUnit'
        if k == 'p' and x == '(':
            p = self.sub(self.group())
            if not p.t: return 'EUnit'
            es = [p.expr()]; tuple_ = False
            while p.eat(','):
                tuple_ = True
                if p.i < len(p.t): es.append(p.expr())
            if p.i < len(p.t): raise Bad('%s:%d: rest of tuple %s' % (self.file, line, p.peek()))
            return 'ECon "" "" ' + lst(es) if tuple_ else es[0]
        if k == 'p' and x == '{': return self.block()
        if x == 'unsafe': self.next(); return self.block()
        if x == 'if': return self.if_()
        if x == 'match': return self.match()
        if x == 'loop': self.next(); return 'ELoop (%s)' % self.block()
        if x == 'while':
            self.next(); c = self.expr(False); return 'ELoop (EIf (%s) (%s) (EBreak))' % (c, self.block())
        if x == 'for':
            self.next(); v = self.next(); self.need('in'); lo = self.oror(False); self.need('..'); hi = self.oror(False)
            saved = list(self.scope); self.scope.append(v); b = self.block(); self.scope = saved
            return 'EFor %s (%s) (%s) (%s)' % (q(v), lo, hi, b)
        if x == 'return':
            self.next()
            return 'EReturn (EUnit)' if self.peek() in (';', '}', ',', '') else 'EReturn (%s)' % self.expr(struct)
        if x == 'break': self.next(); return 'EBreak'
        if x == 'move': self.next(); return self.closure()
        if x in ('true', 'false'): self.next(); return 'EBool ' + x
        if k == 'id':
            if self.peek(1) == '!' and self.kind(1) == 'p' and self.peek(2) in OPEN: return self.macro()
            segs = self.path()
            if self.peek() == '{' and struct and (self.rename(segs[-1]) in structs or segs[-1] == 'Self'):
                ty = self.this if segs[-1] == 'Self' else self.rename(segs[-1])
                p = self.sub(self.group()); fs = []
                while p.i < len(p.t):
                    f = p.next(); p.need(':'); fs.append('(%s, %s)' % (q(f), p.expr()))
                    if not p.eat(','): break
                return 'ERec %s %s' % (q(ty), lst(fs))
            return self.name(segs, line)
        raise Bad('%s:%d: expression wanted, not %s' % (self.file, line, x))
    def if_(self):
        self.need('if'); saved = list(self.scope)
        if self.eat('let'):
            # the scrutinee does not see the variables of the pattern
            p0 = self.sub(self.t[self.i:]); p0.pattern(); n = p0.i
            self.i += n; self.need('='); e = self.expr(False)
            # parse the pattern again, now for its variables
            r = self.sub(p0.t); pat = r.pattern(); self.scope = r.scope
            a = self.block(); self.scope = saved
            b = 'EUnit'
            if self.eat('else'): b = self.if_() if self.peek() == 'if' else self.block()
            return 'EMatch (%s) [(%s, None, %s); (PWild, None, %s)]' % (e, pat, a, b)
        c = self.expr(False); a = self.block(); b = 'EUnit'
        if self.eat('else'): b = self.if_() if self.peek() == 'if' else self.block()
        return 'EIf (%s) (%s) (%s)' % (c, a, b)
    def match(self):
        self.need('match'); e = self.expr(False); p = self.sub(self.group()); arms = []
        while p.i < len(p.t):
            saved = list(p.scope)
            pat = p.pattern(); g = 'None'
            if p.eat('if'): g = 'Some (%s)' % p.expr(False)
            p.need('=>'); b = p.expr(); p.scope = saved
            arms.append('(%s, %s, %s)' % (pat, g, b))
            p.eat(',')
        return 'EMatch (%s) %s' % (e, lst(arms))
    def block(self):
        p = self.sub(self.group()); return p.stmts()
    def stmts(self):
        """statements up to the end"""
        if self.i >= len(self.t): return 'EUnit'
        self.attributes()
        x = self.peek()
        if self.eat(';'): return self.stmts()
        if x == 'use':
            while self.next() != ';': pass
            return self.stmts()
        if x in ('enum', 'struct', 'impl', 'fn', 'pub'):
            items(self, local=True); return self.stmts()
        if x == 'let':
            self.next()
            start = self.i; p0 = self.sub(self.t[start:]); p0.pattern(); toks = p0.t[:p0.i]; self.i += p0.i
            if self.eat(':'): self.type()
            self.need('='); e = self.expr(); self.need(';')
            r = self.sub(toks); pat = r.pattern(); self.scope = r.scope
            return 'ELet (%s) (%s) (%s)' % (pat, e, self.stmts())
        blocky = x in ('if', 'match', 'loop', 'while', 'for', 'unsafe') or (x == '{' and self.kind() == 'p') or \
                 (self.kind() == 'id' and self.peek(1) == '!' and self.peek(2) == '{')
        if blocky:
            e = self.primary(True)
            if self.peek() == '.': raise Bad('%s:%d: method of a block' % (self.file, self.line()))
        else: e = self.expr()
        if self.eat(';'):
            return 'ESeq (%s) (%s)' % (e, self.stmts())
        if self.i >= len(self.t): return e
        if blocky: return 'ESeq (%s) (%s)' % (e, self.stmts())
        raise Bad('%s:%d: end of statement wanted, not %s' % (self.file, self.line(), self.peek()))

    # macros
    def macro(self):
        line = self.line(); m = self.next(); self.need('!'); g = self.group()
        if m in ('assert', 'debug_assert'):
            p = self.sub(g); return 'EIf (%s) (EUnit) (EPanic)' % p.expr()
        if m in ('panic', 'unreachable'): return 'EPanic'
        if m == 'try':
            p = self.sub(g)
            return 'EMatch (%s) [(PCon "Result" "Ok" [PVar false "v"], None, EVar "v"); (PCon "Result" "Err" [PVar false "e"], None, EReturn (ECon "Result" "Err" [ECall (EFn "From" "same") [EVar "e"]]))]' % p.expr()
        if m in macros:
            for pattern, body in macros[m]:
                b = {}
                end = self.expand_match(pattern, g, 0, b)
                if end == len(g):
                    toks = expand(body, b)
                    return self.sub(toks).stmts()
            raise Bad('%s:%d: no rule of %s matches' % (self.file, line, m))
        raise Bad('%s:%d: macro %s' % (self.file, line, m))
    def fragment(self, kind, toks, i):
        p = self.sub(toks[i:])
        if kind == 'ident': p.next()
        elif kind == 'ty': p.type()
        elif kind == 'block': p.group()
        elif kind == 'pat': p.skim('=>')
        elif kind == 'expr':
            p.anything = True
            p.skim()
        else: raise Bad('fragment ' + kind)
        return toks[i:i + p.i]
    def skim(self, *ends):
        """the extent of an expression or pattern: up to the next comma or other end at this level"""
        while self.i < len(self.t):
            if self.kind() == 'p' and self.peek() in OPEN: self.group(); continue
            if self.kind() == 'p' and self.peek() in (',',) + ends: return
            self.next()
    def expand_match(self, pat, toks, i, b):
        k = 0
        while k < len(pat):
            x = pat[k]
            if x[1] == '$' and pat[k + 1][1] == '(':
                depth, j = 1, k + 2
                while depth:
                    if pat[j][1] in OPEN: depth += 1
                    if pat[j][1] in CLOSE: depth -= 1
                    j += 1
                inner = pat[k + 2:j - 1]; sep = pat[j][1]; assert sep == ',' and pat[j + 1][1] in '*+'
                k = j + 2
                rows = []
                while i < len(toks):
                    row = {}; n = self.expand_match(inner, toks, i, row)
                    if n is None: break
                    rows.append(row); i = n
                    if i < len(toks) and toks[i][1] == ',': i += 1
                    else: break
                for name in [inner[m + 1][1] for m in range(len(inner)) if inner[m][1] == '$']: b[name] = [r[name] for r in rows]
                continue
            if x[1] == '$':
                name, kind = pat[k + 1][1], pat[k + 3][1]
                b[name] = ('expr' if kind == 'expr' else 'plain', self.fragment(kind, toks, i)); i += len(b[name][1]); k += 4; continue
            if pat[k][1] in OPEN and pat[k][0] == 'p':
                # a group is matched as a whole
                if i >= len(toks) or toks[i][1] != pat[k][1]: return None
                depth, j = 1, k + 1
                while depth:
                    if pat[j][1] in OPEN: depth += 1
                    if pat[j][1] in CLOSE: depth -= 1
                    j += 1
                d2, j2 = 1, i + 1
                while d2:
                    if toks[j2][1] in OPEN: d2 += 1
                    if toks[j2][1] in CLOSE: d2 -= 1
                    j2 += 1
                if self.expand_match(pat[k + 1:j - 1], toks[i + 1:j2 - 1], 0, b) != j2 - 1 - (i + 1): return None
                k, i = j, j2; continue
            if i < len(toks) and toks[i][1] == x[1]: i += 1; k += 1; continue
            return None
        return i

def expand(body, b, row=None):
    res, k = [], 0
    while k < len(body):
        x = body[k]
        if x[1] == '$' and body[k + 1][1] == '(':
            depth, j = 1, k + 2
            while depth:
                if body[j][1] in OPEN: depth += 1
                if body[j][1] in CLOSE: depth -= 1
                j += 1
            inner = body[k + 2:j - 1]; sep = body[j]; k = j + 2
            names = [inner[m + 1][1] for m in range(len(inner)) if inner[m][1] == '$']
            for r in range(len(b[names[0]])):
                b2 = dict(b)
                for n in names: b2[n] = b[n][r]
                res += expand(inner, b2) + [sep]
            continue
        if x[1] == '$':
            kind, toks = b[body[k + 1][1]]
            if kind == 'expr': res += [('p', '(', x[2])] + toks + [('p', ')', x[2])]
            else: res += toks
            k += 2; continue
        res.append(x); k += 1
    return res

structs = set()

def params(p, toks):
    """terms of the parameters; whether self is a reference"""
    r = p.sub(toks); ps, by_ref = [], False
    while r.i < len(r.t):
        save = r.i; ref = False
        if r.eat('&'): ref = True
        if r.kind() == 'life': r.next()
        mut = r.eat('mut')
        if r.peek() == 'self':
            r.next(); by_ref = ref; r.scope.append('self'); ps.append('PVar %s "self"' % ('true' if mut and not ref else 'false'))
        else:
            r.i = save; ps.append(r.pattern()); r.need(':'); r.type()
        if not r.eat(','): break
    return ps, by_ref, r.scope

def signature(p):
    name = p.next(); p.angle(); g = p.group()
    if p.eat('->'): p.type()
    p.where()
    return name, g

def items(p, local=False, cfg='', want=None, once=False):
    """items up to the end of the tokens; local: one item"""
    while p.i < len(p.t):
        c = p.attributes() or cfg
        p.eat('pub')
        if p.peek() == '(' and p.kind() == 'p': p.group()
        p.eat('unsafe')
        x = p.peek(); line = p.line()
        if x == 'const':
            p.next(); n = p.next(); p.need(':'); p.type(); p.need('='); consts[(p.module, n)] = (p.expr(), p.file, line); p.need(';')
        elif x in ('use', 'type', 'extern', 'static'):
            while p.next() != ';': pass
        elif x == 'mod':
            p.next(); name = p.next()
            if p.eat(';'): pass
            else:
                g = p.group()
                if c != 'test':
                    r = p.sub(g); r.module = name
                    items(r, cfg=c, want=want)
        elif x == 'enum':
            p.next(); name = p.next(); p.angle(); p.where(); g = p.sub(p.group()); vs = {}
            while g.i < len(g.t):
                g.attributes(); v = g.next(); n = 0
                if g.peek() == '(':
                    h = g.sub(g.group())
                    while h.i < len(h.t):
                        h.type(); n += 1
                        if not h.eat(','): break
                vs[v] = n
                g.eat(',')
            full = p.owner + name if local else name
            if local: p.renames[name] = full
            enums[full] = vs
        elif x == 'struct':
            p.next(); name = p.next(); p.angle(); full = p.owner + name if local else name
            if local: p.renames[name] = full
            if p.peek() == '(':
                h = p.sub(p.group()); n = 0
                while h.i < len(h.t):
                    h.eat('pub'); h.type(); n += 1
                    if not h.eat(','): break
                fields[full] = n; p.where(); p.need(';')
            else:
                p.where(); p.group(); structs.add(full)
        elif x == 'trait':
            p.next(); p.next(); p.angle()
            while p.peek() != '{': p.next() if p.peek() != '<' else p.angle()
            p.group()
        elif x == 'impl':
            p.next(); p.angle(); ty = p.type()
            trait = None
            if p.eat('for'): trait, ty = ty, p.type()
            p.where(); g = p.group()
            ty = p.rename(ty)
            if trait not in ('Debug', 'Display', 'Error', 'PartialEq', 'From'):
                r = Parser(g, p.file, p.module, ty, [], p.renames, p.owner); methods(r, ty, c, want)
        elif x == 'fn':
            p.next(); function(p, p.module, c, line, want)
        elif x == 'bitflags':
            p.next(); p.need('!'); g = p.sub(p.group()); g.need('flags'); g.next(); g.need(':'); g.type(); h = g.sub(g.group())
            while h.i < len(h.t):
                h.attributes(); h.need('const'); n = h.next(); h.need('='); flags[(p.module or p.flag_module, n)] = (int(h.next()), p.file, h.last); h.eat(',')
        elif x == 'macro_rules':
            p.next(); p.need('!'); name = p.next(); g = p.sub(p.group()); p.eat(';'); rules = []
            while g.i < len(g.t):
                a = g.group(); g.need('=>'); b = g.group(); g.eat(';'); rules.append((a, b))
            macros[name] = rules
        else: raise Bad('%s:%d: item %s' % (p.file, line, x))
        if local: return

def function(p, ty, cfg, line, want, this=None):
    name, g = signature(p)
    end = p.last
    if p.eat(';'): return
    body = p.group(); end = p.last
    known.setdefault(ty, set()).add(name)
    todo.append((p, ty, name, g, body, cfg, line, end, want, this))

def methods(r, ty, cfg, want):
    while r.i < len(r.t):
        c = r.attributes() or cfg
        r.eat('pub'); line = r.line()
        x = r.next()
        if x == 'type':
            while r.next() != ';': pass
        elif x == 'fn': function(r, ty, c, line, want, this=ty)
        else: raise Bad('%s:%d: %s in impl' % (r.file, line, x))

todo = []
def main():
    parsers = []
    text = open(os.path.join(REPO, MACROS)).read()
    items(Parser(tokenize(text), MACROS, ''))
    for file, module, want in FILES + (BUFFER_FILES if BUFFER else []):
        p = Parser(tokenize(open(os.path.join(REPO, file)).read()), file, module)
        p.flag_module = module
        p.i = 0
        items(p, want=want)
    k = 0
    while k < len(todo):
        p, ty, name, g, body, cfg, line, end, want, this = todo[k]; k += 1
        if want is not None and name not in want: continue
        r = Parser(body, p.file, p.module, this, [], p.renames if p.owner else {}, p.owner or '%s.%s.' % (ty, name))
        ps, by_ref, scope = params(r, g)
        r.scope = scope
        functions.append((cfg, ty, name, by_ref, ps, r.stmts(), p.file, line, end))
    emit()

def emit():
    print('(** The text of functions of src/*.rs as terms of Rust.v.  Written by tools/rust_text.py from /repo: do not edit. *)')
    print('From Coq Require Import List Bool Arith String.')
    print('From Verif Require Import Rust%s.' % (' RustText' if BUFFER else ''))
    print('Import ListNotations.')
    print('Local Open Scope string_scope.\n')
    names = {'': [], 'verbose': [], 'plain': []}
    here = lambda file: file.startswith('src/buffer/') == BUFFER
    for (m, n), (e, file, line) in sorted(consts.items()):
        if not here(file): continue
        d = 'const_%s_%s' % (m, n)
        print('(** %s:%d [%s]. *)\nDefinition %s : fndef := mkFn false [] (%s).\n' % (file, line, n, d, e))
        names[''].append('("const", %s, %s)' % (q(m + '::' + n), d))
    for (m, n), (v, file, line) in sorted(flags.items()):
        if not here(file): continue
        d = 'flag_%s_%s' % (m, n)
        print('(** %s:%d [%s]. *)\nDefinition %s : fndef := mkFn false [] (EFlags %d).\n' % (file, line, n, d, v))
        names[''].append('("const", %s, %s)' % (q(m + '::' + n), d))
    for cfg, ty, name, by_ref, ps, body, file, a, b in functions:
        if not here(file): continue
        kind = {'': '', 'feature = "verbose_error"': 'verbose', 'not ( feature = "verbose_error" )': 'plain'}[cfg]
        d = 'text_' + (kind + '_' if kind else '') + (ty.replace('.', '_') + '_' if ty else '') + name
        print('(** %s:%d-%d [%s]. *)' % (file, a, b, name))
        print('Definition %s : fndef := mkFn %s %s\n  (%s).\n' % (d, 'true' if by_ref else 'false', lst(ps), body))
        names[kind].append('(%s, %s, %s)' % (q(ty), q(name), d))
    if BUFFER:
        print('(** All Rust functions of src/buffer and those of RustText.v. *)')
        print('Definition buffer_text (verbose : bool) : list (string * string * fndef) :=\n  [%s] ++ text verbose.' % ';\n   '.join(names['']))
        return
    print('(** All Rust functions of the text, as compiled with or without the feature verbose_error (Cargo.toml:33). *)')
    print('Definition text (verbose : bool) : list (string * string * fndef) :=\n  [%s] ++\n  (if verbose then [%s]\n   else [%s]).' %
          (';\n   '.join(names['']), ';\n   '.join(names['verbose']), ';\n   '.join(names['plain'])))

main()
