#!/usr/bin/env python3
"""Translate the assertions of the unit tests in /repo/src into Examples about the model (rocq/theories/Conformance.v).

Only the test modules whose assertions are closed expressions are translated mechanically; tests that observe captured
variables or a sequence of calls are transcribed by hand in tools/conformance_manual.txt."""
import re, sys
REPO = '/repo/src/'
TOK = re.compile(r"""\s*(?:(b'(?:[^'\\]|\\.)')|(b?"(?:[^"\\]|\\.)*")|(\d+)(?:u8|u32|i32|usize)?|(\.\.)|(::<)|(::)|([A-Za-z_][A-Za-z_0-9]*!?)|([(){}\[\],;|&.%=!<>+*-]))""")

def lex(s):
    s = re.sub(r'//[^\n]*', '', s)
    out, pos = [], 0
    while pos < len(s):
        if s[pos:].strip() == '': break
        m = TOK.match(s, pos)
        if not m: raise SyntaxError(s[pos:pos+40])
        k = m.lastindex
        out.append((k, m.group(k)))
        pos = m.end()
    return out

class P:
    """Expression parser, returns Coq text."""
    def __init__(self, toks): self.t, self.i = toks, 0
    def peek(self, o=0): return self.t[self.i+o] if self.i+o < len(self.t) else (0, '')
    def next(self): x = self.peek(); self.i += 1; return x
    def eat(self, s):
        if self.peek()[1] != s: raise SyntaxError(f'{s} expected, got {self.t[self.i:self.i+6]}')
        self.i += 1
    def args(self, close):
        r = []
        while self.peek()[1] != close:
            r.append(self.expr())
            if self.peek()[1] == ',': self.i += 1
        self.eat(close)
        return r
    def generics(self):
        d = 1
        while d:
            x = self.next()[1]
            if x == '<' or x == '::<': d += 1
            if x == '>': d -= 1
    def expr(self):
        k, s = self.peek()
        if s == '|':
            self.i += 1; vs = []
            while self.peek()[1] != '|':
                vs.append(self.next()[1])
                if self.peek()[1] == ',': self.i += 1
            self.eat('|')
            return '(fun ' + ' '.join(vs) + ' => ' + self.expr() + ')'
        e = self.post()
        k, s = self.peek()
        if s == '..':
            self.i += 1
            if self.peek()[0] == 3: return f'(RRange {e} {self.post()})'
            return f'(RFrom {e})'
        if s == '!' and self.peek(1)[1] == '=':
            self.i += 2; return f'(negb (byte_eqb {e} {self.post()}))'
        return e
    def post(self):
        e = self.atom()
        while True:
            s = self.peek()[1]
            if s == '.' and self.peek(1)[0] == 7:
                self.i += 1; m = self.next()[1]
                if self.peek()[1] == '::<': self.i += 1; self.generics()
                self.eat('('); a = self.args(')')
                if m == 'into_inner': continue
                if m == 'map' and a == ['ToOwned::to_owned']: continue
                if m == 'map' : e = f'(Base.map {a[0]} {e})'
                elif m == 'map_err': e = f'(Base.map_err {a[0]} {e})'
                elif m == 'bind': e = f'(Base.bind (fun e => e) {e} {a[0]})'
                elif m == 'then': e = f'(Base.then_ (fun e => e) {e} {a[0]})'
                elif m == 'ret': e = f'(Base.ret {a[0]} {e})'
                elif m == 'err': e = f'(Base.err {a[0]} {e} : pres byte unit _)'
                elif m == 'incomplete': e = f'(Base.incomplete {a[0]} {e})'
                else: raise SyntaxError('method '+m)
            else: return e
    def atom(self):
        k, s = self.next()
        if s == '&': return self.atom_index()
        if k == 1: return char(s)
        if k == 2:
            if s[0] == 'b': return f'(bytes "{s[2:-1]}")'
            return f'{s}%string'
        if k == 3: return s
        if s == '..':
            if self.peek()[0] == 3: return f'(RTo {self.next()[1]})'
            return 'RFull'
        if s == '_': return '_'
        if s == '(':
            a = self.args(')')
            return 'tt' if not a else '(' + ', '.join(a) + ')'
        if s == 'vec!':
            self.eat('['); return '[' + '; '.join(self.args(']')) + ']'
        if k == 7:
            name = s
            while self.peek()[1] == '::':
                self.i += 1; name += '::' + self.next()[1]
            if self.peek()[1] == '::<': self.i += 1; self.generics()
            names = {'State::Data': 'Data', 'State::Error': 'Error', 'State::Incomplete': 'Incomplete', 'option': 'option_', 'or': 'or_',
                     'err::expected': 'err_expected true', 'err::unexpected': 'err_unexpected true', 'true': 'true', 'ToOwned::to_owned': name}
            name = names.get(name, name)
            if self.peek()[1] == '(':
                self.i += 1; a = self.args(')')
                return '(' + ' '.join([name] + a) + ')' if a else f'({name})'
            return name
        raise SyntaxError(s)
    def atom_index(self):
        e = self.atom()
        self.eat('['); self.eat('..'); self.eat(']')
        return e

def char(s):
    c = s[2:-1]
    c = {"\\n": "\n", "\\r": "\r", "\\t": "\t", "\\\\": "\\", "\\'": "'"}.get(c, c)
    return f'x{ord(c):02x}'

def split(body):
    """The statements of a test, on top level ';'."""
    out, d, cur, q = [], 0, '', False
    for c in body:
        if c == '"': q = not q
        if not q:
            if c in '({[': d += 1
            if c in ')}]': d -= 1
            if c == ';' and d == 0: out.append(cur.strip()); cur = ''; continue
        cur += c
    if cur.strip(): out.append(cur.strip())
    return out

def tests(fn):
    t = open(REPO + fn).read()
    base = t.index('mod test')
    for m in re.finditer(r'#\[test\]\s*(#\[should_panic[^\]]*\])?\s*fn (\w+)\(\) \{\n(.*?)\n    \}', t[base:], re.S):
        ln = t[:base + m.start(2)].count('\n') + 1
        yield m.group(2), ln, bool(m.group(1)), re.sub(r'//[^\n]*', '', m.group(3))

MANUAL = {('combinators/mod.rs', 'many_till_test'), ('parsers.rs', 'parse_decimal'), ('parsers.rs', 'satisfy_with_test')}
def main():
    out = []; total = 0
    for fn, pre in (('parsers.rs', 'parsers'), ('combinators/bounded.rs', 'bounded'), ('combinators/mod.rs', 'combinators')):
        out.append(f'(** * src/{fn} *)\nModule {pre}_tests.')
        if pre == 'bounded': out.append('Import bounded_api.')
        if pre == 'combinators': out.append('Import combinators_api.')
        for name, ln, panics, body in tests(fn):
            if (fn, name) in MANUAL: continue
            env = {}; goals = []
            for st in split(body):
                m = re.match(r'let (\w+)(?:\s*:\s*[^=]*?)? = (.*)$', st, re.S)
                if m:
                    env[m.group(1)] = m.group(2); continue
                m = re.match(r'assert_eq!\((.*)\)$', st, re.S)
                if not m: raise SyntaxError(st)
                s = m.group(1)
                for v, e in env.items(): s = re.sub(r'^' + v + r'\b', lambda _: e, s)
                for v, e in env.items(): s = re.sub(r'\b' + v + r'\b(?=[,)])', lambda _: e, s, count=1) if v in ('i', 'n') and '|i|' not in s else s
                p = P(lex(s)); l = p.expr(); p.eat(','); r = p.expr()
                if p.i != len(p.t): raise SyntaxError(str(p.t[p.i:]))
                goals.append(f'{l} = ' + ('Panic' if panics else r))
            total += len(goals)
            out.append(f'(** src/{fn}:{ln} [{name}]. *)\nExample {name} :\n  ' + ' /\\\n  '.join(goals) + '.\nProof. repeat split; reflexivity. Qed.')
        out.append(f'End {pre}_tests.\n')
    man = open('/verif/tools/conformance_manual.txt').read()
    head, tail = man.split('(* GENERATED *)')
    open('/verif/rocq/theories/Conformance.v', 'w').write(head + '\n'.join(out) + tail)
    print(total, 'assertions')
main()
