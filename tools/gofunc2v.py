#!/usr/bin/env python3
"""Write the functions, constants and maps of hand-written Go files as terms of
theories/Gox.v, statement by statement.

usage: gofunc2v.py OUT.v PREFIX HEADER file.go:func,func,... [file.go:...]

A function is named Func or Type.Method.  Every construct that Gox.v does not have
makes the script fail, assignments to fields of anything but a receiver included."""
import re, sys

TOK = re.compile(r'''
  (?P<ws>[ \t\r]+)|(?P<nl>\n)|(?P<lc>//[^\n]*)|(?P<bc>/\*.*?\*/)|
  (?P<raw>`[^`]*`)|(?P<str>"(?:\\.|[^"\\])*")|(?P<chr>'(?:\\.|[^'\\])+')|
  (?P<num>\d+)|(?P<id>[^\W\d]\w*)|
  (?P<op>:=|==|!=|<=|>=|&&|\|\||\.\.\.|\+\+|<-|[-+*/%&|^<>=!(){}\[\],;.:])
''', re.X | re.S)
KEY = {'func', 'if', 'else', 'for', 'range', 'switch', 'case', 'default', 'return', 'break', 'continue',
       'fallthrough', 'var', 'type', 'const', 'map', 'struct', 'interface', 'package', 'import'}


def tokens(src):
    out, i, line, last = [], 0, 1, None

    def ends():
        return last and (last[0] in ('id', 'num', 'str', 'chr', 'raw') and
                         (last[1] not in KEY or last[1] in ('return', 'break', 'continue', 'fallthrough'))
                         or last[1] in (')', ']', '}', '++'))
    while i < len(src):
        m = TOK.match(src, i)
        if not m:
            sys.exit('cannot read line %d: %r' % (line, src[i:i + 20]))
        k, s = m.lastgroup, m.group()
        if k == 'nl' or k == 'bc' and '\n' in s:
            if ends():
                out.append(('op', ';', line)); last = None
        elif k not in ('ws', 'lc', 'bc'):
            last = (k, s, line); out.append(last)
        line += s.count('\n'); i = m.end()
    out.append(('op', ';', line)); out.append(('eof', '', line))
    return out


class P:
    def __init__(self, src, file):
        self.t = tokens(src); self.i = 0; self.file = file

    def pk(self, n=0):
        return self.t[min(self.i + n, len(self.t) - 1)][1]

    def kind(self, n=0):
        return self.t[min(self.i + n, len(self.t) - 1)][0]

    def line(self):
        return self.t[self.i][2]

    def nx(self):
        self.i += 1; return self.t[self.i - 1][1]

    def ex(self, s):
        if self.pk() != s:
            sys.exit('%s:%d: expected %s, found %r' % (self.file, self.line(), s, self.pk()))
        return self.nx()

    def no(self, what):
        sys.exit('%s:%d: not supported: %s' % (self.file, self.line(), what))

    def skip_group(self):
        o = self.nx(); d = 1
        while d:
            x = self.nx()
            d += (x in '([{') - (x in ')]}') if x and self.t[self.i - 1][0] == 'op' else 0

    # --- types: as text
    def type(self):
        if self.pk() == '*':
            self.nx(); return '*' + self.type()
        if self.pk() == '[':
            self.nx(); self.ex(']'); return '[]' + self.type()
        if self.pk() == 'map':
            self.nx(); self.ex('['); k = self.type(); self.ex(']'); return 'map[%s]%s' % (k, self.type())
        if self.pk() == 'func':
            self.nx(); self.skip_group()
            if self.pk() == '(':
                self.skip_group()
            elif self.pk() not in (')', ',', '{', ';', '='):
                self.type()
            return 'func'
        if self.pk() in ('interface', 'struct'):
            w = self.nx(); self.skip_group(); return w
        n = self.nx()
        while self.pk() == '.':
            self.nx(); n += '.' + self.nx()
        return n

    def params(self):
        """(a, b T, c U) as [(name, type)]; types alone get the name None"""
        self.ex('('); items = []
        while self.pk() != ')':
            if self.kind() == 'id' and self.pk(1) not in (',', ')', '.') and self.pk() not in ('func', 'map', 'interface'):
                n = self.nx(); items.append((n, self.type()))
            else:
                items.append((None, self.type()))
            if self.pk() == ',':
                self.nx()
        self.ex(')')
        if any(n for n, _ in items):       # a, b T
            out, ty = [], None
            for n, t in reversed(items):
                if n is None:
                    n, t = t, ty
                ty = t; out.append((n, t))
            items = out[::-1]
        return items

    def results(self):
        if self.pk() == '(':
            return self.params()
        if self.pk() in ('{', ';'):
            return []
        return [(None, self.type())]

    # --- expressions
    PREC = {'||': 1, '&&': 2, '==': 3, '!=': 3, '<': 3, '<=': 3, '>': 3, '>=': 3, '+': 4, '-': 4}

    def expr(self, p=1, lit=True):
        a = self.unary(lit)
        while self.kind() == 'op' and self.PREC.get(self.pk(), 0) >= p:
            o = self.nx(); b = self.expr(self.PREC[o] + 1, lit); a = ('bin', o, a, b)
        return a

    def unary(self, lit):
        if self.pk() == '!':
            self.nx(); return ('not', self.unary(lit))
        if self.pk() == '-' and self.kind(1) == 'num':
            self.nx(); return ('int', -int(self.nx()))
        if self.pk() == '&':
            self.nx(); a = self.unary(lit)
            if a[0] != 'lit':
                self.no('address of anything but a literal')
            return a
        return self.suffix(self.primary(lit), lit)

    def primary(self, lit):
        k, s, _ = self.t[self.i]
        if k == 'num':
            self.nx(); return ('int', int(s))
        if k == 'str':
            self.nx(); return ('str', unquote(s))
        if k == 'chr':
            self.nx(); return ('str', unquote('"' + s[1:-1] + '"'))
        if k == 'raw':
            self.nx(); return ('str', s[1:-1])
        if s == '(':
            self.nx(); a = self.expr(); self.ex(')'); return a
        if s == 'func':
            return self.funclit()
        if s == '[' or s == 'map':
            ty = self.type()
            if ty == '[]interface' and self.pk() != '{':
                self.no(ty)
            if self.pk() == '{':
                return self.composite(ty)
            return ('type', ty)
        if k == 'id' and s not in KEY:
            self.nx()
            if s in ('nil', 'true', 'false'):
                return (s,)
            a = ('var', s)
            if lit and self.pk() == '{' and s[0].isupper():
                return self.composite(s)
            if lit and self.pk() == '.' and self.kind(1) == 'id' and self.pk(2) == '{' and self.pk(1)[0].isupper():
                self.nx(); n = s + '.' + self.nx(); return self.composite(n)
            return a
        self.no('expression %r' % s)

    def funclit(self):
        self.ex('func'); ps = self.params(); rs = self.results(); b = self.block()
        return ('func', ps, rs, b)

    def composite(self, ty):
        self.ex('{'); fs = []
        while self.pk() != '}':
            if self.kind() == 'id' and self.pk(1) == ':' and not ty.startswith('map'):
                f = self.nx(); self.nx(); fs.append((f, self.expr()))
            else:
                v = self.expr()
                if self.pk() == ':':
                    self.nx(); fs.append((v, self.expr()))
                else:
                    fs.append((None, v))
            if self.pk() == ',':
                self.nx()
        self.ex('}'); return ('lit', ty, fs)

    def suffix(self, a, lit):
        while True:
            s = self.pk()
            if s == '.':
                self.nx()
                if self.pk() == '(':
                    self.nx()
                    a = ('assert', a, self.type()); self.ex(')')
                else:
                    a = ('sel', a, self.nx())
            elif s == '(':
                self.nx(); args = []
                while self.pk() != ')':
                    if self.pk() in ('[', 'map'):
                        args.append(self.primary(True))
                    else:
                        args.append(self.expr())
                    if self.pk() == '...':
                        self.nx(); args[-1] = ('spread', args[-1])
                    if self.pk() == ',':
                        self.nx()
                self.ex(')'); a = ('call', a, args)
            elif s == '[':
                self.nx(); lo = None if self.pk() == ':' else self.expr()
                if self.pk() == ':':
                    self.nx(); hi = None if self.pk() == ']' else self.expr()
                    self.ex(']'); a = ('slice', a, lo, hi)
                else:
                    self.ex(']'); a = ('index', a, lo)
            else:
                return a

    # --- statements
    def block(self):
        self.ex('{'); out = []
        while self.pk() != '}':
            if self.pk() == ';':
                self.nx(); continue
            out.append(self.stmt())
        self.ex('}'); return out

    def simple(self, lit=True):
        ln = self.line()
        es = [self.expr(1, lit)]
        while self.pk() == ',':
            self.nx(); es.append(self.expr(1, lit))
        if self.pk() in (':=', '='):
            o = self.nx()
            if self.pk() == 'range':
                self.nx(); return ('range', es, self.expr(1, False))
            r = [self.expr(1, lit)]
            while self.pk() == ',':
                self.nx(); r.append(self.expr(1, lit))
            return ('def' if o == ':=' else 'set', es, r)
        if len(es) != 1:
            self.no('list of expressions')
        return ('expr', es[0])

    def stmt(self):
        s = self.pk()
        if s == 'return':
            self.nx(); es = []
            while self.pk() not in (';', '}'):
                es.append(self.expr())
                if self.pk() == ',':
                    self.nx()
            return ('return', es)
        if s in ('break', 'continue', 'fallthrough'):
            self.nx(); return (s,)
        if s == '{':
            return ('block', self.block())
        if s == 'var':
            self.nx(); n = self.nx(); ty = self.type()
            if self.pk() == '=':
                self.no('var with a value')
            return ('var', n, ty)
        if s == 'if':
            return self.ifs()
        if s == 'for':
            self.nx(); a = self.simple(False)
            if a[0] != 'range':
                self.no('for without range')
            return ('for', a[1], a[2], self.block())
        if s == 'switch':
            self.nx(); tag = self.expr(1, False); self.ex('{'); cs = []; d = None
            while self.pk() != '}':
                if d is not None:
                    self.no('default before a case')
                if self.nx() == 'default':
                    v = None
                else:
                    v = [self.expr()]
                    while self.pk() == ',':
                        self.nx(); v.append(self.expr())
                self.ex(':'); b = []
                while self.pk() not in ('case', 'default', '}'):
                    if self.pk() == ';':
                        self.nx(); continue
                    b.append(self.stmt())
                if v is None:
                    d = b
                else:
                    cs.append((v, b))
            self.ex('}'); return ('switch', tag, cs, d or [])
        return self.simple()

    def ifs(self):
        self.ex('if'); a = self.simple(False); init = None
        if self.pk() == ';':
            self.nx(); init = a; a = self.simple(False)
        if a[0] != 'expr':
            self.no('condition')
        th = self.block(); el = []
        if self.pk() == 'else':
            self.nx(); el = [self.ifs()] if self.pk() == 'if' else self.block()
        return ('if', init, a[1], th, el)


def unquote(s):
    return re.sub(r'\\(.)', lambda m: {'n': '\n', 't': '\t', 'r': '\r'}.get(m.group(1), m.group(1)), s[1:-1])


# ---------------------------------------------------------------- output
def cs(s):
    if all(32 <= ord(c) < 127 for c in s):
        return '#"%s"' % s.replace('"', '""')
    return '[%s]%%N' % '; '.join(str(ord(c)) for c in s)


def cn(s):
    """a name"""
    return '"%s"' % s


def cl(xs):
    return '[%s]' % '; '.join(xs)


class Out:
    """terms of Gox.v; [scope]: the variables in scope"""

    def __init__(self, consts, pkgvars, where):
        self.consts, self.pkgvars, self.where = consts, pkgvars, where

    def no(self, w):
        sys.exit('%s: not supported: %r' % (self.where, w))

    def zero(self, ty):
        if ty == 'string' or ty in ('NodeType', 'ValueType'):
            return 'EStr []'
        if ty == 'bool':
            return 'EBool false'
        if ty == 'int':
            return 'EInt 0'
        if ty.startswith('[]'):
            return 'EList []'
        return 'ENil'

    def e(self, a, sc):
        return '(%s)' % self.x(a, sc) if ' ' in self.x(a, sc) else self.x(a, sc)

    def x(self, a, sc):
        k = a[0]
        if k == 'nil':
            return 'ENil'
        if k in ('true', 'false'):
            return 'EBool ' + k
        if k == 'int':
            return 'EInt (%d)' % a[1] if a[1] < 0 else 'EInt %d' % a[1]
        if k == 'str':
            return 'EStr ' + cs(a[1])
        if k == 'var':
            if a[1] in sc:
                return 'EVar ' + cn(a[1])
            return 'ECst ' + cn(a[1])
        if k == 'sel':
            if a[1][0] == 'var' and a[1][1] not in sc:
                n = a[1][1] + '.' + a[2]
                return 'ECst ' + cn(n[10:] if n.startswith('miniquery.') else n)
            return 'ESel %s %s' % (self.e(a[1], sc), cn(a[2]))
        if k == 'index':
            if a[1][0] == 'var' and a[1][1] not in sc:
                return 'ELookup %s %s' % (cn(a[1][1]), self.e(a[2], sc))
            return 'EIndex %s %s' % (self.e(a[1], sc), self.e(a[2], sc))
        if k == 'slice':
            o = lambda b: 'None' if b is None else '(Some %s)' % self.e(b, sc)
            return 'ESlice %s %s %s' % (self.e(a[1], sc), o(a[2]), o(a[3]))
        if k == 'bin':
            return 'EBin %s %s %s' % (cn(a[1]), self.e(a[2], sc), self.e(a[3], sc))
        if k == 'not':
            return 'ENot ' + self.e(a[1], sc)
        if k == 'assert':
            return 'EAssert %s %s' % (self.e(a[1], sc), cn(a[2]))
        if k == 'lit':
            if a[1].startswith('[]'):
                return 'EList ' + cl([self.x(v, sc) for f, v in a[2]])
            if any(f is None for f, v in a[2]) or a[1].startswith('map'):
                self.no(a)
            return 'ELit %s %s' % (cn(a[1]), cl(['(%s, %s)' % (cn(f), self.x(v, sc)) for f, v in a[2]]))
        if k == 'call':
            f = a[1]
            if any(z[0] == 'spread' for z in a[2]):
                self.no(a)
            args = [self.x(z, sc) for z in a[2] if z[0] != 'type']
            if f[0] == 'var' and f[1] not in sc:
                if f[1] == 'make':
                    return 'ECall (EFn %s) %s' % (cn('make ' + a[2][0][1]), cl(args))
                return 'ECall (EFn %s) %s' % (cn(f[1]), cl(args))
            if f[0] == 'sel' and f[1][0] == 'var' and f[1][1] not in sc:
                n = f[1][1] + '.' + f[2]
                return 'ECall (EFn %s) %s' % (cn(n[10:] if n.startswith('miniquery.') else n), cl(args))
            return 'ECall %s %s' % (self.e(f, sc), cl(args))
        self.no(a)

    def block(self, b, sc):
        sc = set(sc); out = []
        for s in b:
            out.append(self.s(s, sc))
        return cl(out)

    def s(self, s, sc):
        k = s[0]
        if k == 'expr':
            a = s[1]
            if a[0] == 'call' and a[1] == ('var', 'panic'):
                return 'SPanic'
            if a[0] == 'call' and a[1] == ('var', 'copy'):
                if a[2][0][0] != 'var':
                    self.no(s)
                return 'SCopy %s %s' % (cn(a[2][0][1]), self.e(a[2][1], sc))
            return 'SExpr ' + self.e(a, sc)
        if k in ('def', 'set'):
            if len(s[2]) != 1:
                self.no(s)
            r = s[2][0]; l = s[1]
            if len(l) == 1 and l[0][0] == 'sel':
                if k == 'def' or l[0][1][0] != 'var':
                    self.no(s)
                return 'SSetSel %s %s %s' % (cn(l[0][1][1]), cn(l[0][2]), self.e(r, sc))
            if any(v[0] != 'var' for v in l):
                self.no(s)
            n = [v[1] for v in l]
            if r[0] == 'func':
                if k != 'set' or len(n) != 1 or r[2]:
                    self.no(s)
                return 'SClosure %s %s %s' % (cn(n[0]), cl([cn(p) for p, _ in r[1]]),
                                              self.block(r[3], sc | {p for p, _ in r[1]}))
            e = self.e(r, sc)
            if k == 'def':
                sc |= set(n)
                return 'SDef %s %s' % (cl([cn(v) for v in n]), e)
            if any(v != '_' and v not in sc for v in n):
                self.no(s)
            return 'SSet %s %s' % (cl([cn(v) for v in n]), e)
        if k == 'var':
            sc.add(s[1])
            return 'SDef [%s] (%s)' % (cn(s[1]), self.zero(s[2])) if ' ' in self.zero(s[2]) else \
                'SDef [%s] %s' % (cn(s[1]), self.zero(s[2]))
        if k == 'return':
            return 'SReturn ' + cl([self.x(a, sc) for a in s[1]])
        if k == 'break':
            return 'SBreak'
        if k == 'continue':
            return 'SContinue'
        if k == 'fallthrough':
            return 'SFall'
        if k == 'block':
            return 'SBlock ' + self.block(s[1], sc)
        if k == 'if':
            if s[1] is not None:
                return 'SBlock ' + self.block([s[1], ('if', None) + s[2:]], sc)
            return 'SIf %s %s %s' % (self.e(s[2], sc), self.block(s[3], sc), self.block(s[4], sc))
        if k == 'for':
            n = [v[1] for v in s[1]] + ['_']
            return 'SRange %s %s %s %s' % (cn(n[0]), cn(n[1]), self.e(s[2], sc), self.block(s[3], sc | set(n[:2])))
        if k == 'switch':
            return 'SSwitch %s %s %s' % (self.e(s[1], sc),
                cl(['(%s, %s)' % (cl([self.x(v, sc) for v in vs]), self.block(b, sc)) for vs, b in s[2]]),
                self.block(s[3], sc))
        self.no(s)


def wrap(s, ind=4, w=118):
    """break at spaces, not inside string literals"""
    out, line, i, inq = [], ' ' * ind, 0, False
    word = ''
    for c in s + ' ':
        if c == '"':
            inq = not inq
        if c == ' ' and not inq:
            if len(line) + len(word) + 1 > w and line.strip():
                out.append(line.rstrip()); line = ' ' * ind
            line += word + ' '; word = ''
        else:
            word += c
    out.append(line.rstrip())
    return '\n'.join(out)


def read(file):
    p = P(open(file).read(), file); funcs = {}; consts = []; maps = {}; types = {}
    while p.kind() != 'eof':
        s = p.pk()
        if s == 'func':
            a = p.line(); p.nx(); recv = None
            if p.pk() == '(':
                recv = p.params()[0]
            n = p.nx(); ps = p.params(); rs = p.results()
            st = p.i
            try:
                b = p.block()
            except SystemExit as ex:
                p.i = st; p.skip_group(); b = str(ex)
            z = p.t[p.i - 1][2]
            name = n if recv is None else recv[1].lstrip('*') + '.' + n
            funcs[name] = (recv, ps, rs, b, a, z)
        elif s in ('const', 'var', 'type'):
            kind = p.nx(); grp = p.pk() == '('
            if grp:
                p.nx()
            while True:
                while p.pk() == ';':
                    p.nx()
                if grp and p.pk() == ')':
                    p.nx(); break
                ln = p.line(); n = p.nx()
                if kind == 'type':
                    if p.pk() == '=':
                        p.nx()
                    if p.pk() == 'struct':
                        p.nx(); p.ex('{'); fs = []
                        while p.pk() != '}':
                            if p.pk() == ';':
                                p.nx(); continue
                            f = p.nx(); ty = '' if p.pk() in (';', '.') else p.type()
                            while p.pk() not in (';', '}'):
                                p.nx()
                            fs.append((f, ty))
                        p.ex('}'); types[n] = (fs, ln, p.line())
                    else:
                        p.type()
                else:
                    if p.pk() != '=':
                        p.type()
                    p.ex('='); v = p.expr()
                    if kind == 'const':
                        consts.append((n, v, ln))
                    elif v[0] == 'lit':
                        maps[n] = (v, ln, p.line())
                    else:
                        maps[n] = (None, ln, p.line())
                if not grp:
                    break
        elif s in ('package', 'import'):
            p.nx()
            while p.pk() != ';':
                p.skip_group() if p.pk() == '(' else p.nx()
        else:
            p.nx()
    return funcs, consts, maps, types


def main():
    out, pre, head = sys.argv[1:4]
    o = ['(** %s' % head, '    Written by tools/gofunc2v.py: one term of Gox.v for each statement and expression there. *)',
         'From Verif Require Import Base Gox.', 'Open Scope string_scope.', '']
    table, consts_all, maps_all = [], [], []
    for arg in sys.argv[4:]:
        file, names = arg.split(':'); short = re.sub(r'^.*/repo/', '', file)
        funcs, consts, maps, types = read(file)
        for n in names.split(','):
            if not n:
                continue
            if n not in funcs:
                sys.exit('no function %s in %s' % (n, file))
            recv, ps, rs, b, a, z = funcs[n]
            if isinstance(b, str):
                sys.exit(b)
            params = ([recv[0]] if recv else []) + [x or '_' for x, _ in ps]
            named = [(x, t) for x, t in rs if x]
            w = Out(consts, maps, '%s %s' % (short, n))
            body = w.block(b, set(params) | {x for x, _ in named})
            d = pre + '_' + n.replace('.', '_')
            o.append('(** %s, %s:%d-%d *)' % (n, short, a, z))
            o.append('Definition %s : fundef :=' % d)
            o.append(wrap('Fundef %s %s %s.' % (cl([cn(x) for x in params]),
                     cl(['(%s, %s)' % (cn(x), w.zero(t)) for x, t in named]), body)))
            table.append('(%s, %s)' % (cn(n), d))
        w = Out(consts, maps, short)
        for n, v, ln in consts:
            if v[0] != 'str':
                sys.exit('constant %s' % n)
            consts_all.append('(%s, %s)' % (cn(n), cs(v[1])))
        for n, (v, a, z) in maps.items():
            if v is None:
                continue
            d = pre + '_map_' + n
            o.append('(** %s, %s:%d-%d *)' % (n, short, a, z))
            o.append('Definition %s : list (expr * expr) :=' % d)
            o.append(wrap(cl(['(%s, %s)' % (w.x(k, set()), w.x(x, set())) for k, x in v[2]]) + '.'))
            maps_all.append('(%s, %s)' % (cn(n), d))
        for n, (fs, a, z) in types.items():
            o.append('(** type %s struct, %s:%d-%d: names and types of the fields *)' % (n, short, a, z))
            o.append('Definition %s_type_%s : list (string * string) :=' % (pre, n))
            o.append(wrap(cl(['(%s, %s)' % (cn(f), cn(t)) for f, t in fs]) + '.'))
    o.append('(** the functions by name *)')
    o.append('Definition %s_table : list (string * fundef) :=' % pre)
    o.append(wrap(cl(table) + '.'))
    o.append('(** the string constants *)')
    o.append('Definition %s_consts : list (string * list N) :=' % pre)
    o.append(wrap(cl(consts_all) + '.'))
    o.append('(** the maps *)')
    o.append('Definition %s_maps : list (string * list (expr * expr)) :=' % pre)
    o.append(wrap(cl(maps_all) + '.'))
    open(out, 'w').write('\n'.join(o) + '\n')


main()
