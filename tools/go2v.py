#!/usr/bin/env python3
"""Writes theories/GoRules.v: the rule constants and the rule functions of
miniquery/miniquery.peg.go, statement by statement (see GoStmt.v for the
statements).  Any line it does not know is an error.

usage: go2v.py /repo/miniquery/miniquery.peg.go > rocq/theories/GoRules.v"""
import re, sys
src = open(sys.argv[1]).read().split('\n')

ESC = {"\\'": 39, '\\t': 9, '\\n': 10, '\\r': 13, '\\\\': 92}
def rune(s):
    if s in ESC: return ESC[s]
    assert len(s) == 1, s
    return ord(s)
def callee(name):
    if name == 'rulePegText': return 'TPegText'
    m = re.fullmatch(r'ruleAction(\d+)', name)
    return '(TAct %s)' % m.group(1) if m else '(TRule r%s)' % name[4:]

# the constants: pegRule = iota
i = next(k for k, l in enumerate(src) if l.strip() == 'ruleUnknown pegRule = iota')
consts = []
while src[i].strip() != ')':
    consts.append(src[i].split()[0]); i += 1
assert consts[0] == 'ruleUnknown'

SIMPLE = [
    (r'position(\d+), tokenIndex(\d+) := position, tokenIndex', lambda a, b: 'SSave %s' % a if a == b else None),
    (r'position(\d+) := position', lambda a: 'SSavePos %s' % a),
    (r'position, tokenIndex = position(\d+), tokenIndex(\d+)', lambda a, b: 'SRestore %s' % a if a == b else None),
    (r'position\+\+', lambda: 'SInc'),
    (r'goto l(\d+)', lambda a: 'SGoto %s' % a),
    (r'l(\d+):', lambda a: 'SLabel %s' % a),
    (r'add\((rule\w+), position(\d+)\)', lambda r, a: 'SAdd %s %s' % (callee(r), a)),
    (r'add\((rule\w+), position\)', lambda r: 'SAddHere %s' % callee(r)),
    (r'return (true|false)', lambda b: 'SReturn %s' % b),
    (r'break', lambda: 'SBreak'),
]
COND = [
    (r'if !_rules\[(rule\w+)\]\(\) \{', lambda r: 'SCall %s' % callee(r)),
    (r"if buffer\[position\] != rune\('(.+)'\) \{", lambda c: 'SIfNot %d' % rune(c)),
    (r"if c := buffer\[position\]; c < rune\('(.+)'\) \|\| c > rune\('(.+)'\) \{", lambda a, b: 'SIfNotIn %d %d' % (rune(a), rune(b))),
    (r'if !matchDot\(\) \{', lambda: 'SIfNotDot'),
]
class P:
    def __init__(self, i): self.i = i
    def line(self): return src[self.i].strip()
    def stmts(self, stop):
        out = []
        while True:
            l = self.line()
            if stop(l): return out
            if l == '' : self.i += 1; continue
            out.append(self.stmt(l))
    def stmt(self, l):
        if l == '{':
            self.i += 1
            b = self.stmts(lambda x: x == '}'); self.i += 1
            return 'SBlock [%s]' % '; '.join(b)
        if l == 'switch buffer[position] {':
            self.i += 1; cases = []; default = None
            end = lambda x: x.startswith('case ') or x == 'default:' or x == '}'
            while self.line() != '}':
                h = self.line(); self.i += 1
                if h == 'default:':
                    assert default is None
                    default = self.stmts(end)
                else:
                    assert default is None        # default comes last
                    m = re.fullmatch(r'case (.+):', h)
                    cs = re.findall(r"'(\\.|[^\\'])'", m.group(1))
                    assert m.group(1) == ', '.join("'%s'" % c for c in cs), h
                    cases.append(('[%s]%%N' % '; '.join(str(rune(c)) for c in cs), self.stmts(end)))
            self.i += 1
            assert default is not None
            return 'SSwitch [%s] [%s]' % ('; '.join('(%s, [%s])' % (c, '; '.join(b)) for c, b in cases), '; '.join(default))
        for r, f in COND:
            m = re.fullmatch(r, l)
            if m:
                g = re.fullmatch(r'goto l(\d+)', src[self.i + 1].strip()); assert g, l
                assert src[self.i + 2].strip() == '}'
                self.i += 3
                return '%s %s' % (f(*m.groups()), g.group(1))
        for r, f in SIMPLE:
            m = re.fullmatch(r, l)
            if m:
                s = f(*m.groups()); assert s, l
                self.i += 1
                return s
        raise Exception('line %d: %s' % (self.i + 1, l))

# the array of functions
i = next(k for k, l in enumerate(src) if l.strip() == '_rules = [...]func() bool{') + 1
entries = []
while src[i] != '\t}':
    l = src[i].strip()
    if l == 'nil,': entries.append((i + 1, i + 1, None)); i += 1
    elif l.startswith('/*') and l.endswith('*/'): i += 1
    elif l == 'func() bool {':
        p = P(i + 1); b = p.stmts(lambda x: x == '},')
        entries.append((i + 1, p.i + 1, b)); i = p.i + 1
    else: raise Exception('line %d: %s' % (i + 1, l))

# the names of the rules
i = next(k for k, l in enumerate(src) if l.strip() == 'var rul3s = [...]string{') + 1
names_at = i
names3 = []
while src[i].strip() != '}':
    m = re.fullmatch(r'"([A-Za-z0-9_]+)",', src[i].strip()); names3.append(m.group(1)); i += 1
names_end = i + 1

# the switch of Execute
i = next(k for k, l in enumerate(src) if l.strip() == 'func (p *MiniQueryPeg) Execute() {')
exec_at = i + 1
head = ['func (p *MiniQueryPeg) Execute() {',
        'buffer, _buffer, text, begin, end := p.Buffer, p.buffer, "", 0, 0',
        'for _, token := range p.Tokens() {', 'switch token.pegRule {', '', 'case rulePegText:',
        'begin, end = int(token.begin), int(token.end)', 'text = string(_buffer[begin:end])', '']
for h in head:
    assert src[i].strip() == h, src[i]
    i += 1
actions = []
while src[i].strip() != '':
    m = re.fullmatch(r'case ruleAction(\d+):', src[i].strip())
    c = re.fullmatch(r'p\.(\w+)\((text)?\)', src[i + 1].strip())
    actions.append((m.group(1), c.group(1), c.group(2) is not None)); i += 2
for h in ['', '}', '}', '_, _, _, _, _ = buffer, _buffer, text, begin, end', '}']:
    assert src[i].strip() == h, src[i]
    i += 1
exec_end = i

def wrap(s, n=150):
    out = []; cur = '    '
    for w in s.split(' '):
        if len(cur) + len(w) > n: out.append(cur.rstrip()); cur = '    '
        cur += w + ' '
    out.append(cur.rstrip())
    return '\n'.join(out)
print('''(** The rule constants and the rule functions of miniquery/miniquery.peg.go, written
    by tools/go2v.py: one statement (GoStmt.v) for each statement there, with the same
    labels and the same numbers of variables. *)
From Verif Require Import Base Peg GoStmt.
''')
print('(** the constants of type pegRule in their order, iota: 0 is ruleUnknown *)')
print('Definition go_constants : list tokrule :=\n  [' + '\n  '.join([';'.join([' ' + callee(c).strip('()') for c in consts[1:]]).strip()]) + '].\n')
names = []
for k, (a, b, body) in enumerate(entries):
    if body is None: names.append('None'); continue
    names.append('Some go%d' % k)
    print('(** [%d], %s, miniquery.peg.go:%d-%d *)' % (k, consts[k], a, b))
    print('Definition go%d : list stmt :=\n%s.' % (k, wrap('[' + '; '.join(body) + ']')))
print('''
(** the array _rules, miniquery.peg.go:%d-%d; None is nil *)
Definition go_rules : list (option (list stmt)) :=
%s.''' % (entries[0][0] - 1, entries[-1][1] + 1, wrap('[' + '; '.join(names) + ']')))
print("""
(** rul3s, miniquery.peg.go:%d-%d *)
Definition go_names : list (list N) :=
%s.

(** The switch of Execute, miniquery.peg.go:%d-%d: the method called for ruleActionN and
    whether its argument is text. *)
Definition go_actions : list (nat * (list N * bool)) :=
%s.""" % (names_at, names_end, wrap('[' + '; '.join('#"%s"' % x for x in names3) + ']'), exec_at, exec_end,
    wrap('[' + '; '.join('(%s, (#"%s", %s))' % (n, m, 'true' if t else 'false') for n, m, t in actions) + ']')))
