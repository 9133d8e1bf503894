#!/usr/bin/env python3
"""Turns the tables of glob's own unit tests into Coq examples: rocq/theories/GlobTests.v.
Each row of a table becomes one equation between the model's result and the expected value written in the test."""
import re, sys
R = '/repo/glob/'
tok_re = re.compile(r'\s+|//[^\n]*|(?P<s>"(?:\\.|[^"\\])*"|`[^`]*`)|(?P<r>\'(?:\\.|[^\'\\])+\')|(?P<n>-?\d+)|(?P<i>[A-Za-z_]\w*(?:\.[A-Za-z_]\w*)*)|(?P<p>\.\.\.|[][{}(),:&*+])', re.S)
def toks(src):
    i, out = 0, []
    while i < len(src):
        m = tok_re.match(src, i)
        if not m: raise Exception('token at ' + src[i:i+40])
        if m.lastgroup: out.append((m.lastgroup, m.group()))
        i = m.end()
    return out
def unq(s):
    if s[0] == '`': return s[1:-1]
    return s[1:-1].encode('latin-1', 'backslashreplace').decode('unicode_escape') if '\\' in s else s[1:-1]
class P:
    """values: ('str',s) ('rune',c) ('int',n) ('id',name) ('call',name,args) ('lit',type,[(key,val)])"""
    def __init__(self, ts): self.t, self.i = ts, 0
    def peek(self): return self.t[self.i][1] if self.i < len(self.t) else None
    def next(self): self.i += 1; return self.t[self.i-1]
    def eat(self, x):
        assert self.peek() == x, (x, self.t[self.i-3:self.i+5]); self.i += 1
    def value(self):
        v = self.atom()
        while self.peek() == '+':
            self.next(); w = self.atom(); v = ('cat', v, w)
        return v
    def atom(self):
        if self.peek() == '&': self.next()
        if self.peek() == '{': return ('lit', None, self.elems())
        if self.peek() == '[':
            ty = ''
            while self.peek() not in ('{', '('): ty += self.next()[1]
            if self.peek() == '(':
                self.next(); v = self.value(); self.eat(')'); return ('call', ty, [v])
            return ('lit', ty, self.elems())
        k, x = self.next()
        if k == 's': return ('str', unq(x))
        if k == 'r': return ('rune', unq("'" + x[1:-1] + "'"))
        if k == 'n': return ('int', int(x))
        name = x.split('.')[-1] if not x.startswith('test.') else x
        if self.peek() == '(':
            self.next(); args = []
            while self.peek() != ')':
                args.append(self.value())
                if self.peek() == '...': self.next(); args[-1] = ('spread', args[-1])
                if self.peek() == ',': self.next()
            self.next(); return ('call', name, args)
        if self.peek() == '{': return ('lit', name, self.elems())
        return ('id', name)
    def elems(self):
        self.eat('{'); out = []
        while self.peek() != '}':
            key = None
            if self.t[self.i][0] == 'i' and self.t[self.i+1][1] == ':': key = self.next()[1]; self.next()
            out.append((key, self.value()))
            if self.peek() == ',': self.next()
        self.next(); return out
consts = {}
def s_of(v):
    if v[0] == 'str': return v[1]
    if v[0] == 'id': return s_of(consts[v[1]])
    if v[0] == 'cat': return s_of(v[1]) + s_of(v[2])
    if v[0] == 'call' and v[1] == 'string': return ''.join(rs_of(v[2][0]))
    raise Exception(v)
def rs_of(v):
    if v[0] == 'id': return [] if v[1] == 'nil' else rs_of(consts[v[1]])
    if v[0] == 'call': return list(s_of(v[2][0]))       # []rune("...")
    return [x[1] for _, x in v[2]]
def zlist(l): return '[' + '; '.join(map(str, l)) + ']'
def bstr(v): return zlist(s_of(v).encode()) + '%Z'
def runes(v): return zlist(map(ord, rs_of(v))) + '%Z'
def rune(v): return str(ord(v[1])) + '%Z'
def boo(v): return v[1]
def nat(v): return str(v[1])
def flat(args):
    out = []
    for a in args:
        if a[0] == 'spread': out += [x for _, x in a[1][2]]
        else: out.append(a)
    return out
def ms(l): return '[' + '; '.join(map(matcher, l)) + ']'
def opt(v): return 'None' if v == ('id', 'nil') else '(Some ' + matcher(v) + ')'
def matcher(v):
    if v[0] == 'lit':
        inner = [x for _, x in v[2]]
        assert v[1] in ('EveryOf', 'AnyOf'), v
        return '(M%s %s)' % (v[1], ms([x for _, x in inner[0][2]]) if inner else '[]')
    _, n, a = v
    if n == 'NewText': return '(MText %s)' % bstr(a[0])
    if n in ('NewAny', 'NewSingle'): return '(M%s %s)' % (n[3:], runes(a[0]))
    if n in ('NewSuper', 'NewNothing'): return 'M' + n[3:]
    if n in ('NewMin', 'NewMax'): return '(M%s %s)' % (n[3:], nat(a[0]))
    if n == 'NewList': return '(MList %s %s)' % (runes(a[0]), boo(a[1]))
    if n == 'NewRange': return '(MRange %s %s %s)' % (rune(a[0]), rune(a[1]), boo(a[2]))
    if n == 'NewContains': return '(MContains %s %s)' % (bstr(a[0]), boo(a[1]))
    if n in ('NewPrefix', 'NewSuffix'): return '(M%s %s)' % (n[3:], bstr(a[0]))
    if n in ('NewPrefixAny', 'NewSuffixAny'): return '(M%s %s %s)' % (n[3:], bstr(a[0]), runes(a[1]))
    if n == 'NewPrefixSuffix': return '(MPrefixSuffix %s %s)' % (bstr(a[0]), bstr(a[1]))
    if n in ('NewAnyOf', 'NewEveryOf'): return '(M%s %s)' % (n[3:], ms(flat(a)))
    if n == 'NewBTree': return '(NewBTree %s %s %s)' % (matcher(a[0]), opt(a[1]), opt(a[2]))
    if n == 'NewRow': return '(MRow %s %s%%Z)' % (ms(flat(a[1:])), a[0][1])
    raise Exception(v)
def field(v, i, k):
    for j, (key, x) in enumerate(v[2]):
        if key == k or (key is None and j == i): return x
    return None
def node(v):
    _, n, a = v
    assert n == 'NewNode'
    kind, val, ch = a[0][1], a[1], '[' + '; '.join(map(node, a[2:])) + ']'
    if kind == 'KindPattern': return '(NPattern %s)' % ch
    if kind == 'KindAnyOf': return '(NAnyOf %s)' % ch
    if kind == 'KindNothing': return 'NNothing' if len(a) == 2 else '(NPattern %s)' % ch     # the tests use it as a parent
    if kind == 'KindText': return '(NText %s)' % bstr(field(val, 0, 'Text'))
    if kind in ('KindAny', 'KindSuper', 'KindSingle'): return 'N' + kind[4:]
    if kind == 'KindList': return '(NList %s %s)' % (boo(field(val, 0, 'Not') or ('id', 'false')), bstr(field(val, 1, 'Chars')))
    if kind == 'KindRange': return '(NRange %s %s %s)' % (boo(field(val, 2, 'Not') or ('id', 'false')), rune(field(val, 0, 'Lo')), rune(field(val, 1, 'Hi')))
    raise Exception(v)
def nodes(v): return '[]' if v is None else '[' + '; '.join(node(x) for _, x in v[2]) + ']'
def token(v):
    k, r = [x for _, x in v[2]]
    k, b = k[1], bstr(r)
    T = {'EOF': 'TEOF', 'Error': 'TError', 'Any': 'TAny', 'Super': 'TSuper', 'Single': 'TSingle', 'Not': 'TNot', 'Separator': 'TSep',
         'RangeOpen': 'TRangeOpen', 'RangeClose': 'TRangeClose', 'RangeBetween': 'TBetween', 'TermsOpen': 'TOpen', 'TermsClose': 'TClose'}
    if k in T: return T[k]
    if k == 'Text': return '(TText %s)' % b
    if k in ('RangeLo', 'RangeHi'): return '(T%s %s)' % (k[5:], b)
    raise Exception(v)
def tokens(v): return '[' + '; '.join(token(x) for _, x in v[2]) + ']'
def table(path, func, head=r'range \[\](?:struct \{.*?\n\t\}|\w+)(?=\{)'):
    src = open(R + path).read(); i = src.index('func ' + func + '(') if func else 0
    m = re.compile(head, re.S).search(src, i)
    line = src.count('\n', 0, src.index('func ' + func + '(')) + 1
    j, depth = m.end(), 0
    k = j
    instr = None
    while True:
        c = src[k]
        if instr:
            if c == '\\' and instr != '`': k += 1
            elif c == instr: instr = None
        elif c in '"`\'': instr = c
        elif c == '{': depth += 1
        elif c == '}':
            depth -= 1
            if depth == 0: break
        k += 1
    names = [n for l in re.findall(r'\n\t\t(\w+(?:, \w+)*)\s+[\[\]*\w.]+(?=\n)', m.group()) for n in l.split(', ')]
    return line, names, [v for _, v in P(toks(src[j:k+1])).elems()], src[k:src.index('\n}\n', k)]
out = []
def emit(name, path, line, eqs):
    out.append('(** /repo/glob/%s:%d, %d rows. *)\nExample %s :\n  %s.\nProof. repeat apply conj; vm_compute; reflexivity. Qed.' % (path, line, len(eqs), name, ' /\\\n  '.join(eqs)))
def named(row, names): return {key or names[i]: v for i, (key, v) in enumerate(row[2])}
src = open(R + 'glob_test.go').read()
for m in re.finditer(r'^\t(\w+)\s+= (".*"|`.*`)$', src, re.M): consts[m.group(1)] = ('str', unq(m.group(2)))
consts['dots'] = ('str', '1....2....3....4'); consts['separators'] = ('lit', '', [(None, ('rune', '.'))])
assert "var separators = []rune{'.'}" in open(R + 'compiler/compiler_test.go').read()
L, _, rows, _ = table('glob_test.go', 'TestGlob')
emit('test_Glob', 'glob_test.go', L, ['match_of %s %s %s = Some %s' % (bstr(a[1]), zlist(ord(x[1]) for x in a[3:]) + '%Z', bstr(a[2]), boo(a[0])) for _, _, a in rows])
L, n, rows, _ = table('glob_test.go', 'TestQuoteMeta')
emit('test_QuoteMeta', 'glob_test.go', L, ['QuoteMeta %s = %s' % (bstr(named(r, n)['in']), bstr(named(r, n)['out'])) for r in rows])
L, n, rows, _ = table('syntax/lexer/lexer_test.go', 'TestLexGood')
emit('test_LexGood', 'syntax/lexer/lexer_test.go', L, ['Lex %s = %s' % (bstr(named(r, n)['pattern']), tokens(named(r, n)['items'])) for r in rows])
L, n, rows, _ = table('syntax/ast/parser_test.go', 'TestParseString')
emit('test_ParseString', 'syntax/ast/parser_test.go', L, ['parse %s None [] [] = POk %s' % (tokens(named(r, n)['tokens']), node(named(r, n)['tree'])) for r in rows])
F = 'compiler/compiler_test.go'
L, n, rows, _ = table(F, 'TestCommonChildren')
emit('test_CommonChildren', F, L, ['commonChildren %s = (%s, %s)' % tuple(nodes(named(r, n).get(k)) for k in ('nodes', 'left', 'right')) for r in rows])
for f in ('TestGlueMatchers', 'TestCompileMatchers'):
    L, n, rows, _ = table(F, f)
    emit(f.replace('Test', 'test_'), F, L, ['compileMatchers %s = Some %s' % (ms([x for _, x in named(r, n)['in'][2]]), matcher(named(r, n)['exp'])) for r in rows])
L, n, rows, _ = table(F, 'TestConvertMatchers')
emit('test_ConvertMatchers', F, L, ['minimizeMatchers %s = %s' % tuple(ms([x for _, x in named(r, n)[k][2]]) for k in ('in', 'exp')) for r in rows])
L, n, rows, _ = table(F, 'TestCompiler')
emit('test_Compiler', F, L, ['compile_f 100 %s %s = Some %s' % (node(named(r, n)['ast']), runes(named(r, n).get('sep') or ('id', 'nil')), matcher(named(r, n)['result'])) for r in rows])
for base, f in (('every_of', 'EveryOf'), ('range', 'Range'), ('list', 'List'), ('any', 'Any'), ('min', 'Min'), ('row', 'Row'), ('suffix_any', 'SuffixAny'), ('max', 'Max'),
          ('nothing', 'Nothing'), ('any_of', 'AnyOf'), ('contains', 'Contains'), ('suffix', 'Suffix'), ('single', 'Single'), ('text', 'Text'), ('prefix_any', 'PrefixAny'),
          ('prefix', 'Prefix'), ('super', 'Super'), ('prefix_suffix', 'PrefixSuffix')):
    path = 'match/%s_test.go' % base
    L, n, rows, body = table(path, 'Test%sIndex' % f)
    call = P(toks(re.search(r':= (New\w+\(.*?\))\n', body).group(1))).value()
    eqs = []
    for r in rows:
        d = named(r, n)
        args = []
        for a in call[2]:
            sp = a[0] == 'spread'; a = a[1] if sp else a
            args.append(('spread', d[a[1][5:]]) if sp else d[a[1][5:]])
        idx, seg = d['index'][1], d['segments']
        if idx < 0: assert seg == ('id', 'nil'); res = 'None'
        else: res = 'Some (%d, %s)' % (idx, zlist(x[1] for _, x in seg[2]))
        eqs.append('Index %s %s = Some (%s)' % (matcher(('call', call[1], args)), bstr(d['fixture']), res))
    emit('test_%sIndex' % f, path, L, eqs)
L, n, rows, _ = table('match/match_test.go', 'TestAppendMerge')
emit('test_AppendMerge', 'match/match_test.go', L, ['appendMerge %s %s = %s' % tuple(zlist(x[1] for _, x in l) for l in (r[2][0][1][2][0][1][2], r[2][0][1][2][1][1][2], r[2][1][1][2])) for r in rows])
L, n, rows, _ = table('match/btree_test.go', 'TestBTree')
emit('test_BTree', 'match/btree_test.go', L, ['Match %s %s = Some %s' % (matcher(r[2][0][1]), bstr(r[2][1][1]), boo(r[2][2][1])) for r in rows])
F = 'util/runes/runes_test.go'
src = open(R + F).read()
def us(v): return zlist(map(ord, s_of(v))) + '%Z'
for var, test, fn in (('indexTests', 'TestIndex', 'RIndex'), ('lastIndexTests', 'TestLastIndex', 'RLastIndex'), ('indexAnyTests', 'TestIndexAny', 'IndexAny'), ('equalTests', 'TestEqual', 'Equal')):
    m = re.search(r'var %s = \[\]\w+(\{.*?\n\})' % var, src, re.S)
    rows = [v for _, v in P(toks(m.group(1))).elems()]
    emit('test_runes_' + fn, F, src.count('\n', 0, m.start()) + 1,
         ['%s %s %s = %s' % (fn, us(a[0]), us(a[1]), boo(a[2]) if fn == 'Equal' else '(%d)%%Z' % a[2][1]) for _, _, a in rows])
open('/verif/rocq/theories/GlobTests.v', 'w').write('''(** * The model against glob's own unit tests.
    Written by tools/gen_globtests.py from the tables in /repo/glob's test files: every row of every table, as an equation between what
    the model computes and the result the test expects of the code.  These are checks of the model, not properties of the code: no
    claim rests on them. *)
From Coq Require Import ZArith Arith List Bool.
From Verif Require Import Utf8 GoStr GlobLex GlobMatch GlobCompile GlobUtil.
Import ListNotations.
Open Scope nat_scope.

(** Compile, then Match (glob.go:29-43), with more fuel than any of these patterns needs. *)
Definition match_of (pattern : str) (sep : list Z) (s : str) : option bool :=
  match Parse pattern with
  | POk n => match compile_f 100 n sep with Some m => Match m s | None => None end
  | _ => None
  end.

''' + '\n'.join(out) + '\n')
print(len(out), 'tables')
