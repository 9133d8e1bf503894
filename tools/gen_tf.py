#!/usr/bin/env python3
"""Transcribes the bodies of threefishN.encrypt/decrypt (Go) into TfCodeN.v, one Coq item per Go line.
Refuses any line it does not understand completely."""
import re, sys
def tok(s):
    out=[]; i=0
    while i<len(s):
        if s[i].isspace(): i+=1; continue
        m=re.match(r'<<|>>|[A-Za-z_.]+\[\d+\]|[A-Za-z]+\d*|\d+|[()+\-|^]',s[i:])
        if not m: raise Exception("lex "+s)
        out.append(m.group(0)); i+=len(m.group(0))
    return out
def var(t):
    m=re.fullmatch(r'([bkt])(\d+)',t)
    if m: return m.group(1)+m.group(2)
    if t=='tmp': return 'tmp'
    m=re.fullmatch(r'(input|output|tf\.expandedKey|tf\.expandedTweak)\[(\d+)\]',t)
    if m: return {'input':'In','output':'Out','tf.expandedKey':'XK','tf.expandedTweak':'XT'}[m.group(1)]+' '+m.group(2)
    return None
class P:
    def __init__(s,ts): s.t=ts; s.i=0
    def peek(s): return s.t[s.i] if s.i<len(s.t) else None
    def next(s): s.i+=1; return s.t[s.i-1]
    # Go precedence: << >> bind tighter than + - | ^ , which share one level, left assoc.
    def e(s):
        l=s.m()
        while s.peek() in ('+','|','^'):
            o=s.next(); r=s.m(); l='%s [%s] %s'%(l,o,r)
        return l
    def m(s):
        l=s.a()
        while s.peek() in ('<<','>>'):
            o=s.next(); n=s.shift(); l='%s [%s] %s'%(l,o,n)
        return l
    def shift(s):
        if s.peek()=='(':
            s.next(); a=s.next(); assert s.next()=='-'; b=s.next(); assert s.next()==')'
            assert a.isdigit() and b.isdigit()
            return '(%s - %s)'%(a,b)
        n=s.next(); assert n.isdigit(); return n
    def a(s):
        x=s.next()
        if x=='(':
            r=s.e(); assert s.next()==')'; return '(%s)'%r
        if x.isdigit(): return 'EC %s'%x
        v=var(x); assert v,x
        return ('EV (%s)'%v) if ' ' in v else v
def stmt(line):
    m=re.fullmatch(r'(\S+)\s*(:=|\+=|-=|=)\s*(.+)',line)
    assert m,line
    v=var(m.group(1)); assert v,line
    p=P(tok(m.group(3))); e=p.e(); assert p.i==len(p.t),line
    op={':=':'<-','=':'<-','+=':'+=','-=':'-='}[m.group(2)]
    return '%s %s %s'%('(%s)'%v if ' ' in v else v,op,e)
def body(lines,name):
    start=[i for i,l in enumerate(lines) if re.match(r'func \(tf \*threefish\d+\) %s\('%name,l)]
    assert len(start)==1
    out=[]; i=start[0]+1
    while not lines[i].startswith('}'):
        l=lines[i].strip()
        if l and l!='var tmp uint64': out.append((i+1,stmt(l)))
        i+=1
    return start[0]+1,i+1,out
for n in (256,512,1024):
    src='/repo/crypter/crypter%d.go'%n
    lines=open(src).read().split('\n')
    nw=n//64
    o=open('/verif/rocq/theories/TfCode%d.v'%n,'w')
    o.write('(** Generated by tools/gen_tf.py from crypter/crypter%d.go: one item per Go statement,\n    in order; the trailing comment is the Go line number.  Do not edit. *)\n'%n)
    o.write('From Coq Require Import ZArith List.\nFrom Verif Require Import TfLang.\nImport ListNotations.\nOpen Scope Z_scope.\n\n')
    for c,N,hi in (('b','B',nw),('k','K',nw+1),('t','T',3)):
        o.write(' '.join('Local Notation %s%d := (%s %d).'%(c,i,N,i) for i in range(hi))+'\n')
    o.write('Local Notation tmp := Tmp.\nLocal Open Scope tf_scope.\n\n')
    for name in ('encrypt','decrypt'):
        a,b,st=body(lines,name)
        o.write('(** crypter/crypter%d.go:%d-%d, func (tf *threefish%d) %s. *)\n'%(n,a,b,n,name))
        o.write('Definition %s%d_body : list stmt := [\n'%(name,n))
        for j,(ln,s) in enumerate(st):
            o.write('  %s%s (* %d *)\n'%(s,';' if j+1<len(st) else '',ln))
        o.write('].\n\n')
        print(n,name,a,b,len(st))
    o.close()
