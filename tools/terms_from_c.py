#!/usr/bin/env python3
"""Transcribe the bodies of functions_nonintegrated, functions_single_integrated
and functions_double_integrated (src/functions.c) into the expression language
of Verif.CExpr.  Everything between #ifdef/#if HAVE_CLASS and #endif is kept
(the build with CLASS); the build without CLASS is the same code run with
midpoint_approximation = 0, because every such part is guarded by it.
Usage: terms_from_c.py functions.c > Terms.v"""
import re, sys
src = open(sys.argv[1]).read()
# strip comments, keeping line structure
def blank(m): return re.sub(r'[^\n]', ' ', m.group(0))
src = re.sub(r'/\*.*?\*/', blank, src, flags=re.S)
src = re.sub(r'//[^\n]*', blank, src)
src = re.sub(r'^[ \t]*#[^\n]*', blank, src, flags=re.M)
tok_re = re.compile(r'\s+|(?P<s>"(?:[^"\\]|\\.)*")|(?P<n>\d+(?:\.\d*)?(?:[eE][-+]?\d+)?)|(?P<i>[A-Za-z_]\w*)|(?P<o>->|\+=|\*=|==|!=|<=|>=|&&|\|\||\+\+|[-+*/%<>=!&(){}\[\];,.?:])')
class T:
    def __init__(s,k,v,l): s.k,s.v,s.l=k,v,l
    def __repr__(s): return f"{s.v}@{s.l}"
def tokenize(text, line0):
    out=[]; pos=0; line=line0
    while pos<len(text):
        m=tok_re.match(text,pos)
        if not m: raise Exception(f"bad token at line {line}: {text[pos:pos+30]!r}")
        if m.lastgroup: out.append(T(m.lastgroup,m.group(0),line))
        line+=m.group(0).count('\n'); pos=m.end()
    return out
def func(name):
    m=re.search(r'^double '+name+r'\(',src,re.M)
    b=src.index('{',m.end()); d=0; i=b
    while True:
        if src[i]=='{': d+=1
        if src[i]=='}':
            d-=1
            if d==0: break
        i+=1
    return tokenize(src[b+1:i], src.count('\n',0,b)+1)
FLAGS={'only_cross_correlations':'only_cross','flatsky_local':'flatsky_local','flatsky_local_nonlocal':'flatsky_local_nonlocal','flatsky_nonlocal':'flatsky_nonlocal','b_derivative':'b_derivative','f_derivative':'f_derivative','b_tilde_derivative':'b_tilde_derivative','f_tilde_derivative':'f_tilde_derivative','divergent':'divergent','midpoint_approximation':'midpoint'}
VARS={'result':'res','x':'x_','x1':'x_1','x2':'x_2'}
class P:
    def __init__(s,toks): s.t=toks; s.p=0
    def peek(s,o=0): return s.t[s.p+o].v if s.p+o<len(s.t) else None
    def line(s): return s.t[min(s.p,len(s.t)-1)].l
    def eat(s,v=None):
        t=s.t[s.p]
        if v is not None and t.v!=v: raise Exception(f"expected {v} got {t}")
        s.p+=1; return t
    # expressions return (coq, type) ; type in int,double,bool
    def expr(s): return s.or_()
    def or_(s):
        a=s.and_()
        while s.peek()=='||':
            s.eat(); b=s.and_(); a=(f"(Or {cond(a)} {cond(b)})",'bool')
        return a
    def and_(s):
        a=s.eq()
        while s.peek()=='&&':
            s.eat(); b=s.eq(); a=(f"(And {cond(a)} {cond(b)})",'bool')
        return a
    def eq(s):
        a=s.rel()
        while s.peek() in('==','!='):
            o=s.eat().v; b=s.rel()
            if a[0]=='@pk':
                assert b[0]=='@COFFE_PK_LINEAR'
                c="(Flag pk_nonlinear)" if o=='!=' else "(Not (Flag pk_nonlinear))"
            elif a[0]=='@out':
                assert b[0]=='@MULTIPOLES'
                c="(Flag output_multipoles)" if o=='==' else "(Not (Flag output_multipoles))"
            else:
                c=f"(Eq {dbl(a)} {dbl(b)})"
                if o=='!=': c=f"(Not {c})"
            a=(c,'bool')
        return a
    def rel(s):
        a=s.add()
        while s.peek() in('<','>','<=','>='):
            o=s.eat().v; b=s.add()
            x,y=dbl(a),dbl(b)
            c={'<':f"(Lt {x} {y})",'>':f"(Lt {y} {x})",'<=':f"(Not (Lt {y} {x}))",'>=':f"(Not (Lt {x} {y}))"}[o]
            a=(c,'bool')
        return a
    def add(s):
        a=s.mul()
        while s.peek() in('+','-'):
            o=s.eat().v; b=s.mul()
            t='int' if a[1]==b[1]=='int' else 'double'
            a=(f"{dbl(a,50)} {o} {dbl(b,49)}",t,50)
        return a
    def mul(s):
        a=s.un()
        while s.peek() in('*','/'):
            o=s.eat().v; l=s.line(); b=s.un()
            if a[1]==b[1]=='int':
                if o=='/': raise Exception(f"integer division line {l}: {a} / {b}")
                t='int'
            else: t='double'
            a=(f"{dbl(a,40)} {o} {dbl(b,39)}",t,40)
        return a
    def un(s):
        if s.peek()=='-':
            s.eat(); a=s.un()
            return (f"(- {dbl(a)})",a[1])
        if s.peek()=='!':
            s.eat(); a=s.un()
            return (f"(Not {cond(a)})",'bool')
        return s.prim()
    def key(s):
        # coffe_find_integral(integral, n, l, st, st)
        s.eat('coffe_find_integral'); s.eat('('); s.eat('integral'); s.eat(',')
        n=s.intlit(); s.eat(','); l=s.intlit(); s.eat(',')
        a=s.eat().v; s.eat(','); b=s.eat().v; s.eat(')')
        assert a==b and a in('COFFE_INTEGER','COFFE_HALF_INTEGER')
        s.eat('->'); f=s.eat().v
        return f"(K {n} {l} {'true' if a=='COFFE_HALF_INTEGER' else 'false'})", f
    def intlit(s):
        neg=''
        if s.peek()=='-': s.eat(); neg='-'
        t=s.eat(); assert t.k=='n' and '.' not in t.v
        return f"({neg}{t.v})" if neg else t.v
    def prim(s):
        t=s.t[s.p]
        if t.v=='(':
            s.eat(); a=s.expr(); s.eat(')'); return a
        if t.k=='n':
            s.eat()
            if '.' in t.v or 'e' in t.v:
                from fractions import Fraction
                f=Fraction(t.v)
                if f.denominator==1: return (f"#{f.numerator}",'double')
                return (f"Dec {f.numerator} {f.denominator}",'double',10)
            return (f"#{t.v}",'int')
        if t.v=='par':
            s.eat(); s.eat('->'); f=s.eat().v
            if f=='correlation_contrib':
                s.eat('.'); c=s.eat().v; return (f"(Con {c})",'bool')
            if f in FLAGS: return (f"(Flag {FLAGS[f]})",'bool')
            if f=='h': return ("Par_h",'double')
            if f=='Omega0_cdm': return ("Omega0_cdm",'double')
            if f=='Omega0_baryon': return ("Omega0_baryon",'double')
            if f=='pk_type': return ('@pk','int')
            if f=='output_type': return ('@out','int')
            raise Exception(f)
        if t.v in('COFFE_PK_LINEAR','MULTIPOLES'): s.eat(); return ('@'+t.v,'int')
        if t.v=='COFFE_H0': s.eat(); return ('H0','double')
        if t.v=='M_PI': s.eat(); return ('Pi','double')
        if t.v in('coffe_interp_spline','coffe_interp_spline2d'):
            two=t.v.endswith('2d'); s.eat(); s.eat('('); s.eat('&')
            if s.peek()=='coffe_find_integral':
                k,f=s.key(); sp=None
            else:
                b=s.eat().v; s.eat('->'); f=s.eat().v; sp=f"{b}_{f}"
            s.eat(','); x=dbl(s.expr())
            if two:
                s.eat(','); y=dbl(s.expr()); s.eat(')')
                assert sp is None and f in('result2d','renormalization')
                return (f"Tab2 {k} {f} {x} {y}",'double',10)
            s.eat(')')
            if sp: return (f"Spl {sp} {x}",'double',10)
            assert f in('result','renormalization_zero_separation')
            return (f"Tab1 {k} {f} {x}",'double',10)
        if t.v=='pow':
            s.eat(); s.eat('('); x=dbl(s.expr()); s.eat(','); n=s.intlit(); s.eat(')')
            return (f"Pow {x} {n}",'double',10)
        if t.v in('sqrt','fabs'):
            s.eat(); s.eat('('); x=dbl(s.expr()); s.eat(')')
            return (f"{t.v.capitalize()} {x}",'double',10)
        if t.v in('gsl_sf_legendre_P1','gsl_sf_legendre_P2'):
            s.eat(); s.eat('('); x=dbl(s.expr()); s.eat(')')
            return (f"Leg {t.v[-1]} {x}",'double',10)
        if t.v=='gsl_sf_legendre_Pl':
            s.eat(); s.eat('('); n=s.intlit(); s.eat(','); x=dbl(s.expr()); s.eat(')')
            return (f"Leg {n} {x}",'double',10)
        if t.v=='gsl_finite':
            s.eat(); s.eat('('); x=dbl(s.expr()); s.eat(')')
            return ("Finite",'bool')
        if t.k=='i':
            s.eat(); return (VARS.get(t.v,t.v),'double')
        raise Exception(f"prim {t}")
    # statements
    def block(s):
        out=[]
        while s.p<len(s.t) and s.peek()!='}': out.append(s.stmt())
        return out
    def body(s):
        if s.peek()=='{':
            s.eat(); b=s.block(); s.eat('}'); return b
        return [s.stmt()]
    def stmt(s):
        l=s.line(); v=s.peek()
        if v in('const','double'):
            if v=='const': s.eat()
            s.eat('double'); ds=[]
            while True:
                n=s.eat().v; s.eat('='); e=dbl(s.expr(),0); ds.append(('set',VARS.get(n,n),e,l))
                if s.peek()==',': s.eat(); continue
                break
            s.eat(';')
            return ds[0] if len(ds)==1 else ('seq',ds,l)
        if v=='if':
            s.eat(); s.eat('('); c=cond(s.expr()); s.eat(')'); a=s.body(); b=[]
            if s.peek()=='else': s.eat(); b=s.body()
            return ('if',c,a,b,l,s.t[s.p-1].l)
        if v=='return':
            s.eat(); e=dbl(s.expr()); s.eat(';'); return ('ret',e,l)
        if v in('fprintf','exit'):
            d=0
            while True:
                t=s.eat()
                if t.v==';': break
            return ('exit',l) if v=='exit' else ('skip',l)
        n=s.eat().v; o=s.eat().v; e=dbl(s.expr()); s.eat(';')
        if o=='=': return ('set',VARS.get(n,n),e,l)
        if o=='+=':
            assert n=='result'; return ('add',e,l)
        raise Exception(f"stmt {n} {o} line {l}")
def cond(a):
    if a[1]!='bool': raise Exception(f"cond {a}")
    return a[0]
def dbl(a,lvl=0):
    """the text of a, parenthesised unless its level is at most lvl"""
    if a[1]=='bool' or a[0].startswith('@'): raise Exception(f"dbl {a}")
    p=a[2] if len(a)>2 else 0
    return a[0] if p<=lvl else f"({a[0]})"
def wrap(s, ind, width=78):
    # break long expression text at spaces
    words=s.split(' '); lines=[]; cur=' '*ind
    for w in words:
        if len(cur)+len(w)+1>width and cur.strip():
            lines.append(cur.rstrip()); cur=' '*(ind+1)
        cur+=w+' '
    lines.append(cur.rstrip()); return '\n'.join(lines)
def flat(ss):
    out=[]
    for x in ss:
        if x[0]=='seq': out+=flat(x[1])
        elif x[0]=='skip': pass
        else: out.append(x)
    return out
def emit(x,ind):
    sp=' '*ind
    if x[0]=='set': return wrap(f"Set_ {x[1]} {x[2]}",ind)
    if x[0]=='add': return wrap(f"AddTo {x[1]}",ind)
    if x[0]=='ret': return wrap(f"Return {x[1]}",ind)
    if x[0]=='exit': return sp+"Exit"
    if x[0]=='if':
        return wrap(f"If {x[1]}",ind)+"\n"+emits(x[2],ind+1)+"\n"+emits(x[3],ind+1)
    raise Exception(x[0])
def emits(ss,ind):
    ss=flat(ss); sp=' '*ind
    if not ss: return sp+"[]"
    parts=[]
    for x in ss: parts.append(emit(x,ind+1).lstrip())
    return sp+"["+(";\n"+' '*(ind+1)).join(parts)+"]"
print('''(** * The terms of src/functions.c

    Transcribed by tools/terms_from_c.py from src/functions.c, block by block;
    each definition cites the lines it transcribes.  The code between
    [#ifdef HAVE_CLASS] and [#endif] is included; since all of it is guarded by
    [par->pk_type != COFFE_PK_LINEAR && par->midpoint_approximation], the build
    without CLASS is the same code with [midpoint] false.  The messages printed
    before [exit] are left out.  Integer literals used in floating-point
    expressions are [Num]; the transcription refuses integer divisions, so none
    occurs. *)
From Coq Require Import ZArith List.
Import ListNotations.
From Verif Require Import Integrals CExpr.
Open Scope c_scope.
''')
for fn,pre in(('functions_nonintegrated','ni'),('functions_single_integrated','si'),('functions_double_integrated','di')):
    ss=flat(P(func(fn)).block())
    blocks=[]; prelude=[]; final=[]
    for x in ss:
        if x[0]=='if' and re.match(r'\(And \(Con ',x[1]): blocks.append(x)
        elif blocks: final.append(x)
        else: prelude.append(x)
    def rng(xs):
        a=min(x[-1] if x[0]!='if' else x[4] for x in xs); b=max(x[-1] for x in xs); return f"{a}-{b}"
    print(f"(** Local variables of [{fn}], functions.c:{rng(prelude)}. *)")
    print(f"Definition {pre}_prelude : list stmt :=\n{emits(prelude,1)}.\n")
    names=[]
    for x in blocks:
        m=re.match(r'\(And \(Con (\w+)\) \((?:Con (\w+)|Not \(Flag only_cross\))\)\)$',x[1])
        if not m: raise Exception(x[1])
        a,b=m.group(1),m.group(2) or m.group(1)
        nm=f"{pre}_{a}_{b}"; names.append((nm,a,b,x))
        print(f"(** functions.c:{x[4]}-{x[5]}. *)")
        print(f"Definition {nm} : list stmt :=\n{emits([x],1)}.\n")
    print(f"(** The pair blocks of [{fn}] in source order. *)")
    print(f"Definition {pre}_blocks : list (contrib * contrib * list stmt) :=\n  ["+";\n   ".join(f"({a}, {b}, {n})" for n,a,b,_ in names)+"].\n")
    print(f"(** How [{fn}] returns, functions.c:{rng(final)}. *)")
    print(f"Definition {pre}_final : list stmt :=\n{emits(final,1)}.\n")
