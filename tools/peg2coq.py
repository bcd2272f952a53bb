#!/usr/bin/env python3
"""Transcribes the PEG grammar of /repo/include/xtypes/idl/grammar.hpp:30-328 into theories/Grammar.v."""
import re
src=open('/repo/include/xtypes/idl/grammar.hpp').read().split('\n')
start=next(i for i,l in enumerate(src) if 'R"(' in l)+1
end=next(i for i,l in enumerate(src) if l.startswith(')";'))
# lex with line numbers
toks=[]
for i in range(start,end):
    l=src[i]; j=0
    while j<len(l):
        c=l[j]
        if c in ' \t': j+=1; continue
        if c=='#': break
        if l.startswith('<-',j): toks.append(('ARROW','<-',i+1)); j+=2; continue
        if c in '"\'':
            k=j+1; s=''
            while l[k]!=c:
                if l[k]=='\\':
                    s+={'n':'\n','r':'\r','t':'\t','\\':'\\',"'":"'",'"':'"'}[l[k+1]]; k+=2
                else: s+=l[k]; k+=1
            toks.append(('LIT',s,i+1)); j=k+1; continue
        if c=='[':
            k=j+1; items=[]
            while l[k]!=']':
                if l[k]=='\\':
                    ch={'n':'\n','r':'\r','t':'\t','\\':'\\',']':']'}[l[k+1]]; k+=2
                else: ch=l[k]; k+=1
                if l[k]=='-' and l[k+1]!=']':
                    hi=l[k+1]; k+=2; items.append((ch,hi))
                else: items.append((ch,ch))
            toks.append(('CLS',items,i+1)); j=k+1; continue
        m=re.match(r'[A-Z_0-9a-z]+',l[j:])
        if m: toks.append(('ID',m.group(0),i+1)); j+=m.end(); continue
        assert c in '()<>*+?!./~',(c,i)
        toks.append((c,c,i+1)); j+=1
p=0
def peek(k=0): return toks[p+k][0] if p+k<len(toks) else None
def at_rule(): # a new definition begins here
    return (peek()=='ID' and peek(1)=='ARROW') or (peek()=='~' and peek(1)=='ID' and peek(2)=='ARROW')
def lit(s):
    out=[]; cur=''
    def flush():
        nonlocal cur
        if cur!='': out.append('"%s"'%cur.replace('"','""')); cur=''
    special={'\n':'NL','\r':'CR','\t':'TAB'}
    for ch in s:
        if ch in special: flush(); out.append(special[ch])
        else: cur+=ch
    flush()
    return out[0] if len(out)==1 else '('+' ++ '.join(out)+')'
def chr_(c): return {'\n':'"010"','\r':'"013"','\t':'"009"','"':'""""'}.get(c,'"%s"'%c)+'%char'
def alt():
    l=[seq()]
    global p
    while peek()=='/':
        p+=1; l.append(seq())
    r=l[-1]
    for x in reversed(l[:-1]): r='Alt %s (%s)'%(par(x),r) if ' ' in r else 'Alt %s %s'%(par(x),r)
    return r
def par(x): return '(%s)'%x if ' ' in x else x
def seq():
    l=[]
    while p<len(toks) and not at_rule() and peek() in ('LIT','CLS','ID','(','<','.','!','~'): l.append(prefix())
    if not l: return 'Eps'
    r=l[-1]
    for x in reversed(l[:-1]): r='Seq %s %s'%(par(x),par(r))
    return r
def prefix():
    global p
    if peek()=='!': p+=1; return 'Not '+par(suffix())
    if peek()=='~': p+=1; return 'Ign '+par(suffix())
    return suffix()
def suffix():
    global p
    x=prim()
    if peek()=='*': p+=1; return 'Star '+par(x)
    if peek()=='+': p+=1; return 'Plus '+par(x)
    if peek()=='?': p+=1; return 'Opt '+par(x)
    return x
def prim():
    global p
    k,v,_=toks[p]; p+=1
    if k=='LIT': return 'Lit '+lit(v)
    if k=='CLS': return 'Cls ['+'; '.join('(%s, %s)'%(chr_(a),chr_(b)) for a,b in v)+']'
    if k=='ID': return 'Ref R_'+v
    if k=='.': return 'Any'
    if k=='(':
        x=alt(); assert peek()==')'; p+=1; return x
    if k=='<':
        x=alt(); assert peek()=='>',toks[p-3:p+3]; p+=1; return 'Tok '+par(x)
    raise Exception((k,v,_))
rules=[]
while p<len(toks):
    ign=False
    if peek()=='~': ign=True; p+=1
    k,name,line=toks[p]; assert k=='ID',toks[p-3:p+3]; p+=2
    rules.append((name,ign,alt(),line,toks[p-1][2]))
names=[r[0] for r in rules]
import sys
o=[]
o.append('''(** The IDL grammar, transcribed rule by rule from include/xtypes/idl/grammar.hpp:30-328 by tools/peg2coq.py.
    The comment after each rule gives its line(s).  [Ref] is a reference, [Tok] is < ... >, [Ign] is ~ before an
    operand; [ignored] lists the rules defined with ~. *)
From Verif Require Import Base Peg0.
Local Open Scope string_scope.

Inductive rule :=''')
line='';
for i,n in enumerate(names):
    if i%6==0: o.append('')
    o[-1]+=' | R_'+n
o[-1]+='.'
o.append('')
o.append('(** A number for each rule, to compare tags (peg::str2tag hashes the name). *)')
o.append('Definition rule_idx (r : rule) : N :=\n  match r with')
o.append('\n'.join('  | R_%s => %d'%(n,i) for i,n in enumerate(names)))
o.append('  end%N.')
o.append('Definition rule_eqb (a b : rule) : bool := N.eqb (rule_idx a) (rule_idx b).')
o.append('')
o.append('Definition gram (r : rule) : exp rule :=\n  match r with')
for n,ig,e,a,b in rules:
    o.append('  | R_%s => %s (* %s *)'%(n,e,('%d'%a if a==b else '%d-%d'%(a,b))))
o.append('  end.')
o.append('')
o.append('Definition ignored (r : rule) : bool :=\n  match r with')
o.append('  '+' '.join('| R_%s'%n for n,ig,_,_,_ in rules if ig)+' => true\n  | _ => false\n  end.')
o.append('')
o.append('(** The rules whose name starts with "KW_" (parser.hpp:908-917). *)')
o.append('Definition kw_rules : list rule := ['+'; '.join('R_'+n for n in names if n.startswith('KW_'))+'].')
open('/verif/rocq/theories/Grammar.v','w').write('\n'.join(o)+'\n')
print(len(rules))
