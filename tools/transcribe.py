#!/usr/bin/env python3
"""Mechanical transcription of generated parser.rs/rules.rs files into Coq tables.
usage: transcribe.py OUT PREFIX=DIR ...   (DIR relative to /repo, containing src/parser.rs)"""
import re,sys,os
REPO='/repo'
def byte(tok):
    tok=tok.strip()
    m=re.fullmatch(r"b'(.*)'",tok,re.S)
    s=m.group(1)
    esc={'\\n':10,'\\t':9,'\\r':13,"\\'":39,'\\"':34,'\\\\':92,'\\0':0}
    if s in esc: return esc[s]
    if s.startswith('\\x'): return int(s[2:],16)
    assert len(s)==1,s
    return ord(s)
def bstr(tok):
    tok=tok.strip()
    if tok.startswith('&'): tok=tok[1:]
    m=re.fullmatch(r'b"(.*)"\s*(?:\.to_vec\(\))?',tok,re.S); s=m.group(1)
    out=[];i=0
    while i<len(s):
        if s[i]=='\\':
            c=s[i+1]
            if c=='x': out.append(int(s[i+2:i+4],16)); i+=4; continue
            out.append({'n':10,'t':9,'r':13,'"':34,'\\':92,"'":39,'0':0}[c]); i+=2
        else: out.append(ord(s[i])); i+=1
    return out
def transcribe(prefix,d):
    path=f'{d}/src/parser.rs'
    txt=open(f'{REPO}/{path}').read()
    rtxt=open(f'{REPO}/{d}/src/rules.rs').read()
    enum=re.search(r'pub enum Rules\s*\{(.*?)\}',rtxt,re.S).group(1)
    rules=[x.strip() for x in enum.split(',') if x.strip()]
    size=int(re.search(r'RULES_SIZE: u32 = (\d+)',rtxt).group(1))
    fns=[]
    for m in re.finditer(r'pub fn (\w+)<T: Context>\(.*?\) -> \(bool, u32\) \{\n(.*?)\n\}\n',txt,re.S):
        name=m.group(1); body=m.group(2)
        l0=txt[:m.start()].count('\n')+1; l1=txt[:m.end()-1].count('\n')+1
        body=re.sub(r'^\s*//.*$','',body,flags=re.M)
        env={}; inv=None; hooks=[]
        stmts=[]; depth=0; cur=''
        instr=None; i=0
        while i<len(body):
            c=body[i]
            mm=re.match(r"b'(\\.[0-9a-fA-F]{0,2}|[^\\])'",body[i:])
            if mm and (i==0 or not (body[i-1].isalnum() or body[i-1]=='_')): cur+=mm.group(0); i+=len(mm.group(0)); continue
            mm=re.match(r'b"((?:\\.|[^"\\])*)"',body[i:])
            if mm and not (body[i-1].isalnum() or body[i-1]=='_'): cur+=mm.group(0); i+=len(mm.group(0)); continue
            if c in '({[': depth+=1
            if c in ')}]': depth-=1
            if c==';' and depth==0: stmts.append(cur.strip()); cur=''
            else: cur+=c
            i+=1
        final=cur.strip()
        def args(a):
            # split on top-level commas
            out=[];dep=0;cur='';i=0
            while i<len(a):
                mm=re.match(r"b'(\\.[0-9a-fA-F]{0,2}|[^\\])'",a[i:]) or re.match(r'b"((?:\\.|[^"\\])*)"',a[i:])
                if mm: cur+=mm.group(0); i+=len(mm.group(0)); continue
                if a[i] in '([{': dep+=1
                if a[i] in ')]}': dep-=1
                if a[i]==',' and dep==0: out.append(cur.strip()); cur=''
                else: cur+=a[i]
                i+=1
            if cur.strip(): out.append(cur.strip())
            return out
        R=lambda s: f"{prefix}_R_{s.split('::')[1]}"
        for s in stmts:
            m2=re.fullmatch(r'let involved_set: Vec<Rules> = \[(.*?)\]\s*\.to_vec\(\)',s,re.S)
            if m2:
                inv=[R(x) for x in args(m2.group(1))]; continue
            m2=re.fullmatch(r'let closure_(\d+) =\s*(.*)',s,re.S)
            k=m2.group(1); rhs=m2.group(2).strip()
            m3=re.fullmatch(r'move \|parent: Key, source: &Source, position: u32\| \{\s*(\w+)\(user_state, parent, context, source, position\)\s*\}',rhs,re.S)
            if m3: env[k]=f"EInline {prefix}_f_{m3.group(1)}"; continue
            m3=re.fullmatch(r'(\w+)\((.*)\)',rhs,re.S)
            fn=m3.group(1); a=args(m3.group(2))
            sub=lambda t: '('+env[re.fullmatch(r'&closure_(\d+)',t).group(1)]+')'
            un={'_not_predicate':'ENot','_and_predicate':'EAnd','_one_or_more':'EPlus','_zero_or_more':'EStar','_optional':'EOpt','_subexpression':'ESub'}
            if fn in un: assert len(a)==1; e=f"{un[fn]} {sub(a[0])}"
            elif fn=='_sequence': e=f"ESeq {sub(a[0])} {sub(a[1])}"
            elif fn=='_ordered_choice': e=f"EChoice {sub(a[0])} {sub(a[1])}"
            elif fn=='_ordered_choice_match_range': e=f"ERange {int(a[0])} {int(a[1])}"
            elif fn=='_terminal': e=f"ETerminal {byte(a[0])}"
            elif fn=='_string_terminal_opt_ascii': e="EString ["+'; '.join(map(str,bstr(a[0])))+"]"
            elif fn=='_var_name': assert a[0]=='user_state' and a[2]=='context'; e=f"EVar {R(a[1])} {prefix}_f_{a[3]}"
            elif fn=='_var_name_indirect_left_recursion':
                assert a[0]=='user_state' and a[1]=='&involved_set' and a[3]=='context'
                e=f"ELR [{'; '.join(inv)}] {R(a[2])} {prefix}_f_{a[4]}"
            else:
                assert a[:5]==['user_state','parent','context','source','position'],(fn,a)
                e=f"EHook {prefix}_h_{fn} {sub(a[5])}"; hooks.append(fn)
            env[k]=e
        m2=re.fullmatch(r'closure_(\d+)\(parent, source, position\)',final)
        fns.append((name,env[m2.group(1)],l0,l1,hooks))
    out=[f"(** ** {path}, {d}/src/rules.rs *)",f"(** {d}/src/rules.rs — enum Rules discriminants. *)"]
    for i,r in enumerate(rules): out.append(f"Definition {prefix}_R_{r} : N := {i}.")
    out.append(f"(** {d}/src/rules.rs — RULES_SIZE. *)\nDefinition {prefix}_RULES_SIZE : N := {size}.")
    out.append(f"(** Numbering of the functions of {path}, in file order. *)")
    for i,f in enumerate(fns): out.append(f"Definition {prefix}_f_{f[0]} : N := {i}.")
    hs=[]
    for f in fns:
        for h in f[4]:
            if h not in hs: hs.append(h)
    for i,h in enumerate(hs): out.append(f"Definition {prefix}_h_{h} : N := {i}.")
    for f in fns:
        out.append(f"(** {path}:{f[2]}-{f[3]} *)\nDefinition {prefix}_body_{f[0]} : expr :=\n  {f[1]}.")
    out.append(f"Definition {prefix}_table : list expr :=\n  ["+";\n   ".join(f"{prefix}_body_{f[0]}" for f in fns)+"].")
    return '\n'.join(out)+'\n'
if __name__=='__main__':
    outp=sys.argv[1]
    secs=[transcribe(*a.split('=')) for a in sys.argv[2:]]
    open(outp,'w').write("(** Generated by tools/transcribe.py from the generated parsers in /repo: each\n    rule function's closures unfolded into one expression. *)\nFrom Verif Require Export Expr.\n\n"+'\n'.join(secs))
