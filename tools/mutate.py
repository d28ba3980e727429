"""Mutation testing of the model, in a scratch copy (never in /verif).
usage: mutate.py BASE MUTATIONS.json OUT.jsonl
BASE: built copy of /verif/rocq (with /tmp/mut/sug.out: output of a build with
'Suggest Proof Using').  Each mutation: {id, definition, file, old, new, edit, claim}.
The edited copy is rebuilt; a lemma whose proof fails is replaced by an axiom
(in the scratch copy) so that the build goes on, until everything compiles.
A property theorem 'fails' when its own proof fails or when it rests on a lemma
that failed; the others still hold of the edited program."""
import sys,os,re,json,subprocess,shutil,time
base,muts,out=sys.argv[1:4]
W='/tmp/mut/w_'+os.path.basename(out)
using={}
txt=open('/tmp/mut/sug.out').read()
for m in re.finditer(r'The proof of (\S+) should start with one of the following commands:\s*\n((?:Proof using [^\n]*\n)+)',txt):
    using[m[1]]=m[2].split('\n')[0].strip()
HEAD=re.compile(r'^[ \t]*(?:#\[[^\]]*\][ \t]*)?(?:Local |Global |Program )*(Theorem|Lemma|Corollary|Example|Fact|Remark|Instance|Definition|Fixpoint)\s+(\w+)',re.M)
def build(jobs):
    p=subprocess.run(['timeout','1500','make','-k','-j%d'%jobs],cwd=W,stdout=subprocess.PIPE,stderr=subprocess.STDOUT,text=True,errors='replace')
    return p.returncode,p.stdout
def cheat(path,line,deftext):
    s=open(path).read(); lines=s.split('\n')
    end=sum(len(l)+1 for l in lines[:line])-1
    hs=[m for m in HEAD.finditer(s) if m.start()<=end]
    if not hs: return None
    m=hs[-1]
    pm=re.compile(r'\bProof\b[^.]*\.').search(s,m.end())
    if not pm: return None
    nxt=HEAD.search(s,m.end())
    if nxt and nxt.start()<pm.start(): return None
    em=re.compile(r'\b(Qed|Defined)\.').search(s,pm.end())
    if not em: return None
    u=using.get(m[2],'Proof.')
    if 'using' in pm[0]: u=pm[0]
    s=s[:pm.start()]+u+' exact mutation_cheat. '+em[0]+s[em.end():]
    open(path,'w').write(s)
    return m[2]
def run(mu,jobs=3):
    shutil.rmtree(W,ignore_errors=True); subprocess.run(['cp','-a',base,W]); t0=time.time()
    f=W+'/theories/'+mu['file']; s=open(f).read()
    assert s.count(mu['old'])==1,(mu['id'],s.count(mu['old']))
    open(f,'w').write(s.replace(mu['old'],mu['new']))
    # the axiom lives in a file of its own, imported by files that need it
    open(W+'/theories/MutCheat.v','w').write('Axiom mutation_cheat : forall {P : Type}, P.\n')
    subprocess.run('echo theories/MutCheat.v >> _CoqProject && coq_makefile -f _CoqProject -o Makefile && make theories/MutCheat.vo',shell=True,cwd=W,stdout=subprocess.DEVNULL,stderr=subprocess.DEVNULL)
    failed=[];note=''
    for it in range(40):
        rc,o=build(jobs)
        if rc==0: break
        errs=re.findall(r'File "\./(theories/\w+\.v)", line (\d+), characters [^\n]*\n((?:.*\n){0,6})',o)
        errs=[(a,int(b),t) for a,b,t in errs if 'Error' in t]
        if not errs: note='build stopped: '+o[-300:]; break
        prog=False
        for a,b,t in {x[0]:x for x in errs}.values():
            n=cheat(W+'/'+a,b,t)
            if n is None: note+=' no proof at %s:%d %s'%(a,b,t.strip()[:200]); continue
            if (a,n) in failed: note+=' twice %s %s'%(a,n); continue
            failed.append((a,n)); prog=True
            p=W+'/'+a; s=open(p).read()
            if 'MutCheat' not in s:
                i=s.index('From Verif Require'); s=s[:i]+'From Verif Require Import MutCheat.\n'+s[i:]; open(p,'w').write(s)
        if not prog: break
    # which property theorems rest on a failed lemma
    thms=[]
    for x in sorted(os.listdir(W+'/theories')):
        if x.startswith('Theorems') and x.endswith('.v'):
            s=open(W+'/theories/'+x).read()
            for m in re.finditer(r'^\s*(?:Theorem|Corollary)\s+(C\d\d_\w+)',s,re.M): thms.append((x[:-2],m[1]))
    res={}
    mods=sorted({a for a,_ in thms})
    for mod in mods:
        if not os.path.exists(W+'/theories/%s.vo'%mod):
            for a,b in thms:
                if a==mod: res[b]='not built'
            continue
        if os.path.getmtime(W+'/theories/%s.vo'%mod)<t0:  # untouched by the edit
            for a,b in thms:
                if a==mod: res[b]='holds'
            continue
        q=W+'/Q.v'
        names=[b for a,b in thms if a==mod]
        open(q,'w').write('From Verif Require Import %s.\n'%mod+''.join('Definition mark_%s := tt. Print mark_%s. Print Assumptions %s.\n'%(n,n,n) for n in names))
        p=subprocess.run(['timeout','900','coqc','-Q','theories','Verif','Q.v'],cwd=W,stdout=subprocess.PIPE,stderr=subprocess.STDOUT,text=True,errors='replace')
        parts=re.split(r'mark_(\w+) = tt',p.stdout)
        for i in range(1,len(parts),2):
            res[parts[i]]='fails' if 'mutation_cheat' in parts[i+1] else 'holds'
        for n in names: res.setdefault(n,'unknown')
    r=dict(mu); r['failed_lemmas']=['%s:%s'%(a[9:-2],n) for a,n in failed]; r['note']=note
    r['fails']=sorted(k for k,v in res.items() if v!='holds'); r['holds']=sorted(k for k,v in res.items() if v=='holds')
    r['states']={k:v for k,v in res.items() if v not in('holds','fails')}
    with open(out,'a') as fo: fo.write(json.dumps(r)+'\n')
    print(mu['id'],'failed lemmas',len(failed),'theorems failing',len(r['fails']),note[:300],flush=True)
jobs=int(sys.argv[4]) if len(sys.argv)>4 else 3
for mu in json.load(open(muts)): run(mu,jobs)
