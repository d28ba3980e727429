"""Writes rocq/theories/Assumptions.v: Print Assumptions for every theorem of MANIFEST.json."""
import json,re,glob,os
m=json.load(open('/verif/MANIFEST.json'))
names=[]
for c in m["claims"]:
    for t in c["theorems"]:
        if t not in names: names.append(t)
where={}
for f in sorted(glob.glob('/verif/rocq/theories/Theorems*.v')):
    for t in re.findall(r'^\s*(?:Theorem|Lemma|Corollary|Example) (\w+)',open(f).read(),re.M): where.setdefault(t,os.path.basename(f)[:-2])
mods=sorted({where[n] for n in names})
out="(** Generated by tools/assumptions.py: what each theorem of MANIFEST.json rests on.\n    One traversal for all of them: \"Closed under the global context\" means that\n    no theorem uses any axiom. *)\n"
out+="From Verif Require "+" ".join(mods)+".\n"
for i in range(0,len(names),10):
    out+="Definition theorems_%d := (%s).\n"%(i//10,", ".join("@%s.%s"%(where[n],n) for n in names[i:i+10]))
out+="Definition all_theorems := (%s).\nPrint Assumptions all_theorems.\n"%", ".join("theorems_%d"%(i//10) for i in range(0,len(names),10))
open('/verif/rocq/theories/Assumptions.v','w').write(out)
