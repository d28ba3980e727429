"""Writes rocq/theories/CrateSources.v: parser.rs and rules.rs of the generated
crates of /repo, verbatim."""
import glob,os
F={"dsl":"parser"}
for i in range(1,12):
    d=[x for x in glob.glob("/repo/examples/example_%d*_parser"%i) if os.path.basename(x).startswith("example_%d_"%i)]
    assert len(d)==1,(i,d)
    F["ex%d"%i]=d[0][len("/repo/"):]
o=['(** Generated by tools/crate_sources.py: parser.rs and rules.rs of the','    generated crates of /repo, verbatim. *)','From Verif Require Export Programs.','Local Open Scope string_scope.','']
for k,d in F.items():
    for n in ("parser","rules"):
        f=d+"/src/%s.rs"%n
        b=open("/repo/"+f,"rb").read()
        assert all(x<128 for x in b) and b'\r' not in b,(f)
        o.append('(** %s *)'%f)
        chunks=[];cur=''
        for l in b.decode().splitlines(True):      # a definition per piece of the file: long string literals overflow coqc's stack
            if len(cur)+len(l)>6000: chunks.append(cur); cur=''
            cur+=l
        chunks.append(cur)
        assert ''.join(chunks)==b.decode()
        for i,c in enumerate(chunks): o.append('Definition %s_%s_rs_%d : list N := bytes "%s".'%(k,n,i+1,c.replace('"','""')))
        o.append('Definition %s_%s_rs : list N := (%s)%%list.'%(k,n,' ++ '.join('%s_%s_rs_%d'%(k,n,i+1) for i in range(len(chunks)))))
        o.append('')
open("/verif/rocq/theories/CrateSources.v","w").write("\n".join(o))
