"""Writes rocq/theories/DslSources.v: the .dsl files of /repo as byte strings."""
import glob,os
F={"dsl":"parser/Grammar.dsl"}
for i in range(1,12):
    d=[x for x in glob.glob("/repo/examples/example_%d*"%i) if glob.glob(x+"/*.dsl") and (os.path.basename(x)=="example_%d"%i or os.path.basename(x).startswith("example_%d_"%i))]
    fs=[f for x in d for f in glob.glob(x+"/*.dsl")]
    assert len(fs)==1,(i,fs)
    F["ex%d"%i]=fs[0][len("/repo/"):]
F["json"]="examples/json_parser/json.dsl"
o=['(** Generated by tools/dsl_sources.py: the grammar files of /repo, verbatim. *)','From Verif Require Export Programs.','Open Scope string_scope.','']
for k,f in F.items():
    b=open("/repo/"+f,"rb").read()
    assert all(x<128 for x in b) and b'\r' not in b,(f)
    o.append('(** %s *)'%f)
    o.append('Definition %s_source : list N := bytes "%s".'%(k,b.decode().replace('"','""')))
    o.append('')
open("/verif/rocq/theories/DslSources.v","w").write("\n".join(o))
