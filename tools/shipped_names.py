"""Writes rocq/theories/ShippedNames.v: function names and imports (parser.rs),
enum variants and RULES_SIZE (rules.rs) of the generated crates in /repo."""
import re,glob,os
D={"dsl":"parser"}
for i in range(1,12):
    d=[x for x in glob.glob("/repo/examples/example_%d*_parser"%i) if re.match(r"example_%d(_.*)?_parser$"%i,os.path.basename(x))]
    assert len(d)==1,(i,d)
    D["ex%d"%i]=d[0][len("/repo/"):]
def lst(l): return "["+"; ".join('bytes "%s"'%x for x in l)+"]"
o=["(** Generated by tools/shipped_names.py: the names in the generated crates of /repo. *)","From Verif Require Export Programs.","Local Open Scope string_scope.",""]
for k,d in D.items():
    p=open(f"/repo/{d}/src/parser.rs").read(); r=open(f"/repo/{d}/src/rules.rs").read()
    fns=re.findall(r"pub fn (\w+)<T: Context>",p)
    imports=re.findall(r"use crate::hooked_calls::(\w+);",p)
    enum=[x.strip() for x in re.search(r"pub enum Rules\s*\{(.*?)\}",r,re.S).group(1).split(",") if x.strip()]
    size=int(re.search(r"RULES_SIZE: u32 = (\d+)",r).group(1))
    o.append(f"(** {d}/src/parser.rs, {d}/src/rules.rs *)")
    o.append(f"Definition {k}_fns : list (list N) := {lst(fns)}.")
    o.append(f"Definition {k}_imports : list (list N) := {lst(imports)}.")
    o.append(f"Definition {k}_enum : list (list N) := {lst(enum)}.")
    o.append(f"Definition {k}_size : N := {size}%N.")
open("/verif/rocq/theories/ShippedNames.v","w").write("\n".join(o)+"\n")
