(** Specification: which right-hand sides and rules the generator can turn
    into code at all.  Everything else makes it panic. *)
From Verif Require Export SpecCompile SpecLeft.

Definition fits_u32 (ds : list N) : bool := hexval ds <? u32_modulus.
(** Unicode scalar values: no surrogates, at most 0x10FFFF. *)
Definition is_scalar (v : N) : bool := (v <? 55296) || ((57344 <=? v) && (v <? 1114112)).
(** Bounds of a range: no decimal numbers, no empty quotes. *)
Definition bound_emits (b : dbound) : bool :=
  match b with BQuoted [] => false | BQuoted _ => true | BHex ds => fits_u32 ds | BInt _ => false end.
(** No decimal literal, hex literals are characters. *)
Fixpoint emits (e : dexp) : bool :=
  match e with
  | DIntLit _ => false
  | DHexLit ds => is_scalar (hexval ds)
  | DRange a b => bound_emits a && bound_emits b
  | DQuoted _ | DString _ | DRef _ => true
  | DGroup e | DHook _ e | DAnd e | DNot e | DPlus e | DStar e | DOpt e => emits e
  | DSeq es | DAlt es => forallb emits es
  end.
(** ... and no empty comment. *)
Definition rule_emits (r : drule) : bool := emits (dr_body r) && forallb (fun c => negb (bool_decide (c = []))) (dr_comments r).
