(** Specification: grammar files that can be used as they are - the generator
    compiles them and rustc accepts the result - by looking at the rules only. *)
From Verif Require Export SpecGenerator SpecEmit SpecMeaning.
Local Open Scope N_scope.

(** Literals that survive being pasted into Rust source: ASCII without raw line
    breaks or tabs in quotes, no bare carriage return and only complete escapes
    in strings, hex literals below 0x80 that are neither of these, bounds of
    ranges single characters or hex numbers below 2^32. *)
Definition rust_bound (b : dbound) : bool :=
  match b with BQuoted [_] => true | BHex ds => hexval ds <? u32_modulus | _ => false end.
Fixpoint rust_literals (e : dexp) : bool :=
  match e with
  | DQuoted c => match quoted_byte c with Some _ => true | None => false end
  | DString l => match string_bytes l with Some _ => true | None => false end
  | DHexLit ds => match string_bytes [hexval ds] with Some _ => true | None => false end
  | DIntLit _ => false
  | DRange a b => rust_bound a && rust_bound b
  | DRef _ => true
  | DGroup e | DHook _ e | DAnd e | DNot e | DPlus e | DStar e | DOpt e => rust_literals e
  | DSeq es | DAlt es => forallb rust_literals es
  end.

Record accepted (rules : list drule) : Prop := {
  ac_declared : refs_declared rules;
  ac_hooks : hook_free rules;
  ac_literals : forall r, r ∈ rules -> rust_literals (dr_body r) = true;
  (** no two names that differ in case only, none that is a Rust keyword or a
      variable of generated functions *)
  ac_names : NoDup (map (fun r => to_lowercase (dr_name r)) rules);
  ac_reserved : forall r, r ∈ rules -> to_lowercase (dr_name r) ∉ reserved;
  (** left-recursive rules are not inline *)
  ac_inline : forall n, left_recursive rules n -> ~ declared_inline rules n;
  (** no empty comment [##] *)
  ac_comments : forall r c, r ∈ rules -> c ∈ dr_comments r -> c <> [] }.
