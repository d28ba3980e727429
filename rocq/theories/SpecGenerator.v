(** Specification: what the generator must produce for a list of rules. *)
From Coq Require Import Sorted.
From Verif Require Export SpecDsl SpecLeft SpecCompile Generator.

(** Byte-wise lexicographic order. *)
Inductive lex_lt : list N -> list N -> Prop :=
  | ll_nil c l : lex_lt [] (c :: l)
  | ll_head a b l m : a < b -> lex_lt (a :: l) (b :: m)
  | ll_tail a l m : lex_lt l m -> lex_lt (a :: l) (a :: m).
Definition lex_le (a b : list N) : Prop := a = b \/ lex_lt a b.

(** Some declaration of [n] carries the Inline instruction. *)
Definition declared_inline (rules : list drule) (n : name) : Prop :=
  exists r, r ∈ rules /\ dr_name r = n /\ dr_inline r = true.
Definition declared_name (rules : list drule) (n : name) : Prop := exists r, r ∈ rules /\ dr_name r = n.

(** The variants listed in the involved set of [n]: one for every
    left-recursive rule that [n] reaches through leftmost references, [n]
    itself included, sorted. *)
Definition involved_variants (rules : list drule) (n : name) (l : list name) : Prop :=
  exists ms, NoDup ms /\ (forall m, m ∈ ms <-> reaches rules n m /\ left_recursive rules m) /\
    l ≡ₚ map first_upper ms /\ StronglySorted lex_le l.

(** Lines of the last comment of a rule, blanks stripped at both ends. *)
Definition comment_of (cs : list (list N)) : list (list N) :=
  match list.last cs with None => [] | Some l => map trim (split_lines l) end.

Section generated.
  Context (rules : list drule).
  (** How references are compiled. *)
  Definition refs_resolved (involved : name -> option (list name)) (is_inline : name -> bool) : Prop :=
    (forall n, match involved n with
               | Some l => left_recursive rules n /\ involved_variants rules n l
               | None => ~ left_recursive rules n end) /\
    (forall n, is_inline n = true <-> declared_inline rules n).

  (** One function per declaration, in the order of the file. *)
  Record function_for involved is_inline (c : gen_code) (r : drule) (f : gen_fn) : Prop := FunctionFor {
    fu_name : gf_name f = to_lowercase (dr_name r);
    fu_comment : gf_comment f = comment_of (dr_comments r);
    fu_body : run_body (scope_of c) frame_empty (gf_body f) = compile (scope_of c) involved is_inline (dr_body r) }.

  (** The enum: the declared rules that are not inline, each name once, sorted. *)
  Definition enum_for (enum : list name) : Prop :=
    exists ns, StronglySorted lex_lt ns /\ (forall n, n ∈ ns <-> declared_name rules n /\ ~ declared_inline rules n) /\
      enum = map first_upper ns.

  Record generated_for (c : gen_code) : Prop := GeneratedFor {
    ge_refs : exists involved is_inline, refs_resolved involved is_inline /\
      Forall2 (function_for involved is_inline c) rules (gc_fns c);
    ge_imports : gc_imports c = concat (map (fun r => hooks_of (dr_body r)) rules);
    ge_enum : enum_for (gc_enum c);
    ge_size : gc_size c = N.of_nat (length (gc_enum c)) }.
End generated.

(** What the generator reads: a file that spells [rules], or nothing at all. *)
Definition file_or_empty (s : list N) (rules : list drule) : Prop := file_text s rules \/ s = [] /\ rules = [].

(** Line (counted from 1) of byte offset [q]. *)
Definition newlines (l : list N) : nat := length (filter (fun c => c = 10) l).
Definition line_of (s : list N) (q : N) : N := 1 + N.of_nat (newlines (firstn (N.to_nat q) s)).
(** [s] spells complete rules up to [q] and no further rule from [q] on. *)
Definition reads_up_to (s : list N) (q : N) (rules : list drule) : Prop :=
  (exists k, rules_text s 0 k rules /\ blank s k q) /\ forall j r, ~ rule_text s q j r.
