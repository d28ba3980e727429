(** Specification: the context-free reading of a grammar.

    Choice is unordered, repetition is any number of times, predicates are the
    empty string.  [cfg g s e i j]: the bytes [s[i..j)] are derivable from
    [e].  Left recursion is unproblematic here: a derivation is a finite
    tree. *)
From Verif Require Export SpecPeg.
From stdpp Require Import base list option numbers.
From Coq Require Import NArith.
Local Open Scope N_scope.

Section cfg.
  Context (g : pgrammar) (s : list N).

  Inductive cfg : pexp -> N -> N -> Prop :=
  | cfg_char c i : s !! N.to_nat i = Some c -> cfg (PChar c) i (i + 1)
  | cfg_range a b x i : s !! N.to_nat i = Some x -> a <= x <= b -> cfg (PRange a b) i (i + 1)
  | cfg_str l i : occurs_at s i l -> cfg (PStr l) i (i + N.of_nat (length l))
  | cfg_seq e1 e2 i j k : cfg e1 i j -> cfg e2 j k -> cfg (PSeq e1 e2) i k
  | cfg_alt_l e1 e2 i j : cfg e1 i j -> cfg (PAlt e1 e2) i j
  | cfg_alt_r e1 e2 i j : cfg e2 i j -> cfg (PAlt e1 e2) i j
  | cfg_and e i : cfg (PAnd e) i i
  | cfg_not e i : cfg (PNot e) i i
  | cfg_star_nil e i : cfg (PStar e) i i
  | cfg_star_cons e i j k : cfg e i j -> cfg (PStar e) j k -> cfg (PStar e) i k
  | cfg_plus e i j k : cfg e i j -> cfg (PStar e) j k -> cfg (PPlus e) i k
  | cfg_opt_none e i : cfg (POpt e) i i
  | cfg_opt_some e i j : cfg e i j -> cfg (POpt e) i j
  | cfg_ref l A body i j : g A = Some body -> cfg body i j -> cfg (PRef l A) i j.
End cfg.
