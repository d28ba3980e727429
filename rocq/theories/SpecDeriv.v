(** Specification: the successful derivation of a parse, without what was tried
    and given up on the way, and what it means for a tree to contain it. *)
From Verif Require Export SpecPeg.
From stdpp Require Import base list option numbers.
From Coq Require Import NArith.
Local Open Scope N_scope.

(** [deriv e i j D]: [e] matches [s[i..j)] (as in [peg]), and [D] lists in
    order the labelled rule applications the match is made of, each with its
    own derivation below it.  Failed alternatives, the last (failing) round of
    a repetition and predicates contribute nothing. *)
Section deriv.
  Context (g : pgrammar) (s : list N).

  Inductive deriv : pexp -> N -> N -> list ptree -> Prop :=
  | dv_char c i : s !! N.to_nat i = Some c -> deriv (PChar c) i (i + 1) []
  | dv_range a b x i : s !! N.to_nat i = Some x -> a <= x <= b -> deriv (PRange a b) i (i + 1) []
  | dv_str l i : occurs_at s i l -> deriv (PStr l) i (i + N.of_nat (length l)) []
  | dv_seq e1 e2 i j k D1 D2 : deriv e1 i j D1 -> deriv e2 j k D2 -> deriv (PSeq e1 e2) i k (D1 ++ D2)
  | dv_alt_1 e1 e2 i j D : deriv e1 i j D -> deriv (PAlt e1 e2) i j D
  | dv_alt_2 e1 e2 i j D : peg g s e1 i None -> deriv e2 i j D -> deriv (PAlt e1 e2) i j D
  | dv_and e i j : peg g s e i (Some j) -> deriv (PAnd e) i i []
  | dv_not e i : peg g s e i None -> deriv (PNot e) i i []
  | dv_star_stop e i : peg g s e i None -> deriv (PStar e) i i []
  | dv_star_more e i j k D1 D2 : deriv e i j D1 -> deriv (PStar e) j k D2 -> deriv (PStar e) i k (D1 ++ D2)
  | dv_plus e i j k D1 D2 : deriv e i j D1 -> deriv (PStar e) j k D2 -> deriv (PPlus e) i k (D1 ++ D2)
  | dv_opt_some e i j D : deriv e i j D -> deriv (POpt e) i j D
  | dv_opt_none e i : peg g s e i None -> deriv (POpt e) i i []
  | dv_rule r A body i j D : g A = Some body -> deriv body i j D -> deriv (PRef (Some r) A) i j [TNode r i j true D]
  | dv_inline A body i j D : g A = Some body -> deriv body i j D -> deriv (PRef None A) i j D.
End deriv.

(** [contains F D]: leaving out some trees of [F], and recursively some
    subtrees of the others, gives [D]; nothing else is changed and the order
    is kept. *)
Inductive contains : list ptree -> list ptree -> Prop :=
  | con_nil : contains [] []
  | con_skip t F D : contains F D -> contains (t :: F) D
  | con_keep r i j b F1 D1 F D : contains F1 D1 -> contains F D ->
      contains (TNode r i j b F1 :: F) (TNode r i j b D1 :: D).

(** [laid_out i j D]: the trees of [D] lie one after the other inside [i..j),
    and so do the children of each inside its own span. *)
Inductive laid_out : N -> N -> list ptree -> Prop :=
  | lay_nil i j : i <= j -> laid_out i j []
  | lay_cons i j r a z b C D : i <= a -> laid_out a z C -> laid_out z j D ->
      laid_out i j (TNode r a z b C :: D).
