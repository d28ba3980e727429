(** Specification: a tree written down as indented lines. *)
From Verif Require Export Base SpecPeg.
Local Open Scope N_scope.

(** One line: depth, rule, span, result, number of children. *)
Record tree_line := TreeLine { tl_depth : nat; tl_rule : N; tl_start : N; tl_end : N; tl_ok : bool; tl_children : nat }.

(** Parents before children, children in order, one level deeper; with
    [Some b] only nodes with result [b], and nothing below other nodes. *)
Definition shown (mode : option bool) (b : bool) : bool := match mode with Some c => eqb c b | None => true end.
Fixpoint listing (mode : option bool) (depth : nat) (t : ptree) : list tree_line :=
  let 'TNode l i j b F := t in
  if shown mode b then
    TreeLine depth l i j b (length F) ::
    (fix below (F : list ptree) : list tree_line := match F with [] => [] | t :: F => listing mode (S depth) t ++ below F end) F
  else [].
