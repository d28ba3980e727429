(** Specification: the tree that left recursion round a cycle of rules builds
    (SpecCycle.v says what it matches). *)
From Verif Require Export SpecExact SpecCycle.
Local Open Scope N_scope.

Section tree.
  Context (g : pgrammar) (s : list N) (p : N).
  Definition first_child (x : option ptree) : list ptree := match x with Some t => [t] | None => [] end.
  Definition tail_builds (t : option expr) (q j : N) (D : list ptree) : Prop :=
    match t with None => j = q /\ D = [] | Some t => deriv g s (pexp_of t) q j D end.
  (** What the alternatives build on the tree [x] of the next rule at [p] (none,
      if it failed): where the first alternative that succeeds ends, and the
      trees of the rules it applied - not counting the next rule itself. *)
  Inductive builds (x : option ptree) : list alternative -> option (N * list ptree) -> Prop :=
    | builds_nothing : builds x [] None
    | builds_follow n t l j D : x = Some n -> tail_builds t (t_end n) j D -> builds x (Follow t :: l) (Some (j, D))
    | builds_follow_next t l o : match x with Some n => tail_means g s t (t_end n) None | None => True end -> builds x l o -> builds x (Follow t :: l) o
    | builds_seed e l j D : deriv g s (pexp_of e) p j D -> builds x (Seed e :: l) (Some (j, D))
    | builds_seed_next e l o : peg g s (pexp_of e) p None -> builds x l o -> builds x (Seed e :: l) o.
  (** The node of rule [r].  The next rule is called first of all, and the node
      of a call that succeeded stays: it is the first child even if in the end
      a seed is taken. *)
  Definition node_of (r : N) (x : option ptree) (o : option (N * list ptree)) : option ptree :=
    match o with Some (j, D) => Some (TNode r p j true (first_child x ++ D)) | None => None end.
  Fixpoint through_tree (ms : list member) (x y : option ptree) : Prop :=
    match ms with
    | [] => y = x
    | m :: ms => exists z o, through_tree ms x z /\ builds z (m_alts m) o /\ y = node_of (m_label m) z o
    end.
  Inductive rounds_tree (ms : list member) : ptree -> ptree -> Prop :=
    | rt_stop x y : through_tree ms (Some x) y -> match y with Some z => t_end z <= t_end x | None => True end -> rounds_tree ms x x
    | rt_more x y z : through_tree ms (Some x) (Some y) -> t_end x < t_end y -> rounds_tree ms y z -> rounds_tree ms x z.
  Definition cycle_tree (ms : list member) (y : option ptree) : Prop :=
    exists first rest o, ms = first :: rest /\ builds None (m_alts first) o /\
      match node_of (m_label first) None o with
      | Some t => if t_end t <=? p then y = None else exists z, rounds_tree ms t z /\ y = Some z
      | None => y = None
      end.
End tree.

(** Nothing that is tried and given up - an alternative of a rule of the cycle,
    or anything in a function the cycle calls - leaves a node of a completed
    rule call behind. *)
Section clean.
  Context {U : Type} (pr : program U) (plain : N -> bool) (Nr : N -> bool).
  Definition clean_alternative (a : alternative) : bool :=
    match a with
    | Follow None => true
    | Follow (Some t) => tidy Nr t && fails_clean Nr t
    | Seed e => tidy Nr e && fails_clean Nr e
    end.
  Record clean_cycle (ms : list member) : Prop := {
    cc_tidy : forall f e, plain f = true -> pr_fn pr f = Some e -> tidy Nr e = true;
    cc_callless : forall f e, plain f = true -> pr_fn pr f = Some e -> Nr f = true -> callless Nr e = true;
    cc_alternatives : forall m, m ∈ ms -> forallb clean_alternative (m_alts m) = true;
  }.
End clean.

(** Left-nested trees of a cycle: a seed of the first rule; or a left-nested
    tree, and round it a node of the last rule of the cycle, round that one of
    the rule before it, and so on up to the first rule again.  Each node has the
    next inner one as its first child, and then what one of its rule's tails
    builds from where that one ends.  (With a single rule: plain left recursion.) *)
Section nested.
  Context (g : pgrammar) (s : list N) (p : N).
  Fixpoint wrapped (ms : list member) (n t : ptree) : Prop :=
    match ms with
    | [] => t = n
    | m :: ms => exists z tl j D, wrapped ms n z /\ Follow tl ∈ m_alts m /\ tail_builds g s tl (t_end z) j D /\ t = TNode (m_label m) p j true (z :: D)
    end.
  Inductive left_nested (first : member) (rest : list member) : ptree -> Prop :=
    | nested_seed e j D : Seed e ∈ m_alts first -> deriv g s (pexp_of e) p j D -> p < j -> left_nested first rest (TNode (m_label first) p j true D)
    | nested_more n t : left_nested first rest n -> wrapped (first :: rest) n t -> t_end n < t_end t -> left_nested first rest t.
End nested.

(** Differences: the tree of "d-d-..-d" with [k] minus signs.  [r] is the rule
    of a difference, [ls] the rules its left operand passes through, [num i] the
    tree of the digit at [i]. *)
Fixpoint wraps (ls : list N) (t : ptree) : ptree := match ls with [] => t | l :: ls => TNode l 0 (t_end t) true [wraps ls t] end.
Fixpoint difference_tree (r : N) (ls : list N) (num : N -> ptree) (k : nat) : ptree :=
  match k with
  | O => TNode r 0 1 true [num 0]
  | S k => TNode r 0 (2 * N.of_nat k + 3) true [wraps ls (difference_tree r ls num k); num (2 * N.of_nat k + 2)]
  end.
