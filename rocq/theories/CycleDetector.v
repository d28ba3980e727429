(** generator/src/cycle_detector.rs *)
From Verif Require Export GenTree.

Notation name_set := (gset (list N)).
Notation name_map V := (gmap (list N) V).

(** HashMap iteration order: Rust's [HashMap] is randomly seeded, so each loop
    over a map sees its entries in an arbitrary order.  [ho_* n] is the order
    of the [n]-th such loop of each kind, an arbitrary function; the theorems
    assume only that it returns a permutation of its argument. *)
Definition hash_order := forall V : Type, list (name * V) -> list (name * V).
Record hash_orders := HashOrders {
  ho_refs : nat -> hash_order;       (* loops of loop_over_referenced_rules *)
  ho_keys : hash_order;              (* rules_keys.keys() *)
  ho_left : nat -> hash_order;       (* loops of cleanup_left_most_called_rules *)
  ho_involved : hash_order;          (* create_involved_sets *)
}.

(** What is assumed of an iteration order: every entry is visited once. *)
Definition is_perm (o : hash_order) : Prop := forall V l, o V l ≡ₚ l.
Definition orders_ok (ho : hash_orders) : Prop :=
  (forall i, is_perm (ho_refs ho i)) /\ is_perm (ho_keys ho) /\ (forall i, is_perm (ho_left ho i)) /\ is_perm (ho_involved ho).

(** cycle_detector.rs:397-401 — s[1..s.len()-1] of the node's text. *)
Definition ref_name (src : list N) (t : ptree) : res name :=
  let! s := tree_text src t in
  let! e := usub (N.of_nat (length s)) 1 in
  slice_str s 1 e.

(** cycle_detector.rs:383-395 — get_rules_name. *)
Definition get_rules_name (src : list N) (t : ptree) : res name :=
  let! lhs := child 0 t in
  if negb (t_label lhs =? dsl_R_LHS) then Panic PDebugAssert else
  let! decl := child 0 lhs in
  if negb (t_label decl =? dsl_R_Var_Name_Decl) then Panic PDebugAssert else ref_name src decl.

(** cycle_detector.rs:403-419 — get_rules_referenced_by_rule: the names of all
    Var_Name_Ref descendants. *)
Fixpoint referenced (src : list N) (t : ptree) (acc : name_set) : res name_set :=
  let 'TNode _ _ _ _ F := t in
  (fix go (l : list ptree) (acc : name_set) : res name_set :=
     match l with
     | [] => Ok acc
     | c :: l =>
       let! acc := if t_label c =? dsl_R_Var_Name_Ref
                   then (let! n := ref_name src c in Ok ({[n]} ∪ acc)) else Ok acc in
       let! acc := referenced src c acc in
       go l acc
     end) F acc.

(** cycle_detector.rs:22-28 — the tables filled by walk_node_children
    (rules_keys is only used for its key set, which equals that of
    rules_rhs_keys; keys are replaced by the nodes they stand for). *)
Record call_table := CallTable { ct_rhs : name_map ptree; ct_refs : name_map name_set }.

(** cycle_detector.rs:421-444 — walk_node_children. *)
Fixpoint walk_node_children (src : list N) (t : ptree) (ct : call_table) : res call_table :=
  let 'TNode _ _ _ _ F := t in
  (fix go (l : list ptree) (ct : call_table) : res call_table :=
     match l with
     | [] => Ok ct
     | c :: l =>
       let! ct :=
         if t_label c =? dsl_R_Rule then
           let! n := get_rules_name src c in
           let! rhs := child 1 c in
           let! refs := referenced src c ∅ in
           Ok (CallTable (<[n := rhs]> (ct_rhs ct)) (<[n := refs]> (ct_refs ct)))
         else Ok ct in
       let! ct := walk_node_children src c ct in
       go l ct
     end) F ct.

(** cycle_detector.rs:342-373, 156-183 — one pass over a map in some order,
    marking a rule "not left recursive" when all the rules listed for it are
    marked already (in particular when there are none).  Both
    loop_over_referenced_rules and cleanup_left_most_called_rules have this
    shape; marks are read and written in place.  [is_rule_left_recursive] only
    ever holds LeftRecursive::False: a set. *)
Definition mark_pass (entries : list (name * name_set)) (marked : name_set) : name_set :=
  fold_left (fun marked '(n, refs) => if bool_decide (refs ⊆ marked) then {[n]} ∪ marked else marked)
            entries marked.

(** cycle_detector.rs:321-340, 140-154 — repeat until the number of marks does
    not change.  [i] counts the passes (it selects the iteration order). *)
Fixpoint mark_loop (fuel : nat) (ord : nat -> hash_order) (i : nat) (m : name_map name_set) (marked : name_set)
  : res name_set :=
  match fuel with
  | O => NoFuel
  | S fuel =>
    let marked' := mark_pass (ord i name_set (map_to_list m)) marked in
    if Nat.eqb (size marked') (size marked) then Ok marked'
    else mark_loop fuel ord (S i) m marked'
  end.

(** cycle_detector.rs:216-319 — get_left_most_called_rules_of_rule.  The loop
    over the children of [node] returns at the first child of a listed kind.
    In the Sequence arm the inner loop has no effect and the tested child is
    the Sequence node itself, so the arm recurses into it. *)
Definition descend (l : N) : bool :=
  (l =? dsl_R_Sequence) || (l =? dsl_R_Atom) || (l =? dsl_R_RHS) || (l =? dsl_R_Nucleus)
  || (l =? dsl_R_Subexpression) || (l =? dsl_R_Hooked_Call) || (l =? dsl_R_One_Or_More)
  || (l =? dsl_R_And_Predicate) || (l =? dsl_R_Not_Predicate).

Fixpoint left_most (src : list N) (t : ptree) (acc : name_set) : res name_set :=
  let 'TNode _ _ _ _ F := t in
  (fix go (l : list ptree) : res name_set :=
     match l with
     | [] => Ok acc
     | c :: l =>
       if t_label c =? dsl_R_Ordered_Choice then
         let 'TNode _ _ _ _ G := c in
         (* children[..children.len() - 1] *)
         match G with
         | [] => Panic POverflow
         | _ =>
           (fix alts (G : list ptree) (acc : name_set) : res name_set :=
              match G with
              | [] => Ok acc
              | g :: G =>
                match G with
                | [] => Ok acc        (* the last alternative is ignored *)
                | _ => let! acc := left_most src g acc in alts G acc
                end
              end) G acc
         end
       else if descend (t_label c) then left_most src c acc
       else if t_label c =? dsl_R_Var_Name_Ref then
         let! n := ref_name src c in Ok ({[n]} ∪ acc)
       else go l
     end) F.

(** cycle_detector.rs:184-214 — for every rule not yet marked. *)
Fixpoint left_most_of_rules (src : list N) (entries : list (name * ptree)) (acc : name_map name_set)
  : res (name_map name_set) :=
  match entries with
  | [] => Ok acc
  | (n, rhs) :: entries =>
    if negb (t_label rhs =? dsl_R_RHS) then Panic PDebugAssert else
    let! s := left_most src rhs ∅ in
    left_most_of_rules src entries (<[n := s]> acc)
  end.
Definition get_left_most_called_rules_of_all_rules (src : list N) (ho : hash_orders) (marked : name_set)
    (rhs : name_map ptree) : res (name_map name_set) :=
  left_most_of_rules src
    (filter (fun '(n, _) => n ∉ marked) (ho_keys ho ptree (map_to_list rhs))) ∅.

(** cycle_detector.rs:116-139 — create_involved_sets. *)
Definition involved_entry (marked : name_set) (n : name) (refs : name_set) (acc : name_map name_set) : name_map name_set :=
  let s := refs ∖ marked in
  if bool_decide (s = ∅) then acc else <[n := {[n]} ∪ s]> acc.
Definition create_involved_sets (ho : hash_orders) (marked : name_set) (left : name_map name_set) : name_map name_set :=
  fold_left (fun acc '(n, refs) => involved_entry marked n refs acc) (ho_involved ho name_set (map_to_list left)) ∅.

(** cycle_detector.rs:99-114 — merge_dependent_sets: reads a copy, so the
    order of iteration is irrelevant; panics when a member has no set. *)
Definition merge_set (inv : name_map name_set) (s : name_set) : res name_set :=
  foldr (fun m acc => let! acc := acc in
           match inv !! m with Some sm => Ok (sm ∪ acc) | None => Panic PExplicit end) (Ok s) (elements s).
Fixpoint merge_entries (inv : name_map name_set) (entries : list (name * name_set)) (acc : name_map name_set)
  : res (name_map name_set) :=
  match entries with
  | [] => Ok acc
  | (n, s) :: entries => let! s' := merge_set inv s in merge_entries inv entries (<[n := s']> acc)
  end.
Definition merge_dependent_sets (inv : name_map name_set) : res (name_map name_set) :=
  merge_entries inv (map_to_list inv) inv.

(** cycle_detector.rs:82-88 *)
Definition involved_rule_count (inv : name_map name_set) : nat :=
  sum_list (map (fun '(_, s) => size s) (map_to_list inv)).

(** cycle_detector.rs:90-98 — repeat until the total count is stable (the
    first comparison is against usize::MAX and always runs the body). *)
Fixpoint merge_loop (fuel : nat) (inv : name_map name_set) : res (name_map name_set) :=
  match fuel with
  | O => NoFuel
  | S fuel =>
    let! inv' := merge_dependent_sets inv in
    if Nat.eqb (involved_rule_count inv') (involved_rule_count inv) then Ok inv' else merge_loop fuel inv'
  end.

(** cycle_detector.rs:31-81 — RuleCallTree::new; 7-11 LeftRecursionDetector::new.
    Returns get_left_recursion_rules() (12-14).  The println!s are omitted. *)
Definition left_recursion_rules (fuel : nat) (ho : hash_orders) (src : list N) (tree : ptree) : res (name_map name_set) :=
  let! ct := walk_node_children src tree (CallTable ∅ ∅) in
  let! marked := mark_loop fuel (ho_refs ho) 0 (ct_refs ct) ∅ in
  let! lefts := get_left_most_called_rules_of_all_rules src ho marked (ct_rhs ct) in
  let! marked := mark_loop fuel (ho_left ho) 0 lefts marked in
  merge_loop fuel (create_involved_sets ho marked lefts).
