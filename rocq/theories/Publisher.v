(** parser/src/publisher.rs: the write-only node store ("publisher"). *)
From Verif Require Export Base Source.

(** publisher.rs:283-292 — struct Node.  Rules are represented by their enum
    discriminant (an [N]); keys are u32 indices into the node vector. *)
Record node := Node {
  n_index : N;
  n_rule : N;
  n_start : N;
  n_end : N;
  n_result : bool;
  n_children : list N;
}.

(** publisher.rs:12-14 — struct BasicPublisher { nodes: Vec<Node> }.
    The vector is a finite map from indices [0 .. p_len-1] together with its
    length (same observations as a list, but updates are logarithmic, so the
    model can be run). *)
Record publisher := Publisher { p_nodes : gmap N node; p_len : N }.

Definition publisher_empty : publisher := Publisher ∅ 0.

(** publisher.rs:62-81 — add_node: key = len (must fit u32), push. *)
Definition add_node (p : publisher) (rule start_position end_position : N) (result : bool)
  : res (N * publisher) :=
  let len := p_len p in
  if len <? u32_modulus then
    Ok (len, Publisher (<[len := Node len rule start_position end_position result []]> (p_nodes p))
                       (len + 1))
  else Panic PKeyOverflow.

(** publisher.rs:46-56 — BasicPublisher::new adds a root node
    (Rules::Grammar, 0, 0, true).  [grammar_rule] is the discriminant of
    Rules::Grammar in the generated crate.  The capacity hint is not
    modelled. *)
Definition publisher_new (grammar_rule : N) : publisher :=
  Publisher {[ 0 := Node 0 grammar_rule 0 0 true [] ]} 1.

(** publisher.rs:58-60 — clear_tree: nodes.clear(). *)
Definition clear_tree (p : publisher) : publisher := publisher_empty.

(** publisher.rs:178-184 — get_node / get_mut_node: Vec indexing. *)
Definition get_node (p : publisher) (k : N) : res node :=
  match p_nodes p !! k with Some n => Ok n | None => Panic PIndex end.

Definition set_node (p : publisher) (k : N) (n : node) : publisher :=
  Publisher (<[k := n]> (p_nodes p)) (p_len p).

(** publisher.rs:346-351 / 42-44 — set_children, clear_node_of_children. *)
Definition with_children (n : node) (ch : list N) : node :=
  Node (n_index n) (n_rule n) (n_start n) (n_end n) (n_result n) ch.

Definition clear_node_of_children (p : publisher) (k : N) : res publisher :=
  let! n := get_node p k in Ok (set_node p k (with_children n [])).

(** publisher.rs:83-91 — connect. *)
Definition connect (p : publisher) (parent_index child_index : N) : res publisher :=
  if parent_index =? child_index then Panic PDebugAssert
  else
    let! n := get_node p parent_index in
    Ok (set_node p parent_index (with_children n (n_children n ++ [child_index]))).

(** publisher.rs:92-106 — connect_front. *)
Definition connect_front (p : publisher) (parent_index child_index : N) : res publisher :=
  if parent_index =? child_index then Panic PDebugAssert
  else
    let! n := get_node p parent_index in
    Ok (set_node p parent_index (with_children n (child_index :: n_children n))).

(** publisher.rs:107-115 — connect_if_not_connected (no debug_assert here). *)
Definition connect_if_not_connected (p : publisher) (parent_index child_index : N) : res publisher :=
  let! n := get_node p parent_index in
  if existsb (fun c => c =? child_index) (n_children n) then Ok p
  else Ok (set_node p parent_index (with_children n (n_children n ++ [child_index]))).

(** publisher.rs:116-130 — disconnect: [remove_pos] ends up at the LAST
    matching position; that element is removed. *)
Fixpoint last_index_of (c : N) (l : list N) (i : nat) (acc : option nat) : option nat :=
  match l with
  | [] => acc
  | x :: l => last_index_of c l (S i) (if x =? c then Some i else acc)
  end.

Definition disconnect (p : publisher) (parent_index child_index : N) : res publisher :=
  let! n := get_node p parent_index in
  match last_index_of child_index (n_children n) 0 None with
  | None => Ok p
  | Some i => Ok (set_node p parent_index (with_children n (delete i (n_children n))))
  end.

(** publisher.rs:132-140 — set_node_start_position / _end_position / _result. *)
Definition set_node_start_position (p : publisher) (k v : N) : res publisher :=
  let! n := get_node p k in
  Ok (set_node p k (Node (n_index n) (n_rule n) v (n_end n) (n_result n) (n_children n))).
Definition set_node_end_position (p : publisher) (k v : N) : res publisher :=
  let! n := get_node p k in
  Ok (set_node p k (Node (n_index n) (n_rule n) (n_start n) v (n_result n) (n_children n))).
Definition set_node_result (p : publisher) (k : N) (v : bool) : res publisher :=
  let! n := get_node p k in
  Ok (set_node p k (Node (n_index n) (n_rule n) (n_start n) (n_end n) v (n_children n))).

(** publisher.rs:186-200 — clear_false_kernel.  Recursion on explicit fuel:
    the Rust recursion follows the child keys and is unbounded on a cyclic
    store. *)
Fixpoint clear_false_kernel (fuel : nat) (p : publisher) (new_tree : publisher)
    (parent_index index : N) : res publisher :=
  match fuel with
  | O => NoFuel
  | S fuel =>
    let! n := get_node p index in
    if n_result n && negb (n_start n =? n_end n) then
      let! (child_index, new_tree) := add_node new_tree (n_rule n) (n_start n) (n_end n) (n_result n) in
      let! new_tree := connect new_tree parent_index child_index in
      (fix go (l : list N) (t : publisher) : res publisher :=
         match l with
         | [] => Ok t
         | i :: l => let! t := clear_false_kernel fuel p t child_index i in go l t
         end) (n_children n) new_tree
    else Ok new_tree
  end.

Fixpoint clear_false_children (fuel : nat) (p : publisher) (new_tree : publisher)
    (parent_index : N) (l : list N) : res publisher :=
  match l with
  | [] => Ok new_tree
  | i :: l =>
    let! new_tree := clear_false_kernel fuel p new_tree parent_index i in
    clear_false_children fuel p new_tree parent_index l
  end.

(** publisher.rs:153-174 — clear_false.  Note that the copy of the root that
    [add_node] appends (key 1) is never connected to anything; the children
    are attached to key 0, the root created by [new]. *)
Definition clear_false (fuel : nat) (grammar_rule : N) (p : publisher) : res publisher :=
  let new_tree := publisher_new grammar_rule in
  let! n := get_node p 0 in
  if n_result n then
    let! (_, new_tree) := add_node new_tree (n_rule n) (n_start n) (n_end n) (n_result n) in
    clear_false_children fuel p new_tree 0 (n_children n)
  else Ok new_tree.

(** publisher.rs:294-328 — Node::eq (printing omitted). *)
Definition node_eq (a b : node) : bool :=
  (n_rule a =? n_rule b) && (n_start a =? n_start b) && (n_end a =? n_end b)
  && Bool.eqb (n_result a) (n_result b)
  && Nat.eqb (length (n_children a)) (length (n_children b)).

(** publisher.rs:23-41 — partial_eq_kernel; publisher.rs:16-20 — PartialEq. *)
Fixpoint partial_eq_kernel (fuel : nat) (p q : publisher) (self_index other_index : N) : res bool :=
  match fuel with
  | O => NoFuel
  | S fuel =>
    let! a := get_node p self_index in
    let! b := get_node q other_index in
    if node_eq a b then
      (fix go (la lb : list N) : res bool :=
         match la, lb with
         | x :: la, y :: lb =>
           let! r := partial_eq_kernel fuel p q x y in
           if r then go la lb else Ok false
         | _, _ => Ok true
         end) (n_children a) (n_children b)
    else Ok false
  end.
Definition publisher_eq (fuel : nat) (p q : publisher) : res bool :=
  partial_eq_kernel fuel p q 0 0.

(** publisher.rs:342-344 — Node::get_string: &str slicing. *)
Definition node_get_string (n : node) (src : list N) : res (list N) :=
  slice_str src (n_start n) (n_end n).

(** publisher.rs:142-151, 211-279, 353-364 — print.  Output is modelled as the
    list of (indent, node) lines; [mode] is the [Option<bool>] argument. *)
Inductive print_line := PLine (indent : nat) (k rule s e : N) (r : bool) (nchildren : nat) | PKeyZero.

Definition print_visible (mode : option bool) (n : node) : bool :=
  match mode with Some b => Bool.eqb b (n_result n) | None => true end.

Fixpoint print_kernel (fuel : nat) (mode : option bool) (p : publisher) (index : N) (indent : nat)
  : res (list print_line) :=
  match fuel with
  | O => NoFuel
  | S fuel =>
    let! n := get_node p index in
    if print_visible mode n then
      let! rest :=
        (fix go (l : list N) : res (list print_line) :=
           match l with
           | [] => Ok []
           | c :: l =>
             if c =? 0 then Ok [PKeyZero]   (* prints an error and breaks *)
             else let! x := print_kernel fuel mode p c (S indent) in
                  let! y := go l in Ok (x ++ y)
           end) (n_children n) in
      Ok (PLine indent (n_index n) (n_rule n) (n_start n) (n_end n) (n_result n)
                (length (n_children n)) :: rest)
    else Ok []
  end.
Definition print (fuel : nat) (p : publisher) (index : N) (mode : option bool) : res (list print_line) :=
  print_kernel fuel mode p index 0.
