(** Vocabulary shared by the models of generator/src: byte strings, names and
    the cleaned syntax tree as the generator walks it. *)
From Verif Require Export Programs SpecPeg SpecProgram.

(** Names are the bytes of a source slice.  Rust [String] ordering is bytewise
    lexicographic. *)
Notation name := (list N).

Fixpoint bytes_leb (a b : name) : bool :=
  match a, b with
  | [], _ => true
  | _ :: _, [] => false
  | x :: a, y :: b => if x <? y then true else if y <? x then false else bytes_leb a b
  end.

(** [Vec<String>::sort]: any stable sort; insertion sort here. *)
Fixpoint insert_sorted (x : name) (l : list name) : list name :=
  match l with
  | [] => [x]
  | y :: l => if bytes_leb x y then x :: y :: l else y :: insert_sorted x l
  end.
Definition sort_names (l : list name) : list name := foldr insert_sorted [] l.

(** [Vec::dedup]: removes consecutive equal elements. *)
Fixpoint dedup (l : list name) : list name :=
  match l with
  | [] => []
  | x :: l =>
    match dedup l with
    | [] => [x]
    | y :: l' => if bool_decide (x = y) then y :: l' else x :: y :: l'
    end
  end.

(** [char::to_uppercase] / [str::to_lowercase] on the ASCII range.
    Simplification: other code points are left alone; DSL rule names consist
    of ASCII letters and '_' (Grammar.dsl, rule Var_Name). *)
Definition upper (c : N) : N := if (97 <=? c) && (c <=? 122) then c - 32 else c.
Definition lower (c : N) : N := if (65 <=? c) && (c <=? 90) then c + 32 else c.
Definition to_lowercase (n : name) : name := map lower n.
(** constructor.rs:157-162, 988-993, binary_wo.rs:350-374 — first character
    upper-cased; [expect] panics on the empty string. *)
Definition rule_name (n : name) : res name :=
  match n with [] => Panic PExplicit | c :: n => Ok (upper c :: n) end.

(** u32 subtraction; underflow panics (debug build). *)
Definition usub (a b : N) : res N := if b <=? a then Ok (a - b) else Panic POverflow.

(** publisher.rs:178-184 and Node::get_children: the generator only ever reads
    the cleaned tree through [get_node(key)] and [get_children()]; the model
    reads it once into a [ptree] and walks that. *)
Fixpoint read_tree (fuel : nat) (p : publisher) (k : N) : res ptree :=
  match fuel with
  | O => NoFuel
  | S fuel =>
    let! n := get_node p k in
    let! F := (fix go (l : list N) : res (list ptree) :=
       match l with
       | [] => Ok []
       | c :: l => let! t := read_tree fuel p c in let! F := go l in Ok (t :: F)
       end) (n_children n) in
    Ok (TNode (n_rule n) (n_start n) (n_end n) (n_result n) F)
  end.

(** &source[start+1 .. end-1] — symbol_table.rs:111-112, constructor.rs:969-971,
    1028-1030: the text between the delimiters of a node. *)
Definition inner_text (src : list N) (t : ptree) : res (list N) :=
  let! e := usub (t_end t) 1 in
  slice_str src (t_start t + 1) e.

(** publisher.rs:342-344 — Node::get_string. *)
Definition tree_text (src : list N) (t : ptree) : res (list N) := slice_str src (t_start t) (t_end t).

(** Vec index [children[i]]. *)
Definition child (i : nat) (t : ptree) : res ptree :=
  match t_children t !! i with Some c => Ok c | None => Panic PIndex end.
