(** generator/src/symbol_table.rs *)
From Verif Require Export GenTree.

(** symbol_table.rs:4-8.  [inlined_rules : HashMap<String, String>] always maps
    to "" and is only asked for presence: a set. *)
Record symbol_table := SymTable { sy_names : list name; sy_inline : gset name }.

(** symbol_table.rs:46-49 *)
Definition check_symbol_is_inline (t : symbol_table) (n : name) : bool := bool_decide (n ∈ sy_inline t).

(** symbol_table.rs:37-44 *)
Definition check_symbol (t : symbol_table) (n : name) : bool := bool_decide (n ∈ sy_names t).

(** symbol_table.rs:78-97 — check_semantic_instructions: every child of the
    parent with rule Semantic_Instructions; [children[0]] may panic. *)
Fixpoint check_semantic_instructions (n : name) (siblings : list ptree) (inlined : gset name) : res (gset name) :=
  match siblings with
  | [] => Ok inlined
  | c :: rest =>
    if t_label c =? dsl_R_Semantic_Instructions then
      let! i := child 0 c in
      check_semantic_instructions n rest (if t_label i =? dsl_R_Inline then {[n]} ∪ inlined else inlined)
    else check_semantic_instructions n rest inlined
  end.

(** symbol_table.rs:99-126 — create_symbol_table_from_tree_kernel.  The parent
    is only used for its children. *)
Fixpoint symbol_kernel (src : list N) (siblings : list ptree) (t : ptree) (st : symbol_table) : res symbol_table :=
  let! st :=
    if t_label t =? dsl_R_Var_Name_Decl then
      if negb (t_ok t) then Panic PExplicit
      else
        let! n := inner_text src t in
        let! inlined := check_semantic_instructions n siblings (sy_inline st) in
        Ok (SymTable (sy_names st ++ [n]) inlined)
    else Ok st in
  let 'TNode _ _ _ _ F := t in
  (fix go (l : list ptree) (st : symbol_table) : res symbol_table :=
     match l with
     | [] => Ok st
     | c :: l => let! st := symbol_kernel src F c st in go l st
     end) F st.

(** symbol_table.rs:57-72 — create_symbol_table_from_tree: the parent passed
    for a top-level child is the child itself. *)
Fixpoint symbol_children (src : list N) (l : list ptree) (st : symbol_table) : res symbol_table :=
  match l with
  | [] => Ok st
  | c :: l => let! st := symbol_kernel src (t_children c) c st in symbol_children src l st
  end.

(** symbol_table.rs:11-21, 51-55 — new, with run_duplication_check. *)
Definition symbol_table_new (src : list N) (tree : ptree) : res symbol_table :=
  if negb (t_label tree =? dsl_R_Grammar) then Panic PExplicit
  else
    let! st := symbol_children src (t_children tree) (SymTable [] ∅) in
    Ok (SymTable (dedup (sort_names (sy_names st))) (sy_inline st)).
