(** The runtime built with [cargo build --release]: overflow checks and
    debug_assert! are off.  Only the functions in which this makes a difference
    (and their callers) are defined again; everything else is shared with the
    debug model.  The unwrap of add_node (publisher.rs:70) and Vec indexing
    panic in both. *)
From Verif Require Export Expr.
Local Open Scope N_scope.

(** publisher.rs:83-91 without debug_assert_ne! *)
Definition connect_rel (p : publisher) (parent_index child_index : N) : res publisher :=
  let! n := get_node p parent_index in
  Ok (set_node p parent_index (with_children n (n_children n ++ [child_index]))).
(** context.rs:104-106 *)
Definition ctx_connect_rel (c : context) (parent_key child_key : N) : res context :=
  let! p := connect_rel (cx_pub c) parent_key child_key in Ok (with_pub c p).

(** publisher.rs:186-200 *)
Fixpoint clear_false_kernel_rel (fuel : nat) (p : publisher) (new_tree : publisher) (parent_index index : N) : res publisher :=
  match fuel with
  | O => NoFuel
  | S fuel =>
    let! n := get_node p index in
    if n_result n && negb (n_start n =? n_end n) then
      let! (child_index, new_tree) := add_node new_tree (n_rule n) (n_start n) (n_end n) (n_result n) in
      let! new_tree := connect_rel new_tree parent_index child_index in
      (fix go (l : list N) (t : publisher) : res publisher :=
         match l with
         | [] => Ok t
         | i :: l => let! t := clear_false_kernel_rel fuel p t child_index i in go l t
         end) (n_children n) new_tree
    else Ok new_tree
  end.
Fixpoint clear_false_children_rel (fuel : nat) (p : publisher) (new_tree : publisher) (parent_index : N) (l : list N) : res publisher :=
  match l with
  | [] => Ok new_tree
  | i :: l => let! new_tree := clear_false_kernel_rel fuel p new_tree parent_index i in clear_false_children_rel fuel p new_tree parent_index l
  end.
(** publisher.rs:153-174 *)
Definition clear_false_rel (fuel : nat) (grammar_rule : N) (p : publisher) : res publisher :=
  let new_tree := publisher_new grammar_rule in
  let! n := get_node p 0 in
  if n_result n then
    let! (_, new_tree) := add_node new_tree (n_rule n) (n_start n) (n_end n) (n_result n) in
    clear_false_children_rel fuel p new_tree 0 (n_children n)
  else Ok new_tree.

Section release.
  Context {U : Type}.
  Notation P := (parser U).

  (** u32 increment: wraps around. *)
  Definition incr_rel (position : N) : M (pstate U) N := mret ((position + 1) mod u32_modulus).
  (** parser_core.rs:182-190 *)
  Definition terminal_kernel_rel (src : source) (chr : N) : P := fun _ position =>
    do c <- read_char src position;
    match c with
    | Some v => if v =? chr then (do q <- incr_rel position; mret (true, q)) else mret (false, position)
    | None => mret (false, position)
    end.
  (** parser_core.rs:224-238 *)
  Fixpoint string_terminal_loop_rel (src : source) (position : N) (data : list N) (end_position : N) : M (pstate U) (bool * N) :=
    match data with
    | [] => mret (true, end_position)
    | char :: data =>
      do s <- read_char src end_position;
      match s with
      | None => mret (false, position)
      | Some val =>
        if char =? val then
          do e <- incr_rel end_position; string_terminal_loop_rel src position data e
        else mret (false, position)
      end
    end.
  Definition string_terminal_kernel_rel (src : source) (data : list N) : P := fun _ position =>
    string_terminal_loop_rel src position data position.
  (** parser_core.rs:246-263 *)
  Definition ordered_choice_match_range_kernel_rel (src : source) (start end_ : N) : P := fun _ position =>
    do chr <- read_char src position;
    match chr with
    | Some value =>
      if (start <=? value) && (value <=? end_) then (do q <- incr_rel position; mret (true, q))
      else mret (false, position)
    | None => mret (false, position)
    end.

  (** var_name.rs:6-17 *)
  Definition memoized_behaviour_rel (parent : N) (is_true : bool) (end_position memoized_key : N)
    : M (pstate U) (bool * N) :=
    do _ <- upd_ctx (fun c => ctx_connect_rel c parent memoized_key);
    mret (is_true, end_position).

  (** var_name.rs:19-38 *)
  Definition default_behaviour_rel (func : P) (rule parent start_position : N) : M (pstate U) (bool * N) :=
    do current_key <- with_ctx (fun c => reserve_publisher_entry c rule);
    do f <- func current_key start_position;
    do _ <- upd_ctx (fun c => Ok (create_cache_entry c rule (fst f) start_position (snd f) current_key));
    do _ <- upd_ctx (fun c => update_publisher_entry c current_key (fst f) start_position (snd f));
    do _ <- upd_ctx (fun c => ctx_connect_rel c parent current_key);
    mret f.

  (** var_name.rs:52-75 *)
  Definition var_name_kernel_rel (rule : N) (func : P) : P := fun parent position =>
    do c <- get_ctx;
    match check c rule position with
    | Some (is_true, end_position, memoized_key) =>
      memoized_behaviour_rel parent is_true end_position memoized_key
    | None => default_behaviour_rel func rule parent position
    end.

  (** var_name.rs:137-168 — the growth loop. *)
  Fixpoint growth_loop_rel (fuel : nat) (rule parent position : N) (func : P)
      (previous_active_lr_position : option (N * N))
      (last_result : bool * N) (last_key current_key : N) : M (pstate U) (bool * N) :=
    match fuel with
    | O => mnofuel
    | S fuel =>
      do _ <- upd_ctx (fun c => reinitialize_eval_set c rule position);
      do result <- func current_key position;
      do c <- get_ctx;
      let '(current_key, result) :=
        match check c rule position with
        | None => (current_key, result)
        | Some (b, e, k) => (k, (b, e))
        end in
      do _ <- upd_ctx (fun c => update_publisher_entry c current_key (fst result) position (snd result));
      if negb (fst result) || (snd result <=? snd last_result) then
        do _ <- upd_ctx (fun c => ctx_connect_rel c parent last_key);
        do _ <- upd_ctx (fun c => Ok (set_current_active_lr_position c previous_active_lr_position));
        do _ <- upd_ctx (fun c => Ok (create_cache_entry c rule (fst last_result) position (snd last_result) last_key));
        mret last_result
      else
        let last_result := result in
        let last_key := current_key in
        do current_key <- with_ctx (fun c => reserve_publisher_entry c rule);
        growth_loop_rel fuel rule parent position func previous_active_lr_position last_result last_key current_key
    end.

  (** var_name.rs:107-171 *)
  Definition growth_function_rel (fuel : nat) (involved_set : list N) (rule : N) (func : P)
      (parent position : N) (last_lr_position : option (N * N)) : M (pstate U) (bool * N) :=
    do last_key <- with_ctx (fun c => reserve_publisher_entry c rule);
    do _ <- upd_ctx (fun c => update_publisher_entry c last_key false 0 0);
    do current_key <- with_ctx (fun c => reserve_publisher_entry c rule);
    do _ <- upd_ctx (fun c => Ok (set_head c position rule (convert_vec_to_btree_set involved_set)));
    growth_loop_rel fuel rule parent position func last_lr_position (false, position) last_key current_key.

  (** var_name.rs:203-268 *)
  Definition var_name_kernel_indirect_left_recursion_rel (fuel : nat) (involved_set : list N) (rule : N)
      (func : P) : P := fun parent position =>
    do should <- should_go_into_growth_function rule position;
    if fst should then
      growth_function_rel fuel involved_set rule func parent position (snd should)
    else
      do c <- get_ctx;
      match get_current_active_lr_position c with
      | None => mpanic PExpectActive
      | Some active_lr_position =>
        do is_in_eval_set <- with_ctx (fun c => let! b := rule_in_eval_set c active_lr_position rule in Ok (b, c));
        if is_in_eval_set then
          do current_key <- with_ctx (fun c => reserve_publisher_entry c rule);
          do _ <- upd_ctx (fun c => remove_from_eval_set c active_lr_position rule);
          do result <- func current_key position;
          do _ <- upd_ctx (fun c => update_publisher_entry c current_key (fst result) position (snd result));
          do _ <- upd_ctx (fun c => Ok (create_cache_entry c rule (fst result) position (snd result) current_key));
          do _ <- upd_ctx (fun c => ctx_connect_rel c parent current_key);
          mret result
        else
          do c <- get_ctx;
          match check c rule position with
          | Some (b, e, k) =>
            do _ <- upd_ctx (fun c => ctx_connect_if_not_connected c parent k);
            mret (b, e)
          | None => mret (false, position)
          end
      end.

  (** The generated functions, as in Expr.v. *)
  Context (pr : program U) (src : source).
  Fixpoint eval_rel (fuel : nat) (e : expr) {struct fuel} : P :=
    match fuel with
    | O => fun _ _ => mnofuel
    | S n =>
      let call (f : N) : P := fun key position =>
        match pr_fn pr f with
        | Some body => eval_rel n body key position
        | None => mpanic PNoFunction
        end in
      match e with
      | ETerminal c => terminal_kernel_rel src c
      | EString d => string_terminal_kernel_rel src d
      | ERange a b => ordered_choice_match_range_kernel_rel src a b
      | ESeq l r => sequence_kernel (eval_rel n l) (eval_rel n r)
      | EChoice l r => ordered_choice_kernel (eval_rel n l) (eval_rel n r)
      | EAnd e => and_predicate_kernel (eval_rel n e)
      | ENot e => not_predicate_kernel (eval_rel n e)
      | EPlus e => one_or_more_kernel n (eval_rel n e)
      | EStar e => zero_or_more_kernel n (eval_rel n e)
      | EOpt e => optional_kernel (eval_rel n e)
      | ESub e => subexpression_kernel (eval_rel n e)
      | EVar r f => var_name_kernel_rel r (call f)
      | EInline f => call f
      | ELR inv r f => var_name_kernel_indirect_left_recursion_rel n inv r (call f)
      | EHook h e => pr_hook pr h src (eval_rel n e)
      end
    end.
End release.

(** parse.rs:10-23 *)
Definition run_entry_rel {U} (pr : program U) (u0 : U) (fuel : nat) (entry : expr) (s : list N) : res ((bool * N) * pstate U) :=
  eval_rel pr (source_new s) fuel entry 0 0 (PState (context_new (pr_grammar pr)) u0).
Definition parse_with_rel {U} (pr : program U) (u0 : U) (fuel : nat) (entry : expr) (s : list N) : res (bool * N * publisher) :=
  let! ((b, q), st) := run_entry_rel pr u0 fuel entry s in
  let! t := clear_false_rel fuel (pr_grammar pr) (cx_pub (st_ctx st)) in
  Ok (b, q, t).
