(** The two RefCells of a parse with their borrow flags: [context:
    RefCell<T>] and [user_state: RefCell<UserState>] (parse.rs:14-15).  Every
    [borrow()], [borrow_mut()] and every end of a guard's life is a step of its
    own; a conflicting borrow panics.  A temporary lives to the end of its
    statement, a named guard to the end of its block.

    The kernels of parser_core.rs pass the cells on without borrowing them, so
    those of ParserCore.v are used as they are. *)
From Verif Require Export Programs.
Local Open Scope N_scope.

(** core::cell::RefCell *)
Inductive cell : Type :=
  | Free                 (* no borrow *)
  | Shared (n : nat)     (* n + 1 [Ref]s are alive *)
  | Exclusive.           (* a [RefMut] is alive *)
Record cells := Cells { context_cell : cell; user_cell : cell }.

(** A parser state whose user part carries the flags of both cells. *)
Definition cell_state (U : Type) : Type := pstate (U * cells).
Definition cell_parser (U : Type) : Type := parser (U * cells).

Section cells.
  Context {U : Type}.
  Notation CM A := (M (cell_state U) A).
  Definition flags (st : cell_state U) : cells := snd (st_user st).
  Definition with_flags (st : cell_state U) (b : cells) : cell_state U := PState (st_ctx st) (fst (st_user st), b).
  (** Ref::new, RefMut::new of the standard library: refused when it conflicts. *)
  Definition take_shared (c : cell) : option cell :=
    match c with Free => Some (Shared 0) | Shared n => Some (Shared (S n)) | Exclusive => None end.
  Definition take_exclusive (c : cell) : option cell := match c with Free => Some Exclusive | _ => None end.
  (** Drop of a [Ref], of a [RefMut]. *)
  Definition give_back (c : cell) : cell := match c with Shared (S n) => Shared n | _ => Free end.
  Definition set_context_cell (b : cells) (c : cell) : cells := Cells c (user_cell b).
  Definition set_user_cell (b : cells) (c : cell) : cells := Cells (context_cell b) c.

  Definition borrow_context : CM unit := fun st =>
    match take_shared (context_cell (flags st)) with Some c => Ok (tt, with_flags st (set_context_cell (flags st) c)) | None => Panic PBorrow end.
  Definition borrow_mut_context : CM unit := fun st =>
    match take_exclusive (context_cell (flags st)) with Some c => Ok (tt, with_flags st (set_context_cell (flags st) c)) | None => Panic PBorrow end.
  Definition drop_context : CM unit := fun st => Ok (tt, with_flags st (set_context_cell (flags st) (give_back (context_cell (flags st))))).
  Definition borrow_mut_user : CM unit := fun st =>
    match take_exclusive (user_cell (flags st)) with Some c => Ok (tt, with_flags st (set_user_cell (flags st) c)) | None => Panic PBorrow end.
  Definition drop_user : CM unit := fun st => Ok (tt, with_flags st (set_user_cell (flags st) (give_back (user_cell (flags st))))).

  (** [let x = context.borrow().f();] and [context.borrow_mut().f();] — the
      guard is a temporary of the statement. *)
  Definition read_context : CM context :=
    do _ <- borrow_context; do c <- get_ctx; do _ <- drop_context; mret c.
  Definition read_with {A} (f : context -> res (A * context)) : CM A :=
    do _ <- borrow_context; do a <- with_ctx f; do _ <- drop_context; mret a.
  Definition write_with {A} (f : context -> res (A * context)) : CM A :=
    do _ <- borrow_mut_context; do a <- with_ctx f; do _ <- drop_context; mret a.
  Definition write (f : context -> res context) : CM unit :=
    do _ <- borrow_mut_context; do _ <- upd_ctx f; do _ <- drop_context; mret tt.

  Notation P := (cell_parser U).

  (** var_name.rs:6-17 *)
  Definition memoized_behaviour_cell (parent : N) (is_true : bool) (end_position memoized_key : N) : CM (bool * N) :=
    do _ <- write (fun c => ctx_connect c parent memoized_key);
    mret (is_true, end_position).

  (** var_name.rs:19-38: the guard [c] of line 31 lives to the end of the
      function. *)
  Definition default_behaviour_cell (func : P) (rule parent start_position : N) : CM (bool * N) :=
    do current_key <- write_with (fun c => reserve_publisher_entry c rule);
    do f <- func current_key start_position;
    do _ <- borrow_mut_context;
    do _ <- upd_ctx (fun c => Ok (create_cache_entry c rule (fst f) start_position (snd f) current_key));
    do _ <- upd_ctx (fun c => update_publisher_entry c current_key (fst f) start_position (snd f));
    do _ <- upd_ctx (fun c => ctx_connect c parent current_key);
    do _ <- drop_context;
    mret f.

  (** var_name.rs:52-75: the [match] is on a variable, the guard is gone. *)
  Definition var_name_kernel_cell (rule : N) (func : P) : P := fun parent position =>
    do c <- read_context;
    match check c rule position with
    | Some (is_true, end_position, memoized_key) =>
      memoized_behaviour_cell parent is_true end_position memoized_key
    | None => default_behaviour_cell func rule parent position
    end.

  (** var_name.rs:137-168 *)
  Fixpoint growth_loop_cell (fuel : nat) (rule parent position : N) (func : P)
      (previous_active_lr_position : option (N * N))
      (last_result : bool * N) (last_key current_key : N) : CM (bool * N) :=
    match fuel with
    | O => mnofuel
    | S fuel =>
      do _ <- write (fun c => reinitialize_eval_set c rule position);
      do result <- func current_key position;
      do memo_result <- write_with (fun c => Ok (check c rule position, c));
      let '(current_key, result) :=
        match memo_result with
        | None => (current_key, result)
        | Some (b, e, k) => (k, (b, e))
        end in
      do _ <- write (fun c => update_publisher_entry c current_key (fst result) position (snd result));
      if negb (fst result) || (snd result <=? snd last_result) then
        do _ <- write (fun c => ctx_connect c parent last_key);
        do _ <- write (fun c => Ok (set_current_active_lr_position c previous_active_lr_position));
        do _ <- write (fun c => Ok (create_cache_entry c rule (fst last_result) position (snd last_result) last_key));
        mret last_result
      else
        let last_result := result in
        let last_key := current_key in
        do current_key <- write_with (fun c => reserve_publisher_entry c rule);
        growth_loop_cell fuel rule parent position func previous_active_lr_position last_result last_key current_key
    end.

  (** var_name.rs:107-171 *)
  Definition growth_function_cell (fuel : nat) (involved_set : list N) (rule : N) (func : P)
      (parent position : N) (last_lr_position : option (N * N)) : CM (bool * N) :=
    do last_key <- write_with (fun c => reserve_publisher_entry c rule);
    do _ <- write (fun c => update_publisher_entry c last_key false 0 0);
    do current_key <- write_with (fun c => reserve_publisher_entry c rule);
    do _ <- write (fun c => Ok (set_head c position rule (convert_vec_to_btree_set involved_set)));
    growth_loop_cell fuel rule parent position func last_lr_position (false, position) last_key current_key.

  (** var_name.rs:173-201: the guard [ctx] of line 179 lives to the end of the
      function. *)
  Definition should_go_into_growth_function_cell (rule position : N) : CM (bool * option (N * N)) :=
    do _ <- borrow_mut_context;
    do c <- get_ctx;
    match get_current_active_lr_position c with
    | None =>
      do c <- get_ctx;
      let last_lr_position := get_current_active_lr_position c in
      do _ <- upd_ctx (fun c => Ok (set_current_active_lr_position c (Some (rule, position))));
      do _ <- drop_context;
      mret (true, last_lr_position)
    | Some lr_position =>
      do c <- get_ctx;
      match check_head c rule position with
      | Some _ => do _ <- drop_context; mret (false, None)
      | None =>
        do inv <- with_ctx (fun c => let! b := rule_in_involved_set c lr_position rule in Ok (b, c));
        if inv then do _ <- drop_context; mret (false, None)
        else
          do c <- get_ctx;
          let last_lr_position := get_current_active_lr_position c in
          do _ <- upd_ctx (fun c => Ok (set_current_active_lr_position c (Some (rule, position))));
          do _ <- drop_context;
          mret (true, last_lr_position)
      end
    end.

  (** var_name.rs:203-268 *)
  Definition var_name_kernel_indirect_left_recursion_cell (fuel : nat) (involved_set : list N) (rule : N)
      (func : P) : P := fun parent position =>
    do should <- should_go_into_growth_function_cell rule position;
    if fst should then
      growth_function_cell fuel involved_set rule func parent position (snd should)
    else
      do c <- read_context;
      match get_current_active_lr_position c with
      | None => mpanic PExpectActive
      | Some active_lr_position =>
        do is_in_eval_set <- read_with (fun c => let! b := rule_in_eval_set c active_lr_position rule in Ok (b, c));
        if is_in_eval_set then
          do current_key <- write_with (fun c => reserve_publisher_entry c rule);
          do _ <- write (fun c => remove_from_eval_set c active_lr_position rule);
          do result <- func current_key position;
          do _ <- write (fun c => update_publisher_entry c current_key (fst result) position (snd result));
          do _ <- write (fun c => Ok (create_cache_entry c rule (fst result) position (snd result) current_key));
          do _ <- write (fun c => ctx_connect c parent current_key);
          mret result
        else
          do c <- read_context;
          match check c rule position with
          | Some (b, e, k) =>
            do _ <- write (fun c => ctx_connect_if_not_connected c parent k);
            mret (b, e)
          | None => mret (false, position)
          end
      end.

  (** The generated functions, as in Expr.v.  A hook is given both cells
      (hooked_calls.rs) and may borrow them as it likes. *)
  Context (pr : program (U * cells)) (src : source).
  Fixpoint eval_cell (fuel : nat) (e : expr) {struct fuel} : P :=
    match fuel with
    | O => fun _ _ => mnofuel
    | S n =>
      let call (f : N) : P := fun key position =>
        match pr_fn pr f with
        | Some body => eval_cell n body key position
        | None => mpanic PNoFunction
        end in
      match e with
      | ETerminal c => terminal_kernel src c
      | EString d => string_terminal_kernel src d
      | ERange a b => ordered_choice_match_range_kernel src a b
      | ESeq l r => sequence_kernel (eval_cell n l) (eval_cell n r)
      | EChoice l r => ordered_choice_kernel (eval_cell n l) (eval_cell n r)
      | EAnd e => and_predicate_kernel (eval_cell n e)
      | ENot e => not_predicate_kernel (eval_cell n e)
      | EPlus e => one_or_more_kernel n (eval_cell n e)
      | EStar e => zero_or_more_kernel n (eval_cell n e)
      | EOpt e => optional_kernel (eval_cell n e)
      | ESub e => subexpression_kernel (eval_cell n e)
      | EVar r f => var_name_kernel_cell r (call f)
      | EInline f => call f
      | ELR inv r f => var_name_kernel_indirect_left_recursion_cell n inv r (call f)
      | EHook h e => pr_hook pr h src (eval_cell n e)
      end
    end.
End cells.

(** parse.rs:10-23: two new cells; [into_inner] takes the context out of its
    cell by value, without a borrow. *)
Definition parse_with_cells {U} (pr : program (U * cells)) (u0 : U) (fuel : nat) (entry : expr) (s : list N) : res (bool * N * publisher) :=
  let! ((b, q), st) := eval_cell pr (source_new s) fuel entry 0 0 (PState (context_new (pr_grammar pr)) (u0, Cells Free Free)) in
  let! t := clear_false fuel (pr_grammar pr) (cx_pub (st_ctx st)) in
  Ok (b, q, t).

(** examples/example_11_external_rule_call_parser/src/hooked_calls.rs:9-40: the
    guard [user_state] of line 25 lives to the end of the [if] block. *)
Definition unique_line_cache_cell (src : source) (func : cell_parser (list (list N))) : cell_parser (list (list N)) :=
  fun parent position =>
    do result <- func parent position;
    if fst result then
      do o <- (fun st => let! o := get_string src position (snd result) in Ok (o, st));
      match o with
      | None => mpanic PExplicit
      | Some unique_line =>
        do _ <- borrow_mut_user;
        do known <- (fun st => Ok (bool_decide (unique_line ∈ fst (st_user st)), st));
        if known : bool then do _ <- drop_user; mret (false, position)
        else
          do _ <- (fun st => Ok (tt, PState (st_ctx st) (fst (st_user st) ++ [unique_line], snd (st_user st))));
          do _ <- drop_user; mret result
      end
    else mret result.
Definition ex11_program_cell : program (list (list N) * cells) :=
  Program (pr_fn ex11_program)
    (fun h src func => if h =? ex11_h_unique_line_cache then unique_line_cache_cell src func else func)
    ex11_R_Grammar.
(** A crate without hooks. *)
Definition without_hooks {U} (pr : program U) : program (U * cells) := Program (pr_fn pr) (fun _ _ func => func) (pr_grammar pr).
