(** parser/src/var_name.rs: rule calls — memoisation and left recursion. *)
From Verif Require Export ParserCore.

Section var_name.
  Context {U : Type}.
  Notation P := (parser U).

  (** Accessing the context through the RefCell.  Each [borrow]/[borrow_mut]
      of var_name.rs lives for one statement (or, in default_behaviour and
      should_go_into_growth_function, for a straight-line block that calls no
      parser), so borrows never nest; Borrow.v has the borrow flags, and C63
      says that they change nothing. *)
  Definition with_ctx {A} (f : context -> res (A * context)) : M (pstate U) A :=
    fun s => let! (a, c) := f (st_ctx s) in Ok (a, PState c (st_user s)).
  Definition upd_ctx (f : context -> res context) : M (pstate U) unit :=
    with_ctx (fun c => let! c' := f c in Ok (tt, c')).
  Definition get_ctx : M (pstate U) context := fun s => Ok (st_ctx s, s).

  (** var_name.rs:6-17 *)
  Definition memoized_behaviour (parent : N) (is_true : bool) (end_position memoized_key : N)
    : M (pstate U) (bool * N) :=
    do _ <- upd_ctx (fun c => ctx_connect c parent memoized_key);
    mret (is_true, end_position).

  (** var_name.rs:19-38 *)
  Definition default_behaviour (func : P) (rule parent start_position : N) : M (pstate U) (bool * N) :=
    do current_key <- with_ctx (fun c => reserve_publisher_entry c rule);
    do f <- func current_key start_position;
    do _ <- upd_ctx (fun c => Ok (create_cache_entry c rule (fst f) start_position (snd f) current_key));
    do _ <- upd_ctx (fun c => update_publisher_entry c current_key (fst f) start_position (snd f));
    do _ <- upd_ctx (fun c => ctx_connect c parent current_key);
    mret f.

  (** var_name.rs:52-75 *)
  Definition var_name_kernel (rule : N) (func : P) : P := fun parent position =>
    do c <- get_ctx;
    match check c rule position with
    | Some (is_true, end_position, memoized_key) =>
      memoized_behaviour parent is_true end_position memoized_key
    | None => default_behaviour func rule parent position
    end.

  (** var_name.rs:99-105 — convert_vec_to_btree_set. *)
  Definition convert_vec_to_btree_set (involved_set : list N) : gset N := list_to_set involved_set.

  (** var_name.rs:137-168 — the growth loop. *)
  Fixpoint growth_loop (fuel : nat) (rule parent position : N) (func : P)
      (previous_active_lr_position : option (N * N))
      (last_result : bool * N) (last_key current_key : N) : M (pstate U) (bool * N) :=
    match fuel with
    | O => mnofuel
    | S fuel =>
      do _ <- upd_ctx (fun c => reinitialize_eval_set c rule position);
      do result <- func current_key position;
      do c <- get_ctx;
      let '(current_key, result) :=
        match check c rule position with
        | None => (current_key, result)
        | Some (b, e, k) => (k, (b, e))
        end in
      do _ <- upd_ctx (fun c => update_publisher_entry c current_key (fst result) position (snd result));
      if negb (fst result) || (snd result <=? snd last_result) then
        do _ <- upd_ctx (fun c => ctx_connect c parent last_key);
        do _ <- upd_ctx (fun c => Ok (set_current_active_lr_position c previous_active_lr_position));
        do _ <- upd_ctx (fun c => Ok (create_cache_entry c rule (fst last_result) position (snd last_result) last_key));
        mret last_result
      else
        let last_result := result in
        let last_key := current_key in
        do current_key <- with_ctx (fun c => reserve_publisher_entry c rule);
        growth_loop fuel rule parent position func previous_active_lr_position last_result last_key current_key
    end.

  (** var_name.rs:107-171 *)
  Definition growth_function (fuel : nat) (involved_set : list N) (rule : N) (func : P)
      (parent position : N) (last_lr_position : option (N * N)) : M (pstate U) (bool * N) :=
    do last_key <- with_ctx (fun c => reserve_publisher_entry c rule);
    do _ <- upd_ctx (fun c => update_publisher_entry c last_key false 0 0);
    do current_key <- with_ctx (fun c => reserve_publisher_entry c rule);
    do _ <- upd_ctx (fun c => Ok (set_head c position rule (convert_vec_to_btree_set involved_set)));
    growth_loop fuel rule parent position func last_lr_position (false, position) last_key current_key.

  (** var_name.rs:173-201 *)
  Definition should_go_into_growth_function (rule position : N)
    : M (pstate U) (bool * option (N * N)) :=
    do c <- get_ctx;
    match get_current_active_lr_position c with
    | None =>
      do _ <- upd_ctx (fun c => Ok (set_current_active_lr_position c (Some (rule, position))));
      mret (true, None)
    | Some lr_position =>
      match check_head c rule position with
      | Some _ => mret (false, None)
      | None =>
        do inv <- with_ctx (fun c => let! b := rule_in_involved_set c lr_position rule in Ok (b, c));
        if inv then mret (false, None)
        else
          do _ <- upd_ctx (fun c => Ok (set_current_active_lr_position c (Some (rule, position))));
          mret (true, Some lr_position)
      end
    end.

  (** var_name.rs:203-268 *)
  Definition var_name_kernel_indirect_left_recursion (fuel : nat) (involved_set : list N) (rule : N)
      (func : P) : P := fun parent position =>
    do should <- should_go_into_growth_function rule position;
    if fst should then
      growth_function fuel involved_set rule func parent position (snd should)
    else
      do c <- get_ctx;
      match get_current_active_lr_position c with
      | None => mpanic PExpectActive
      | Some active_lr_position =>
        do is_in_eval_set <- with_ctx (fun c => let! b := rule_in_eval_set c active_lr_position rule in Ok (b, c));
        if is_in_eval_set then
          do current_key <- with_ctx (fun c => reserve_publisher_entry c rule);
          do _ <- upd_ctx (fun c => remove_from_eval_set c active_lr_position rule);
          do result <- func current_key position;
          do _ <- upd_ctx (fun c => update_publisher_entry c current_key (fst result) position (snd result));
          do _ <- upd_ctx (fun c => Ok (create_cache_entry c rule (fst result) position (snd result) current_key));
          do _ <- upd_ctx (fun c => ctx_connect c parent current_key);
          mret result
        else
          do c <- get_ctx;
          match check c rule position with
          | Some (b, e, k) =>
            do _ <- upd_ctx (fun c => ctx_connect_if_not_connected c parent k);
            mret (b, e)
          | None => mret (false, position)
          end
      end.
End var_name.
