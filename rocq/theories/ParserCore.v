(** parser/src/parser_core.rs: the combinator kernels.

    A Rust closure [impl Fn(Key, &Source, u32) -> (bool, u32)] is a [parser]:
    parent key -> position -> state monad returning (bool, position).  The
    [&Source] argument is threaded unchanged through every call by the Rust
    code; here it is an argument of the kernels that read it.  The state holds
    the RefCell'd context and user state.  Each [_foo] wrapper merely
    closes over [_foo_kernel] and is not modelled separately. *)
From Verif Require Export Base Source Publisher Context.

Record pstate (U : Type) := PState { st_ctx : context; st_user : U }.
Global Arguments PState {U} _ _.
Global Arguments st_ctx {U} _.
Global Arguments st_user {U} _.

Definition parser (U : Type) : Type := N -> N -> M (pstate U) (bool * N).

Section kernels.
  Context {U : Type}.
  Notation P := (parser U).

  (** parser_core.rs:4-16 *)
  Definition and_predicate_kernel (func : P) : P := fun parent position =>
    let temp_position := position in
    do (valid, _) <- func parent temp_position;
    if negb valid then mret (false, temp_position)
    else mret (true, temp_position).

  (** parser_core.rs:26-38 *)
  Definition not_predicate_kernel (func : P) : P := fun parent position =>
    let temp_position := position in
    do (valid, _) <- func parent temp_position;
    if negb valid then mret (true, temp_position)
    else mret (false, temp_position).

  (** The [loop] of parser_core.rs:60-66 and 203-209: fuel bounds the number of
      iterations of the model, not of the code. *)
  Fixpoint repeat_loop (fuel : nat) (func : P) (parent temp_position : N) : M (pstate U) (bool * N) :=
    match fuel with
    | O => mnofuel
    | S fuel =>
      do (valid, position) <- func parent temp_position;
      if negb valid then mret (true, temp_position)
      else repeat_loop fuel func parent position
    end.

  (** parser_core.rs:48-68 *)
  Definition one_or_more_kernel (fuel : nat) (func : P) : P := fun parent position =>
    let temp_position := position in
    do (valid, position) <- func parent temp_position;
    if negb valid then mret (false, temp_position)
    else repeat_loop fuel func parent position.

  (** parser_core.rs:78-90 *)
  Definition optional_kernel (func : P) : P := fun parent position =>
    let temp_position := position in
    do (valid, position) <- func parent temp_position;
    if negb valid then mret (true, temp_position)
    else mret (true, position).

  (** parser_core.rs:100-120 *)
  Definition ordered_choice_kernel (func_lhs func_rhs : P) : P := fun parent position =>
    let temp_position := position in
    do (valid, position) <- func_lhs parent position;
    if valid then mret (true, position)
    else
      let position := temp_position in
      do (valid, position) <- func_rhs parent position;
      if valid then mret (true, position) else mret (false, temp_position).

  (** parser_core.rs:131-149 *)
  Definition sequence_kernel (func_lhs func_rhs : P) : P := fun parent position =>
    let temp_position := position in
    do (lhs_bool, position) <- func_lhs parent position;
    if lhs_bool then
      do (rhs_bool, position) <- func_rhs parent position;
      if rhs_bool then mret (true, position) else mret (false, temp_position)
    else mret (false, temp_position).

  (** parser_core.rs:160-172 *)
  Definition subexpression_kernel (func : P) : P := fun parent position =>
    let temp_position := position in
    do (valid, position) <- func parent temp_position;
    if negb valid then mret (false, temp_position) else mret (true, position).

  (** u32 increment: overflow panics. *)
  Definition incr (position : N) : M (pstate U) N :=
    if position + 1 <? u32_modulus then mret (position + 1) else mpanic POverflow.

  Definition read_char (src : source) (position : N) : M (pstate U) (option N) :=
    fun s => let! c := get_char src position in Ok (c, s).

  (** parser_core.rs:182-190 *)
  Definition terminal_kernel (src : source) (chr : N) : P := fun _ position =>
    do c <- read_char src position;
    match c with
    | Some v => if v =? chr then (do q <- incr position; mret (true, q)) else mret (false, position)
    | None => mret (false, position)
    end.

  (** parser_core.rs:196-212 *)
  Definition zero_or_more_kernel (fuel : nat) (func : P) : P := fun parent position =>
    repeat_loop fuel func parent position.

  (** parser_core.rs:224-238 *)
  Fixpoint string_terminal_loop (src : source) (position : N) (data : list N) (end_position : N)
    : M (pstate U) (bool * N) :=
    match data with
    | [] => mret (true, end_position)
    | char :: data =>
      do s <- read_char src end_position;
      match s with
      | None => mret (false, position)
      | Some val =>
        if char =? val then
          do e <- incr end_position; string_terminal_loop src position data e
        else mret (false, position)
      end
    end.
  Definition string_terminal_kernel (src : source) (data : list N) : P := fun _ position =>
    string_terminal_loop src position data position.

  (** parser_core.rs:246-263 *)
  Definition ordered_choice_match_range_kernel (src : source) (start end_ : N) : P := fun _ position =>
    do chr <- read_char src position;
    match chr with
    | Some value =>
      if (start <=? value) && (value <=? end_) then (do q <- incr position; mret (true, q))
      else mret (false, position)
    | None => mret (false, position)
    end.
End kernels.
