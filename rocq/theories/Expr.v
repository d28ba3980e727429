(** The shape of generated rule functions, and their execution.

    Every generated function (e.g. parser/src/parser.rs) is a list of
    [let closure_k = <combinator>(&closure_i, ..);] followed by
    [closure_n(parent, source, position)].  Unfolding the closure variables
    gives one expression tree, an [expr]; [eval] runs it with the kernels of
    ParserCore.v and VarName.v. *)
From Verif Require Export VarName.

Inductive expr : Type :=
  | ETerminal (chr : N)                          (* _terminal(b'c') *)
  | EString (data : list N)                      (* _string_terminal_opt_ascii(b"..") *)
  | ERange (start end_ : N)                      (* _ordered_choice_match_range(a, b) *)
  | ESeq (l r : expr)                            (* _sequence *)
  | EChoice (l r : expr)                         (* _ordered_choice *)
  | EAnd (e : expr)                              (* _and_predicate *)
  | ENot (e : expr)                              (* _not_predicate *)
  | EPlus (e : expr)                             (* _one_or_more *)
  | EStar (e : expr)                             (* _zero_or_more *)
  | EOpt (e : expr)                              (* _optional *)
  | ESub (e : expr)                              (* _subexpression *)
  | EVar (rule f : N)                            (* _var_name(user_state, Rules::rule, context, f) *)
  | EInline (f : N)                              (* move |parent, source, position| f(user_state, ...) *)
  | ELR (involved : list N) (rule f : N)         (* _var_name_indirect_left_recursion *)
  | EHook (h : N) (e : expr).                    (* h(user_state, parent, context, source, position, &closure) *)

(** A generated crate: rule functions by number, the hand-written hooks
    (a hook receives the closure it wraps and returns a closure), and the
    discriminant of Rules::Grammar. *)
Record program (U : Type) := Program {
  pr_fn : N -> option expr;
  pr_hook : N -> source -> parser U -> parser U;
  pr_grammar : N;
}.
Global Arguments Program {U} _ _ _.
Global Arguments pr_fn {U} _ _.
Global Arguments pr_hook {U} _ _ _ _.
Global Arguments pr_grammar {U} _.

Section eval.
  Context {U : Type} (pr : program U) (src : source).

  Fixpoint eval (fuel : nat) (e : expr) {struct fuel} : parser U :=
    match fuel with
    | O => fun _ _ => mnofuel
    | S n =>
      let call (f : N) : parser U := fun key position =>
        match pr_fn pr f with
        | Some body => eval n body key position
        | None => mpanic PNoFunction
        end in
      match e with
      | ETerminal c => terminal_kernel src c
      | EString d => string_terminal_kernel src d
      | ERange a b => ordered_choice_match_range_kernel src a b
      | ESeq l r => sequence_kernel (eval n l) (eval n r)
      | EChoice l r => ordered_choice_kernel (eval n l) (eval n r)
      | EAnd e => and_predicate_kernel (eval n e)
      | ENot e => not_predicate_kernel (eval n e)
      | EPlus e => one_or_more_kernel n (eval n e)
      | EStar e => zero_or_more_kernel n (eval n e)
      | EOpt e => optional_kernel (eval n e)
      | ESub e => subexpression_kernel (eval n e)
      | EVar r f => var_name_kernel r (call f)
      | EInline f => call f
      | ELR inv r f => var_name_kernel_indirect_left_recursion n inv r (call f)
      | EHook h e => pr_hook pr h src (eval n e)
      end
    end.
End eval.

(** parser/src/parse.rs:10-23 with the entry expression as a parameter: the
    tests and generated crates start from [_var_name(.., Rules::Grammar, ..,
    grammar)] or from [_var_name_indirect_left_recursion(..)]; generator/src/
    lib.rs:34 calls [grammar] directly (an [EInline] entry). Returns the raw
    context, before [clear_false]. *)
Definition run_entry {U} (pr : program U) (u0 : U) (fuel : nat) (entry : expr) (s : list N)
  : res ((bool * N) * pstate U) :=
  eval pr (source_new s) fuel entry 0 0 (PState (context_new (pr_grammar pr)) u0).

(** parse.rs:10-23 — parse: result and cleaned tree. *)
Definition parse_with {U} (pr : program U) (u0 : U) (fuel : nat) (entry : expr) (s : list N)
  : res (bool * N * publisher) :=
  let! ((b, q), st) := run_entry pr u0 fuel entry s in
  let! t := clear_false fuel (pr_grammar pr) (cx_pub (st_ctx st)) in
  Ok (b, q, t).
