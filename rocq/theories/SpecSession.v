(** Histories: what a user of a generated crate can do with one context. *)
From Verif Require Export SpecSafe.

Section session.
  Context {U : Type} (pr : program U) (allowed : expr -> Prop) (s : list N) (u0 : U).

  (** A fresh context, then any number of finished top-level calls
      ([closure(Key(0), &source, position)]) of any rule or [allowed]
      expression of the program, at any positions, in any order. *)
  Inductive session : pstate U -> Prop :=
    | session_fresh : session (PState (context_new (pr_grammar pr)) u0)
    | session_call st fuel e pos r st' :
        session st -> allowed e -> pos <= N.of_nat (length s) ->
        eval pr (source_new s) fuel e 0 pos st = Ok (r, st') -> session st'.
End session.

(** A crate that uses no hooked rules ([hooked_calls.rs] as shipped). *)
Definition no_hooks {U} (pr : program U) : Prop := forall h src f, pr_hook pr h src f = f.
