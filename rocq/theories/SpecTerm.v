(** Specification: when a generated parser is expected to terminate.

    As for any recursive-descent parser: no rule may call itself again before
    consuming something — except through the left-recursion entry, which is
    meant to break exactly those cycles —, and no repetition may run over an
    expression that can succeed without consuming. *)
From Verif Require Export SpecLR SpecSession.

Section terminating.
  Context {U : Type} (pr : program U) (nul : N -> bool) (lvl : N -> nat).

  (** [guarded n start e]: inside a function of level [n], with [start] = "it
      may be that nothing has been consumed yet". *)
  Fixpoint guarded (n : nat) (start : bool) (e : expr) : Prop :=
    match e with
    | ETerminal _ | EString _ | ERange _ _ => True
    | ESeq l r => guarded n start l /\ guarded n (start && nullable nul (pexp_of l)) r
    | EChoice l r => guarded n start l /\ guarded n start r
    | EAnd e | ENot e | EOpt e | ESub e | EHook _ e => guarded n start e
    | EPlus e | EStar e => nullable nul (pexp_of e) = false /\ guarded n start e
    | EVar _ f | EInline f => start = true -> (lvl f < n)%nat
    | ELR _ _ _ => True
    end.

  (** Every function calls, before consuming, only functions of a lower level
      (or left-recursion entries), and [nul] is a correct answer to "may it
      match the empty string". *)
  Definition well_founded_program : Prop := forall f body, pr_fn pr f = Some body ->
    guarded (lvl f) true body /\ (nullable nul (pexp_of body) = true -> nul f = true).

  (** Labels used with the left-recursion entry. *)
  Fixpoint lr_labels (e : expr) : list N :=
    match e with
    | ETerminal _ | EString _ | ERange _ _ | EVar _ _ | EInline _ => []
    | ESeq l r | EChoice l r => lr_labels l ++ lr_labels r
    | EAnd e | ENot e | EPlus e | EStar e | EOpt e | ESub e | EHook _ e => lr_labels e
    | ELR _ r _ => [r]
    end.
  Definition lr_labels_in (R : gset N) : Prop := forall f body r, pr_fn pr f = Some body -> r ∈ lr_labels body -> r ∈ R.
End terminating.

(** Hooks that run the wrapped rule once, at the position they were called
    with, and then let the result stand or veto it, possibly changing the user
    state (and nothing else); they may panic but not loop. *)
Definition veto_hooks {U} (pr : program U) : Prop :=
  forall h src, exists K : N -> N -> bool * N -> M (pstate U) (bool * N),
    (forall f parent pos st, pr_hook pr h src f parent pos st = mbind' (f parent pos) (K parent pos) st) /\
    (forall parent pos r st, K parent pos r st <> NoFuel) /\
    (forall parent pos r st r' st', K parent pos r st = Ok (r', st') ->
       st_ctx st' = st_ctx st /\ (r' = r \/ r' = (false, pos))).

(** The same condition on a grammar: Ford's well-formedness. *)
Section well_founded_grammar.
  Context (nul : N -> bool) (lvl : N -> nat) (g : pgrammar).
  Fixpoint pguarded (n : nat) (start : bool) (e : pexp) : Prop :=
    match e with
    | PChar _ | PStr _ | PRange _ _ => True
    | PSeq a b => pguarded n start a /\ pguarded n (start && nullable nul a) b
    | PAlt a b => pguarded n start a /\ pguarded n start b
    | PAnd e | PNot e | POpt e => pguarded n start e
    | PPlus e | PStar e => nullable nul e = false /\ pguarded n start e
    | PRef _ A => is_Some (g A) /\ (start = true -> (lvl A < n)%nat)
    end.
  Definition well_founded_grammar : Prop := forall A body, g A = Some body ->
    pguarded (lvl A) true body /\ (nullable nul body = true -> nul A = true).
End well_founded_grammar.
