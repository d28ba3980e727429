(** Specification: how many tree nodes a left-recursive parser may create.

    Every rule call that is not answered from the memo table appends a node to
    the tree, and node keys are [u32]s.  This file gives, for a text of length
    [L], a number of nodes that is always enough. *)
From Verif Require Export SpecTerm.
Local Open Scope N_scope.

Section keys.
  Context {U : Type} (pr : program U) (nul : N -> bool) (rk : N -> nat).

  (** A rule called through the memo table never needs itself again at the same
      position: inside a function of rank [n], as long as nothing has been
      consumed, memoised rules have a smaller rank; inlined and left-recursive
      rules do not have a larger one. *)
  Fixpoint ranked (n : nat) (start : bool) (e : expr) : Prop :=
    match e with
    | ETerminal _ | EString _ | ERange _ _ => True
    | ESeq l r => ranked n start l /\ ranked n (start && nullable nul (pexp_of l)) r
    | EChoice l r => ranked n start l /\ ranked n start r
    | EAnd e | ENot e | EOpt e | ESub e | EHook _ e => ranked n start e
    | EPlus e | EStar e => nullable nul (pexp_of e) = false /\ ranked n start e
    | EVar _ f => start = true -> (rk f < n)%nat
    | EInline f | ELR _ _ f => start = true -> (rk f <= n)%nat
    end.
  Definition ranked_program : Prop := forall f body, pr_fn pr f = Some body -> ranked (rk f) true body.

  (** Rules called through the memo table. *)
  Fixpoint var_labels (e : expr) : list N :=
    match e with
    | ETerminal _ | EString _ | ERange _ _ | ELR _ _ _ | EInline _ => []
    | ESeq l r | EChoice l r => var_labels l ++ var_labels r
    | EAnd e | ENot e | EPlus e | EStar e | EOpt e | ESub e | EHook _ e => var_labels e
    | EVar r _ => [r]
    end.

  (** The involved sets written in an expression. *)
  Fixpoint involved_sets (e : expr) : list (list N) :=
    match e with
    | ETerminal _ | EString _ | ERange _ _ | EVar _ _ | EInline _ => []
    | ESeq l r | EChoice l r => involved_sets l ++ involved_sets r
    | EAnd e | ENot e | EPlus e | EStar e | EOpt e | ESub e | EHook _ e => involved_sets e
    | ELR inv _ _ => [inv]
    end.

  (** [lr_calls L e c]: running [e] once makes at most [c] calls of
      left-recursive rules directly, that is, not below another rule that has a
      node of its own; repetitions count [L + 1] times. *)
  Inductive lr_calls (L : N) : expr -> N -> Prop :=
    | lc_terminal c : lr_calls L (ETerminal c) 0
    | lc_string d : lr_calls L (EString d) 0
    | lc_range a b : lr_calls L (ERange a b) 0
    | lc_seq l r cl cr : lr_calls L l cl -> lr_calls L r cr -> lr_calls L (ESeq l r) (cl + cr)
    | lc_choice l r cl cr : lr_calls L l cl -> lr_calls L r cr -> lr_calls L (EChoice l r) (cl + cr)
    | lc_and e c : lr_calls L e c -> lr_calls L (EAnd e) c
    | lc_not e c : lr_calls L e c -> lr_calls L (ENot e) c
    | lc_opt e c : lr_calls L e c -> lr_calls L (EOpt e) c
    | lc_sub e c : lr_calls L e c -> lr_calls L (ESub e) c
    | lc_hook h e c : lr_calls L e c -> lr_calls L (EHook h e) c
    | lc_plus e c : lr_calls L e c -> lr_calls L (EPlus e) (c * (L + 1))
    | lc_star e c : lr_calls L e c -> lr_calls L (EStar e) (c * (L + 1))
    | lc_var r f : lr_calls L (EVar r f) 0
    | lc_lr inv r f : lr_calls L (ELR inv r f) 1
    | lc_inline f body c : pr_fn pr f = Some body -> lr_calls L body c -> lr_calls L (EInline f) c.

  (** What the bound depends on. *)
  Record key_budget (L : N) (V R : gset N) (I C : N) : Prop := {
    kb_var : forall f body r, pr_fn pr f = Some body -> r ∈ var_labels body -> r ∈ V;
    kb_lr : lr_labels_in pr R;
    kb_inv : forall f body inv, pr_fn pr f = Some body -> inv ∈ involved_sets body -> N.of_nat (length inv) <= I;
    kb_calls : forall f body, pr_fn pr f = Some body -> exists c, lr_calls L body c /\ c <= C;
  }.
End keys.

(** Nodes made by growing one left-recursive rule at one position, with
    involved sets of at most [I] rules: two to start with and, in each of at
    most [L + 1] rounds, one for the next seed and one per involved rule. *)
Definition growth_keys (L I : N) : N := 2 + I + (L + 1) * (1 + I).

(** [V] memoised and [R] left-recursive rules, [C] direct calls of
    left-recursive rules per rule body, [E] in the expression started with. *)
Definition key_bound (L : N) (V R : nat) (I C E : N) : N :=
  1 + N.of_nat V * (L + 1) * (1 + C * growth_keys L I) + N.of_nat R * (L + 1) * growth_keys L I
    + E * growth_keys L I.

(** The sets the bound is about, read off the table. *)
Definition vars_of (table : list expr) (entry : expr) : gset N := list_to_set (var_labels entry ++ concat (map var_labels table)).
Definition lrs_of (table : list expr) (entry : expr) : gset N := list_to_set (lr_labels entry ++ concat (map lr_labels table)).
Definition width_of (table : list expr) (entry : expr) : N :=
  N.of_nat (foldr max 0%nat (map length (involved_sets entry ++ concat (map involved_sets table)))).

(** ** The size of the cleaned tree *)
(** [tower h nul e]: how many rule applications, one directly above the other
    and all covering the same nonempty text, a derivation of [e] can start
    with, if [h A] is that number for nonterminal [A]. *)
Fixpoint tower (h : N -> N) (nul : N -> bool) (e : pexp) : N :=
  match e with
  | PChar _ | PRange _ _ | PStr _ | PAnd _ | PNot _ => 0
  | PSeq a b => N.max (if nullable nul b then tower h nul a else 0) (if nullable nul a then tower h nul b else 0)
  | PAlt a b => N.max (tower h nul a) (tower h nul b)
  | PStar e | PPlus e | POpt e => tower h nul e
  | PRef (Some _) A => 1 + h A
  | PRef None A => h A
  end.
Record low (h : N -> N) (nul : N -> bool) (H : N) (g : pgrammar) : Prop := {
  low_body : forall A body, g A = Some body -> tower h nul body <= h A /\ (nullable nul body = true -> nul A = true);
  low_all : forall A, h A <= H;
}.
