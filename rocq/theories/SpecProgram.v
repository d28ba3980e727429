(** Reading a generated program as a grammar, and a node store as trees. *)
From Verif Require Export SpecPeg Expr.

(** The parsing expression a generated closure stands for.  A labelled rule
    call builds a tree node, an inlined rule does not; a parenthesised group is
    the group's content.  (Hooks are erased: programs with hooks are excluded
    where this matters, see [expr_ok].) *)
Fixpoint pexp_of (e : expr) : pexp :=
  match e with
  | ETerminal c => PChar c
  | EString d => PStr d
  | ERange a b => PRange a b
  | ESeq l r => PSeq (pexp_of l) (pexp_of r)
  | EChoice l r => PAlt (pexp_of l) (pexp_of r)
  | EAnd e => PAnd (pexp_of e)
  | ENot e => PNot (pexp_of e)
  | EPlus e => PPlus (pexp_of e)
  | EStar e => PStar (pexp_of e)
  | EOpt e => POpt (pexp_of e)
  | ESub e => pexp_of e
  | EVar r f => PRef (Some r) f
  | EInline f => PRef None f
  | ELR _ r f => PRef (Some r) f
  | EHook _ e => pexp_of e
  end.

Definition grammar_of {U} (pr : program U) : pgrammar := fun f => pexp_of <$> pr_fn pr f.

(** Programs in the packrat fragment: no left-recursive entries, no hooks, all
    called functions exist, each rule label always goes with the same function
    [fn r] (in generated code function and label are spelled from the same
    rule name). *)
Fixpoint expr_ok {U} (pr : program U) (fn : N -> N) (e : expr) : Prop :=
  match e with
  | ETerminal _ | EString _ | ERange _ _ => True
  | ESeq l r | EChoice l r => expr_ok pr fn l /\ expr_ok pr fn r
  | EAnd e | ENot e | EPlus e | EStar e | EOpt e | ESub e => expr_ok pr fn e
  | EVar r f => fn r = f /\ is_Some (pr_fn pr f)
  | EInline f => is_Some (pr_fn pr f)
  | ELR _ _ _ | EHook _ _ => False
  end.
Definition program_ok {U} (pr : program U) (fn : N -> N) : Prop :=
  forall f e, pr_fn pr f = Some e -> expr_ok pr fn e.

(** Labels a closure can ask for. *)
Fixpoint labels (e : expr) : list N :=
  match e with
  | ETerminal _ | EString _ | ERange _ _ | EInline _ => []
  | ESeq l r | EChoice l r => labels l ++ labels r
  | EAnd e | ENot e | EPlus e | EStar e | EOpt e | ESub e | EHook _ e => labels e
  | EVar r _ | ELR _ r _ => [r]
  end.
Definition labels_in {U} (pr : program U) (R : gset N) : Prop :=
  forall f e, pr_fn pr f = Some e -> forall r, r ∈ labels e -> r ∈ R.

(** The outcome a Rust result [(success, position)] stands for. *)
Definition outcome (b : bool) (q : N) : option N := if b then Some q else None.

(** [unfolds O p k t]: following child keys from node [k] of the store [p]
    reads off exactly the finite tree [t], never touching a key in [O] (keys of
    rule calls still in progress; none when a parse has finished). *)
Inductive unfolds (O : N -> Prop) (p : publisher) : N -> ptree -> Prop :=
  | unf k n F :
      ~ O k -> p_nodes p !! k = Some n -> unfolds_list O p (n_children n) F ->
      unfolds O p k (TNode (n_rule n) (n_start n) (n_end n) (n_result n) F)
with unfolds_list (O : N -> Prop) (p : publisher) : list N -> list ptree -> Prop :=
  | unfl_nil : unfolds_list O p [] []
  | unfl_cons k ks t F : unfolds O p k t -> unfolds_list O p ks F ->
      unfolds_list O p (k :: ks) (t :: F).

Definition nothing (k : N) : Prop := False.
(** The tree a finished store denotes. *)
Definition denotes (p : publisher) (t : ptree) : Prop := unfolds nothing p 0 t.
