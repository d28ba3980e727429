(** Specification: grammars whose cleaned tree is exactly the parse tree. *)
From Verif Require Export SpecLRTree.
Local Open Scope N_scope.

(** An alternative, an optional part or a repetition that is tried and given up
    leaves the rule calls it completed in the tree (see C22_junk, C30).  A
    grammar is [tidy] when this cannot happen: whatever is tried either makes
    no rule call at all, or fails at the rule call that fails.

    [Nr f = true] promises that the inline function [f] makes no rule call. *)
Section tidy.
  Context (Nr : N -> bool).
  (** Makes no rule call. *)
  Fixpoint callless (e : expr) : bool :=
    match e with
    | ETerminal _ | EString _ | ERange _ _ => true
    | ESeq l r | EChoice l r => callless l && callless r
    | EAnd e | ENot e | EPlus e | EStar e | EOpt e | ESub e | EHook _ e => callless e
    | EInline f => Nr f
    | EVar _ _ | ELR _ _ _ => false
    end.
  (** When it fails, no rule call succeeded. *)
  Fixpoint fails_clean (e : expr) : bool :=
    match e with
    | ETerminal _ | EString _ | ERange _ _ | EVar _ _ | ELR _ _ _ => true
    | EStar _ | EOpt _ => true
    | ESeq l r => callless l && fails_clean r
    | EChoice l r => fails_clean l && fails_clean r
    | EAnd e | ENot e => callless e
    | EPlus e | ESub e | EHook _ e => fails_clean e
    | EInline f => Nr f
    end.
  (** Whatever is tried on the way to success fails clean. *)
  Fixpoint tidy (e : expr) : bool :=
    match e with
    | ETerminal _ | EString _ | ERange _ _ | EVar _ _ | EInline _ | ELR _ _ _ => true
    | ESeq l r => tidy l && tidy r
    | EChoice l r => fails_clean l && tidy l && tidy r
    | EStar e | EPlus e | EOpt e => fails_clean e && tidy e
    | EAnd e | ENot e => callless e && tidy e
    | ESub e | EHook _ e => tidy e
    end.
  Record tidy_program {U} (pr : program U) : Prop := mkTidyProgram {
    tp_tidy : forall f e, pr_fn pr f = Some e -> tidy e = true;
    tp_callless : forall f e, pr_fn pr f = Some e -> Nr f = true -> callless e = true;
  }.
End tidy.
