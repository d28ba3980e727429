(** Specification: derivations of parsers that may use left recursion, and what
    it means for a returned tree to contain one. *)
From Verif Require Export SpecDeriv SpecProgram.
Local Open Scope N_scope.

(** Nonterminals with a PEG meaning of their own: [Pl A = true] promises that
    nothing below [A] is left-recursive. *)
Fixpoint plain (Pl : N -> bool) (e : pexp) : bool :=
  match e with
  | PChar _ | PStr _ | PRange _ _ => true
  | PSeq a b | PAlt a b => plain Pl a && plain Pl b
  | PAnd e | PNot e | PPlus e | PStar e | POpt e => plain Pl e
  | PRef _ A => Pl A
  end.

(** [lderiv e i j D]: [e] derives [s[i..j)] and [D] lists the rule applications
    of the derivation, as [deriv] does - but priorities, predicates and
    greediness (the premises about [peg]) are only required of plain
    expressions; for the others this is a context-free derivation. *)
Section lderiv.
  Context (g : pgrammar) (s : list N) (Pl : N -> bool).
  Definition if_plain (e : pexp) (P : Prop) : Prop := plain Pl e = true -> P.

  Inductive lderiv : pexp -> N -> N -> list ptree -> Prop :=
  | ld_char c i : s !! N.to_nat i = Some c -> lderiv (PChar c) i (i + 1) []
  | ld_range a b x i : s !! N.to_nat i = Some x -> a <= x <= b -> lderiv (PRange a b) i (i + 1) []
  | ld_str l i : occurs_at s i l -> lderiv (PStr l) i (i + N.of_nat (length l)) []
  | ld_seq e1 e2 i j k D1 D2 : lderiv e1 i j D1 -> lderiv e2 j k D2 -> lderiv (PSeq e1 e2) i k (D1 ++ D2)
  | ld_alt_1 e1 e2 i j D : lderiv e1 i j D -> lderiv (PAlt e1 e2) i j D
  | ld_alt_2 e1 e2 i j D : if_plain e1 (peg g s e1 i None) -> lderiv e2 i j D -> lderiv (PAlt e1 e2) i j D
  | ld_and e i : if_plain e (exists j, peg g s e i (Some j)) -> lderiv (PAnd e) i i []
  | ld_not e i : if_plain e (peg g s e i None) -> lderiv (PNot e) i i []
  | ld_star_stop e i : if_plain e (peg g s e i None) -> lderiv (PStar e) i i []
  | ld_star_more e i j k D1 D2 : lderiv e i j D1 -> lderiv (PStar e) j k D2 -> lderiv (PStar e) i k (D1 ++ D2)
  | ld_plus e i j k D1 D2 : lderiv e i j D1 -> lderiv (PStar e) j k D2 -> lderiv (PPlus e) i k (D1 ++ D2)
  | ld_opt_some e i j D : lderiv e i j D -> lderiv (POpt e) i j D
  | ld_opt_none e i : if_plain e (peg g s e i None) -> lderiv (POpt e) i i []
  | ld_rule r A body i j D : g A = Some body -> lderiv body i j D -> lderiv (PRef (Some r) A) i j [TNode r i j true D]
  | ld_inline A body i j D : g A = Some body -> lderiv body i j D -> lderiv (PRef None A) i j D.
End lderiv.

(** [has Ord t d]: the nodes of [d] are all in [t], each below its own parent;
    below nodes whose label satisfies [Ord] they are also in order. *)
Inductive has (Ord : N -> Prop) : ptree -> ptree -> Prop :=
  | has_node r i j b F D : has_all Ord F D -> (Ord r -> has_seq Ord F D) ->
      has Ord (TNode r i j b F) (TNode r i j b D)
with has_all (Ord : N -> Prop) : list ptree -> list ptree -> Prop :=
  | ha_nil F : has_all Ord F []
  | ha_cons F t d D : t ∈ F -> has Ord t d -> has_all Ord F D -> has_all Ord F (d :: D)
with has_seq (Ord : N -> Prop) : list ptree -> list ptree -> Prop :=
  | hs_nil : has_seq Ord [] []
  | hs_skip t F D : has_seq Ord F D -> has_seq Ord (t :: F) D
  | hs_keep t F d D : has Ord t d -> has_seq Ord F D -> has_seq Ord (t :: F) (d :: D).

(** Rule bodies whose left-recursive calls all stand at the left end of their
    alternative, outside repetitions ([<E> = <E> , .. / <E> , .. / ..]). *)
Fixpoint lr_free (Pl : N -> bool) (e : expr) : bool :=
  match e with
  | ETerminal _ | EString _ | ERange _ _ | EVar _ _ | EAnd _ | ENot _ => true
  | ESeq l r | EChoice l r => lr_free Pl l && lr_free Pl r
  | EPlus e | EStar e | EOpt e | ESub e | EHook _ e => lr_free Pl e
  | EInline f => Pl f
  | ELR _ _ _ => false
  end.
Fixpoint lr_left (Pl : N -> bool) (e : expr) : bool :=
  match e with
  | ELR _ _ _ => true
  | ESeq l r => lr_left Pl l && lr_free Pl r
  | EChoice l r => lr_left Pl l && lr_left Pl r
  | EOpt e | ESub e | EHook _ e => lr_left Pl e
  | e => lr_free Pl e
  end.

(** Left-recursive calls in a closure. *)
Fixpoint lr_targets (e : expr) : list N :=
  match e with
  | ETerminal _ | EString _ | ERange _ _ | EVar _ _ | EInline _ => []
  | ESeq l r | EChoice l r => lr_targets l ++ lr_targets r
  | EAnd e | ENot e | EPlus e | EStar e | EOpt e | ESub e | EHook _ e => lr_targets e
  | ELR _ _ f => [f]
  end.
(** [Pl] keeps its promise: the body of a plain function only calls plain
    functions, and none of them is called as left-recursive. *)
Record plain_ok {U} (pr : program U) (Pl : N -> bool) : Prop := mkPlainOk {
  po_body : forall f e, pr_fn pr f = Some e -> Pl f = true -> plain Pl (pexp_of e) = true;
  po_calls : forall f e, pr_fn pr f = Some e -> forall f', f' ∈ lr_targets e -> Pl f' = false;
}.

(** [inside t D]: [t] is one of the trees of [D] or below one of them. *)
Inductive inside (t : ptree) : list ptree -> Prop :=
  | in_here D : t ∈ D -> inside t D
  | in_below r i j b C D : TNode r i j b C ∈ D -> inside t C -> inside t D.

(** ** Left-associative shape *)
(** The alternatives of a rule body. *)
Fixpoint alternatives (e : pexp) : list pexp :=
  match e with PAlt a b => alternatives a ++ alternatives b | e => [e] end.
(** [after_call r f e]: what follows when [e] starts with a call of rule [r]. *)
Fixpoint after_call (r f : N) (e : pexp) : option pexp :=
  match e with
  | PSeq l x =>
    match l with
    | PRef (Some r') f' => if (r' =? r) && (f' =? f) then Some x else None
    | l => t ← after_call r f l; Some (PSeq t x)
    end
  | _ => None
  end.
(** [left_leaning i j n]: [n] is an [r] node over [i..j) that is either a seed
    (an alternative of the rule that does not start with [r]), or an inner,
    again left-leaning [r] node over [i..m), followed by what the alternative
    [r , t] derives from [m..j). *)
Section left_leaning.
  Context (g : pgrammar) (s : list N) (Pl : N -> bool) (r f : N) (body : pexp).
  Inductive left_leaning : N -> N -> ptree -> Prop :=
  | ll_seed alt i j D : alt ∈ alternatives body -> after_call r f alt = None -> lderiv g s Pl alt i j D ->
      left_leaning i j (TNode r i j true D)
  | ll_grow alt t i m j n D : left_leaning i m n -> alt ∈ alternatives body -> after_call r f alt = Some t ->
      lderiv g s Pl t m j D -> left_leaning i j (TNode r i j true (n :: D)).
End left_leaning.
