(** Specification: which left-recursive grammars the runtime handles exactly,
    and what they mean.

    A left-recursive rule [A] of this class has the shape
    [A = A t1 / .. / A tn / s1 / .. / sm], where an alternative [A ti] may also
    be spelled as a separate rule [B = A ti] ("satellite") of the same involved
    set.  Its meaning is "a seed, then tails as long as possible":
    [A = (s1 / .. / sm) , (t1 / .. / tn)*]. *)
From Verif Require Export SpecProgram.

(** Can a parsing expression succeed without consuming?  (conservative;
    [nul A] is what is assumed of nonterminal [A]) *)
Fixpoint nullable (nul : N -> bool) (e : pexp) : bool :=
  match e with
  | PChar _ | PRange _ _ => false
  | PStr l => match l with [] => true | _ => false end
  | PSeq a b => nullable nul a && nullable nul b
  | PAlt a b => nullable nul a || nullable nul b
  | PAnd _ | PNot _ | PStar _ | POpt _ => true
  | PPlus e => nullable nul e
  | PRef _ A => nul A
  end.

Section shape.
  Context {U : Type} (pr : program U) (fn : N -> N).
  Context (G : list N) (r f : N).   (* involved set, label and function of the rule *)

  (** [e] is "A, then t" (possibly grouped, possibly a choice of such): [Some t]. *)
  Fixpoint lr_seq (e : expr) : option expr :=
    match e with
    | ESeq l x =>
      match l with
      | ELR inv r' f' => if decide (inv = G /\ r' = r /\ f' = f) then Some x else None
      | _ => t ← lr_seq l; Some (ESeq t x)
      end
    | ESub e => lr_seq e
    | EChoice a b => ta ← lr_seq a; tb ← lr_seq b; Some (EChoice ta tb)
    | _ => None
    end.

  (** The same, but whole alternatives may be satellites. *)
  Fixpoint lr_alt (e : expr) : option expr :=
    match e with
    | EChoice a b => ta ← lr_alt a; tb ← lr_alt b; Some (EChoice ta tb)
    | ELR inv b fb =>
      if decide (inv = G /\ b ∈ G /\ b <> r /\ fn b = fb) then body ← pr_fn pr fb; lr_seq body else None
    | e => lr_seq e
    end.

  (** A rule body: left-recursive alternatives first, then seeds.
      [Some (tails, seeds)]. *)
  Fixpoint lr_body (e : expr) : option (expr * expr) :=
    match e with
    | EChoice a b =>
      match lr_alt a with
      | Some t =>
        match lr_body b with
        | Some (t2, sd) => Some (EChoice t t2, sd)
        | None => Some (t, b)
        end
      | None => '(t, sd) ← lr_body a; Some (t, EChoice sd b)
      end
    | ESub e => lr_body e
    | _ => None
    end.

  (** The satellite tried first, if the first alternative is one. *)
  Fixpoint first_sat (e : expr) : option N :=
    match e with
    | EChoice a _ => first_sat a
    | ESub e => first_sat e
    | ELR _ b _ => Some b
    | _ => None
    end.
End shape.

(** The bookkeeping of a stratified program. *)
Record strat := Strat {
  st_fn : N -> N;              (* rule label -> function *)
  st_lr : N -> option N;       (* function -> label, for left-recursive (non-satellite) rules *)
  st_group : N -> list N;      (* label of a left-recursive rule -> its involved set *)
  st_sat : N -> option N;      (* labels of satellites -> the rule they belong to *)
  st_lvl : N -> nat;           (* level of a function *)
  st_av : N -> N -> bool;      (* [av f a]: function f never (re-)enters a's involved set while a is being grown *)
  st_nul : N -> bool;          (* functions that may match the empty string *)
}.

Section stratified.
  Context {U : Type} (pr : program U) (S : strat).

  (** The meaning of the program. *)
  Definition lr_grammar : pgrammar := fun f =>
    body ← pr_fn pr f;
    match st_lr S f with
    | None => Some (pexp_of body)
    | Some r =>
      '(t, sd) ← lr_body pr (st_fn S) (st_group S r) r f body;
      Some (PSeq (pexp_of sd) (PStar (pexp_of t)))
    end.

  (** Calls allowed in code of level [< n] that runs while the left-recursive
      rule [A] is being grown.  [start]: nothing has been consumed yet since
      the position at which the levels count. *)
  Fixpoint typed (n : nat) (A : option N) (start : bool) (e : expr) : Prop :=
    match e with
    | ETerminal _ | EString _ | ERange _ _ => True
    | ESeq l r => typed n A start l /\ typed n A (start && nullable (st_nul S) (pexp_of l)) r
    | EChoice l r => typed n A start l /\ typed n A start r
    | EAnd e | ENot e | EPlus e | EStar e | EOpt e | ESub e => typed n A start e
    | EVar r f =>
        st_fn S r = f /\ st_lr S f = None /\ st_sat S r = None /\ is_Some (pr_fn pr f) /\
        (start = true -> (st_lvl S f < n)%nat) /\
        (match A with Some a => st_av S f a = true | None => True end)
    | EInline f =>
        st_lr S f = None /\ is_Some (pr_fn pr f) /\
        (start = true -> (st_lvl S f < n)%nat) /\
        (match A with Some a => st_av S f a = true | None => True end)
    | ELR inv r f =>
        st_fn S r = f /\ st_lr S f = Some r /\ inv = st_group S r /\ is_Some (pr_fn pr f) /\
        (start = true -> (st_lvl S f < n)%nat) /\
        (match A with Some a => r ∉ st_group S a | None => True end)
    | EHook _ _ => False
    end.

  (** A left-recursive rule: shape, involved set, levels; tails and seeds
      consume, stay below the rule's level as long as nothing is consumed, and
      do not re-enter the rule except under another left-recursive rule. *)
  Record lr_rule_ok (r f : N) (body : expr) : Prop := mkLrRule {
    lo_fn : st_fn S r = f;
    lo_sat : st_sat S r = None;
    lo_in : r ∈ st_group S r;
    lo_sats : forall b, b ∈ st_group S r -> b <> r -> st_sat S b = Some r;
    lo_lvl : forall b, b ∈ st_group S r -> st_lvl S (st_fn S b) = st_lvl S f;
    lo_shape : exists t sd, lr_body pr (st_fn S) (st_group S r) r f body = Some (t, sd) /\
      nullable (st_nul S) (pexp_of t) = false /\ nullable (st_nul S) (pexp_of sd) = false /\
      typed (st_lvl S f) (Some r) false t /\ typed (st_lvl S f) (Some r) true sd;
  }.

  Definition stratified : Prop := forall f body, pr_fn pr f = Some body ->
    match st_lr S f with
    | Some r => lr_rule_ok r f body
    | None =>
        typed (Datatypes.S (st_lvl S f)) None true body /\
        (forall a, st_av S f a = true -> typed (Datatypes.S (st_lvl S f)) (Some a) true body) /\
        (nullable (st_nul S) (pexp_of body) = true -> st_nul S f = true)
    end.
End stratified.
