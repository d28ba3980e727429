(** Specification: left recursion that runs round a cycle of rules,
    [A0 = A1 t / .. / s], [A1 = A2 t' / .. / s'], .., [Ak = A0 t'' / .. / s''],
    and what the runtime makes of it.

    The answer for [A0] at a position is found in rounds.  The first value is
    that of [A0] with [A1] taken to fail.  A round takes the last value of [A0]
    once round the cycle: it gives the answer of [Ak], that the answer of the
    rule before it, and so on up to a new value of [A0].  Rounds go on as long
    as the value gets longer. *)
From Verif Require Export SpecProgram.
Local Open Scope N_scope.

(** An alternative of a rule: the next rule of the cycle and then [t] (nothing,
    if there is no [t]), or a seed. *)
Inductive alternative := Follow (t : option expr) | Seed (e : expr).

Section shape.
  Context (inv : list N) (r f : N).  (* involved set; label and function of the next rule *)
  (** [e] is "the next rule, then t". *)
  Fixpoint leading (e : expr) : option (option expr) :=
    match e with
    | ELR inv' r' f' => if decide (inv' = inv /\ r' = r /\ f' = f) then Some None else None
    | ESub e => leading e
    | ESeq l x =>
      match leading l with
      | Some None => Some (Some x)
      | Some (Some t) => Some (Some (ESeq t x))
      | None => None
      end
    | _ => None
    end.
  Fixpoint alternatives (e : expr) : list alternative :=
    match e with
    | EChoice a b => alternatives a ++ alternatives b
    | ESub e => alternatives e
    | e => match leading e with Some t => [Follow t] | None => [Seed e] end
    end.
End shape.

Section meaning.
  Context (g : pgrammar) (s : list N) (p : N).
  Definition tail_means (t : option expr) (q : N) (o : option N) : Prop :=
    match t with None => o = Some q | Some t => peg g s (pexp_of t) q o end.
  (** What the alternatives make of the answer [x] of the next rule at [p]: the
      first alternative that succeeds. *)
  Inductive picks (x : option N) : list alternative -> option N -> Prop :=
    | picks_nothing : picks x [] None
    | picks_follow q t l o : x = Some q -> tail_means t q (Some o) -> picks x (Follow t :: l) (Some o)
    | picks_follow_next t l o : match x with Some q => tail_means t q None | None => True end -> picks x l o -> picks x (Follow t :: l) o
    | picks_seed e l o : peg g s (pexp_of e) p (Some o) -> picks x (Seed e :: l) (Some o)
    | picks_seed_next e l o : peg g s (pexp_of e) p None -> picks x l o -> picks x (Seed e :: l) o.
  (** The value [x] of the rule after these, taken through them, last to first. *)
  Fixpoint through (rules : list (list alternative)) (x y : option N) : Prop :=
    match rules with
    | [] => y = x
    | a :: rules => exists z, through rules x z /\ picks z a y
    end.
  (** Rounds, starting from the value [x]. *)
  Inductive rounds (rules : list (list alternative)) : N -> N -> Prop :=
    | rounds_stop x y : through rules (Some x) y -> match y with Some z => z <= x | None => True end -> rounds rules x x
    | rounds_more x y z : through rules (Some x) (Some y) -> x < y -> rounds rules y z -> rounds rules x z.
  Definition cycle_means (rules : list (list alternative)) (o : option N) : Prop :=
    exists first rest x, rules = first :: rest /\ picks None first x /\
      match x with
      | Some q => if q <=? p then o = None else exists z, rounds rules q z /\ o = Some z
      | None => o = None
      end.
End meaning.

(** Programs with such a cycle. *)
Record member := Member { m_label : N; m_fn : N; m_alts : list alternative }.
Section program.
  Context {U : Type} (pr : program U) (fn : N -> N).
  (** [plain g]: calling function [g] never involves left recursion. *)
  Context (plain : N -> bool).
  Fixpoint plain_code (e : expr) : Prop :=
    match e with
    | ETerminal _ | EString _ | ERange _ _ => True
    | ESeq l r | EChoice l r => plain_code l /\ plain_code r
    | EAnd e | ENot e | EPlus e | EStar e | EOpt e | ESub e => plain_code e
    | EVar r g => fn r = g /\ plain g = true
    | EInline g => plain g = true
    | ELR _ _ _ | EHook _ _ => False
    end.
  Definition plain_alternative (a : alternative) : Prop :=
    match a with Follow None => True | Follow (Some t) => plain_code t | Seed e => plain_code e end.
  Context (inv : list N).
  (** The body of [m] consists of its alternatives, the first of which calls
      the next rule. *)
  Definition member_ok (m next : member) : Prop :=
    fn (m_label m) = m_fn m /\ plain (m_fn m) = false /\
    (exists body, pr_fn pr (m_fn m) = Some body /\ alternatives inv (m_label next) (m_fn next) body = m_alts m) /\
    (exists t l, m_alts m = Follow t :: l) /\ Forall plain_alternative (m_alts m).
  Fixpoint linked (ms : list member) (last : member) : Prop :=
    match ms with
    | [] => True
    | m :: ms => member_ok m (match ms with n :: _ => n | [] => last end) /\ linked ms last
    end.
  Record left_cycle (m0 : member) (rest : list member) : Prop := {
    lc_plain : forall g body, plain g = true -> pr_fn pr g = Some body -> plain_code body;
    lc_labels : NoDup (map m_label (m0 :: rest));
    lc_involved : forall r, r ∈ inv <-> r ∈ map m_label (m0 :: rest);
    lc_linked : linked (m0 :: rest) m0;
  }.
End program.

(** A grammar for the common case: seeds only matter in the first rule. *)
Fixpoint choice_of (l : list pexp) : pexp := match l with [] => PNot (PStr []) | [e] => e | e :: l => PAlt e (choice_of l) end.
Definition tail_exp (t : option expr) : pexp := match t with None => PStr [] | Some t => pexp_of t end.
(** Once round the cycle [rules]: the tails of the last rule, .., of the first. *)
Fixpoint round_exp (rules : list (list (option expr))) : pexp :=
  match rules with
  | [] => PStr []
  | ts :: rules => PSeq (round_exp rules) (choice_of (map tail_exp ts))
  end.
