(** Specification: grammars with left recursion on several levels, such as
    [<Term> = <Term> '+' <Fact> / <Fact>], [<Fact> = <Fact> '*' <Num> / <Num>]:
    every level is a cycle of rules (SpecCycle.v) whose tails and seeds may call
    the first rules of the cycles below, and what the runtime makes of them. *)
From Verif Require Export SpecCycleTree.
Local Open Scope N_scope.

(** What a call answers: nothing, or where it ends and the trees of the rules
    it applied. *)
Notation answer := (option (N * list ptree)).

(** ** One level, given what the code of its tails and seeds answers *)
Section level.
  Context (runs : expr -> N -> answer -> Prop) (p : N).
  Definition tail_runs (t : option expr) (q : N) (o : answer) : Prop :=
    match t with None => o = Some (q, []) | Some t => runs t q o end.
  (** The first alternative that succeeds, [x] being the tree of the next rule
      of the cycle at [p]. *)
  Inductive tries (x : option ptree) : list alternative -> answer -> Prop :=
    | tries_nothing : tries x [] None
    | tries_follow n t l j D : x = Some n -> tail_runs t (t_end n) (Some (j, D)) -> tries x (Follow t :: l) (Some (j, D))
    | tries_follow_next t l o : match x with Some n => tail_runs t (t_end n) None | None => True end -> tries x l o -> tries x (Follow t :: l) o
    | tries_seed e l j D : runs e p (Some (j, D)) -> tries x (Seed e :: l) (Some (j, D))
    | tries_seed_next e l o : runs e p None -> tries x l o -> tries x (Seed e :: l) o.
  Fixpoint passes (ms : list member) (x y : option ptree) : Prop :=
    match ms with
    | [] => y = x
    | m :: ms => exists z o, passes ms x z /\ tries z (m_alts m) o /\ y = node_of p (m_label m) z o
    end.
  (** Rounds, as long as the tree gets longer. *)
  Inductive grows (ms : list member) : ptree -> ptree -> Prop :=
    | grows_stop x y : passes ms (Some x) y -> match y with Some z => t_end z <= t_end x | None => True end -> grows ms x x
    | grows_more x y z : passes ms (Some x) (Some y) -> t_end x < t_end y -> grows ms y z -> grows ms x z.
  Definition cycle_gives (ms : list member) (y : option ptree) : Prop :=
    exists first rest o, ms = first :: rest /\ tries None (m_alts first) o /\
      match node_of p (m_label first) None o with
      | Some t => if t_end t <=? p then y = None else exists z, grows ms t z /\ y = Some z
      | None => y = None
      end.
End level.

(** ** Several levels, the highest first *)
Record level := Level { lv_inv : list N; lv_first : member; lv_rest : list member }.
Definition lv_members (c : level) : list member := lv_first c :: lv_rest c.
Definition lv_call (c : level) : expr := ELR (lv_inv c) (m_label (lv_first c)) (m_fn (lv_first c)).
Definition called_tree (y : option ptree) : answer := match y with Some t => Some (t_end t, [t]) | None => None end.

Section runs.
  Context (g : pgrammar) (s : list N).
  Context (fn : N -> N) (plain : N -> bool).
  (** Code without left recursion is a PEG. *)
  Definition runs_plain (e : expr) (i : N) (o : answer) : Prop := plain_code fn plain e /\
    match o with Some (j, D) => deriv g s (pexp_of e) i j D | None => peg g s (pexp_of e) i None end.
  (** Sequences and choices of such code and of calls of the cycle [c]. *)
  Inductive runs_above (below : expr -> N -> answer -> Prop) (c : level) : expr -> N -> answer -> Prop :=
    | ra_below e i o : below e i o -> runs_above below c e i o
    | ra_call i y : cycle_gives below i (lv_members c) y -> runs_above below c (lv_call c) i (called_tree y)
    | ra_seq_ok a b i j k D1 D2 : runs_above below c a i (Some (j, D1)) -> runs_above below c b j (Some (k, D2)) -> runs_above below c (ESeq a b) i (Some (k, D1 ++ D2))
    | ra_seq_1 a b i : runs_above below c a i None -> runs_above below c (ESeq a b) i None
    | ra_seq_2 a b i j D : runs_above below c a i (Some (j, D)) -> runs_above below c b j None -> runs_above below c (ESeq a b) i None
    | ra_choice_1 a b i j D : runs_above below c a i (Some (j, D)) -> runs_above below c (EChoice a b) i (Some (j, D))
    | ra_choice_2 a b i o : runs_above below c a i None -> runs_above below c b i o -> runs_above below c (EChoice a b) i o
    | ra_sub a i o : runs_above below c a i o -> runs_above below c (ESub a) i o.
  Fixpoint runs (ls : list level) : expr -> N -> answer -> Prop :=
    match ls with [] => runs_plain | c :: ls => runs_above (runs ls) c end.
  (** The tree of the first rule of the highest level at [p]. *)
  Definition levels_give (p : N) (ls : list level) (y : option ptree) : Prop :=
    match ls with [] => False | c :: ls => cycle_gives (runs ls) p (lv_members c) y end.
End runs.

(** ** Programs of this shape *)
Section program.
  Context {U : Type} (pr : program U) (fn : N -> N) (plain : N -> bool) (Nr : N -> bool).
  (** Code that may call the first rules of the levels [ls]. *)
  Fixpoint level_code (ls : list level) (e : expr) : Prop :=
    plain_code fn plain e \/
    match e with
    | ELR inv r f => exists c, c ∈ ls /\ e = lv_call c
    | ESeq a b | EChoice a b => level_code ls a /\ level_code ls b
    | ESub a => level_code ls a
    | _ => False
    end.
  Definition level_alternative (ls : list level) (a : alternative) : Prop :=
    match a with
    | Follow None => True
    | Follow (Some t) => level_code ls t /\ tidy Nr t = true /\ fails_clean Nr t = true
    | Seed e => level_code ls e /\ tidy Nr e = true /\ fails_clean Nr e = true
    end.
  Context (ls : list level) (inv : list N).
  Definition level_member (m next : member) : Prop :=
    fn (m_label m) = m_fn m /\ plain (m_fn m) = false /\
    (exists body, pr_fn pr (m_fn m) = Some body /\ alternatives inv (m_label next) (m_fn next) body = m_alts m) /\
    (exists t l, m_alts m = Follow t :: l) /\ Forall (level_alternative ls) (m_alts m).
  Fixpoint level_linked (ms : list member) (last : member) : Prop :=
    match ms with
    | [] => True
    | m :: ms => level_member m (match ms with n :: _ => n | [] => last end) /\ level_linked ms last
    end.
End program.
Section levels.
  Context {U : Type} (pr : program U) (fn : N -> N) (plain : N -> bool) (Nr : N -> bool).
  (** One level above [ls]. *)
  Record level_ok (c : level) (ls : list level) : Prop := {
    lo_labels : NoDup (map m_label (lv_members c));
    lo_involved : forall r, r ∈ lv_inv c <-> r ∈ map m_label (lv_members c);
    lo_linked : level_linked pr fn plain Nr ls (lv_inv c) (lv_members c) (lv_first c);
    lo_disjoint : forall c' r, c' ∈ ls -> r ∈ lv_inv c' -> r ∉ lv_inv c;
  }.
  Fixpoint levels_ok (ls : list level) : Prop :=
    match ls with [] => True | c :: ls => level_ok c ls /\ levels_ok ls end.
  (** The functions without left recursion. *)
  Record plain_part : Prop := {
    pp_plain : forall f body, plain f = true -> pr_fn pr f = Some body -> plain_code fn plain body;
    pp_tidy : forall f e, plain f = true -> pr_fn pr f = Some e -> tidy Nr e = true;
    pp_callless : forall f e, plain f = true -> pr_fn pr f = Some e -> Nr f = true -> callless Nr e = true;
  }.
End levels.

(** ** Example 6: sums of products of digits *)
Section sums.
  Context (fact_r num_r term_r : N) (s : list N).
  Definition byte_at (i : N) : option N := s !! N.to_nat i.
  Definition digit_at (i : N) : Prop := exists c, byte_at i = Some c /\ 48 <= c <= 57.
  Definition digit_tree (i : N) : ptree := TNode num_r i (i + 1) true [].
  (** [d], [d*d], [d*d/d], ..., nested to the left. *)
  Inductive product : ptree -> Prop :=
    | product_digit i : digit_at i -> product (TNode fact_r i (i + 1) true [digit_tree i])
    | product_more t : product t -> byte_at (t_end t) = Some 42 \/ byte_at (t_end t) = Some 47 -> digit_at (t_end t + 1) ->
        product (TNode fact_r (t_start t) (t_end t + 2) true [t; digit_tree (t_end t + 1)]).
  Definition whole_product (t : ptree) : Prop :=
    product t /\ ~ ((byte_at (t_end t) = Some 42 \/ byte_at (t_end t) = Some 47) /\ digit_at (t_end t + 1)).
  (** Products with plus and minus between them, nested to the left. *)
  Inductive sum : ptree -> Prop :=
    | sum_product f : whole_product f -> sum (TNode term_r (t_start f) (t_end f) true [f])
    | sum_more t f : sum t -> byte_at (t_end t) = Some 43 \/ byte_at (t_end t) = Some 45 -> whole_product f -> t_start f = t_end t + 1 ->
        sum (TNode term_r (t_start t) (t_end f) true [t; f]).
  Definition whole_sum (t : ptree) : Prop :=
    sum t /\ ~ ((byte_at (t_end t) = Some 43 \/ byte_at (t_end t) = Some 45) /\ digit_at (t_end t + 1)).
End sums.
