(** Specification: what a grammar file means, by rule names and directly on
    the abstract syntax of the DSL.  No generator, closures or node labels. *)
From stdpp Require Import base list option numbers relations.
From Coq Require Import NArith.
From Verif Require Export SpecCompile SpecLeft.
Local Open Scope N_scope.

(** ** Literals *)
(** The byte written between single quotes. *)
Definition char_value (c : list N) : option N :=
  match c with
  | [c] => Some c
  | [b; c] => if negb (b =? 92) then None else
      if c =? 110 then Some 10 else if c =? 114 then Some 13 else if c =? 116 then Some 9 else None
  | _ => None
  end.
(** The bytes a literal stands for ('' is the empty string; decimal literals
    have no meaning: the generator panics on them). *)
Definition literal (e : dexp) : option (list N) :=
  match e with
  | DQuoted [] => Some []
  | DQuoted c => (fun x => [x]) <$> char_value c
  | DString l => string_bytes l
  | DHexLit ds => Some [hexval ds]
  | _ => None
  end.
Definition bound_byte (b : dbound) : option N :=
  match b with BQuoted c => char_value c | BHex ds => Some (hexval ds) | BInt _ => None end.

(** ** Parsing-expression reading: ordered choice, greedy repetition *)
Section means.
  Context (rules : list drule) (s : list N).
  (** [means e i o]: [e], tried at byte [i], matches up to [j] ([o = Some j])
      or fails ([o = None]). *)
  Inductive means : dexp -> N -> option N -> Prop :=
    | m_literal e l i : literal e = Some l -> occurs_at s i l -> means e i (Some (i + N.of_nat (length l)))
    | m_literal_fail e l i : literal e = Some l -> ~ occurs_at s i l -> means e i None
    | m_range a b x y c i : bound_byte a = Some x -> bound_byte b = Some y ->
        s !! N.to_nat i = Some c -> x <= c <= y -> means (DRange a b) i (Some (i + 1))
    | m_range_fail a b x y i : bound_byte a = Some x -> bound_byte b = Some y ->
        (forall c, s !! N.to_nat i = Some c -> ~ (x <= c <= y)) -> means (DRange a b) i None
    | m_ref n body i o : body_of rules n = Some body -> means body i o -> means (DRef n) i o
    | m_group e i o : means e i o -> means (DGroup e) i o
    | m_and e i j : means e i (Some j) -> means (DAnd e) i (Some i)
    | m_and_fail e i : means e i None -> means (DAnd e) i None
    | m_not e i : means e i None -> means (DNot e) i (Some i)
    | m_not_fail e i j : means e i (Some j) -> means (DNot e) i None
    | m_opt e i j : means e i (Some j) -> means (DOpt e) i (Some j)
    | m_opt_none e i : means e i None -> means (DOpt e) i (Some i)
    | m_star_stop e i : means e i None -> means (DStar e) i (Some i)
    | m_star_more e i j o : means e i (Some j) -> means (DStar e) j o -> means (DStar e) i o
    | m_plus_fail e i : means e i None -> means (DPlus e) i None
    | m_plus e i j o : means e i (Some j) -> means (DStar e) j o -> means (DPlus e) i o
    | m_seq es i o : means_seq es i o -> means (DSeq es) i o
    | m_alt es i o : means_alt es i o -> means (DAlt es) i o
  with means_seq : list dexp -> N -> option N -> Prop :=
    | ms_nil i : means_seq [] i (Some i)
    | ms_fail e es i : means e i None -> means_seq (e :: es) i None
    | ms_cons e es i j o : means e i (Some j) -> means_seq es j o -> means_seq (e :: es) i o
  with means_alt : list dexp -> N -> option N -> Prop :=
    | ma_nil i : means_alt [] i None
    | ma_take e es i j : means e i (Some j) -> means_alt (e :: es) i (Some j)
    | ma_next e es i o : means e i None -> means_alt es i o -> means_alt (e :: es) i o.

  (** ** Context-free reading: unordered choice, predicates ignored *)
  Inductive derives : dexp -> N -> N -> Prop :=
    | d_literal e l i : literal e = Some l -> occurs_at s i l -> derives e i (i + N.of_nat (length l))
    | d_range a b x y c i : bound_byte a = Some x -> bound_byte b = Some y ->
        s !! N.to_nat i = Some c -> x <= c <= y -> derives (DRange a b) i (i + 1)
    | d_ref n body i j : body_of rules n = Some body -> derives body i j -> derives (DRef n) i j
    | d_group e i j : derives e i j -> derives (DGroup e) i j
    | d_and e i : derives (DAnd e) i i
    | d_not e i : derives (DNot e) i i
    | d_opt_none e i : derives (DOpt e) i i
    | d_opt e i j : derives e i j -> derives (DOpt e) i j
    | d_star_nil e i : derives (DStar e) i i
    | d_star e i j k : derives e i j -> derives (DStar e) j k -> derives (DStar e) i k
    | d_plus e i j k : derives e i j -> derives (DStar e) j k -> derives (DPlus e) i k
    | d_seq es i j : derives_seq es i j -> derives (DSeq es) i j
    | d_alt es e i j : e ∈ es -> derives e i j -> derives (DAlt es) i j
  with derives_seq : list dexp -> N -> N -> Prop :=
    | ds_nil i : derives_seq [] i i
    | ds_cons e es i j k : derives e i j -> derives_seq es j k -> derives_seq (e :: es) i k.
End means.

(** ** Conditions on grammar files *)
Section conditions.
  Context (rules : list drule).
  (** Every reference names a declared rule. *)
  Definition refs_declared : Prop := forall n m, calls rules n m -> declared rules m.
  Definition hook_free : Prop := forall r, r ∈ rules -> hooks_of (dr_body r) = [].

  (** What the expression may do before consuming anything. *)
  Inductive may_be_empty : dexp -> Prop :=
    | me_literal e : literal e = Some [] -> may_be_empty e
    | me_ref n body : body_of rules n = Some body -> may_be_empty body -> may_be_empty (DRef n)
    | me_group e : may_be_empty e -> may_be_empty (DGroup e)
    | me_hook h e : may_be_empty e -> may_be_empty (DHook h e)
    | me_and e : may_be_empty (DAnd e)
    | me_not e : may_be_empty (DNot e)
    | me_star e : may_be_empty (DStar e)
    | me_opt e : may_be_empty (DOpt e)
    | me_plus e : may_be_empty e -> may_be_empty (DPlus e)
    | me_seq es : all_empty es -> may_be_empty (DSeq es)
    | me_alt es e : e ∈ es -> may_be_empty e -> may_be_empty (DAlt es)
  with all_empty : list dexp -> Prop :=
    | ae_nil : all_empty []
    | ae_cons e es : may_be_empty e -> all_empty es -> all_empty (e :: es).

  (** [starts_with e n]: [e] may try rule [n] at the position [e] itself was
      tried at. *)
  Inductive starts_with : dexp -> list N -> Prop :=
    | sw_ref n : starts_with (DRef n) n
    | sw_group e n : starts_with e n -> starts_with (DGroup e) n
    | sw_hook h e n : starts_with e n -> starts_with (DHook h e) n
    | sw_and e n : starts_with e n -> starts_with (DAnd e) n
    | sw_not e n : starts_with e n -> starts_with (DNot e) n
    | sw_plus e n : starts_with e n -> starts_with (DPlus e) n
    | sw_star e n : starts_with e n -> starts_with (DStar e) n
    | sw_opt e n : starts_with e n -> starts_with (DOpt e) n
    | sw_seq es1 e es2 n : all_empty es1 -> starts_with e n -> starts_with (DSeq (es1 ++ e :: es2)) n
    | sw_alt es e n : e ∈ es -> starts_with e n -> starts_with (DAlt es) n.
  (** Rule [n] may try rule [m] at the same position. *)
  Definition first_calls (n m : list N) : Prop := exists e, body_of rules n = Some e /\ starts_with e m.

  (** No repetition of something that may be empty. *)
  Fixpoint loops_consume (e : dexp) : Prop :=
    match e with
    | DPlus e | DStar e => ~ may_be_empty e /\ loops_consume e
    | DGroup e | DHook _ e | DAnd e | DNot e | DOpt e => loops_consume e
    | DSeq es | DAlt es => (fix go (es : list dexp) : Prop := match es with [] => True | e :: es => loops_consume e /\ go es end) es
    | _ => True
    end.
  Definition no_empty_loops : Prop := forall r, r ∈ rules -> loops_consume (dr_body r).
End conditions.

(** Literals the generator gets right: no '' and no escapes as range bounds. *)
Definition plain_bound (b : dbound) : bool := match b with BQuoted [_] => true | BQuoted _ => false | _ => true end.
Fixpoint plain_literals (e : dexp) : bool :=
  match e with
  | DQuoted [] => false
  | DRange a b => plain_bound a && plain_bound b
  | DGroup e | DHook _ e | DAnd e | DNot e | DPlus e | DStar e | DOpt e => plain_literals e
  | DSeq es | DAlt es => forallb plain_literals es
  | _ => true
  end.
