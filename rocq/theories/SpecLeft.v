(** Specification: which rules call which, and what left recursion is, on the
    abstract syntax of grammar files. *)
From stdpp Require Import base list option numbers relations.
From Coq Require Import NArith.
From Verif Require Export SpecDsl.

(** All rules referenced in a right-hand side. *)
Fixpoint refs (e : dexp) : list (list N) :=
  match e with
  | DRef n => [n]
  | DGroup e | DHook _ e | DAnd e | DNot e | DPlus e | DStar e | DOpt e => refs e
  | DSeq es | DAlt es => concat (map refs es)
  | _ => []
  end.

(** The references the left-recursion detector looks at: the first element of
    a sequence, every alternative but the last; never inside e* or e?. *)
Fixpoint lefts (e : dexp) : list (list N) :=
  match e with
  | DRef n => [n]
  | DGroup e | DHook _ e | DAnd e | DNot e | DPlus e => lefts e
  | DSeq es => match map lefts es with x :: _ => x | [] => [] end
  | DAlt es => concat (removelast (map lefts es))
  | _ => []
  end.

Section graph.
  Context (rules : list drule).
  (** The right-hand side of rule [n]: the last declaration counts. *)
  Definition body_of (n : list N) : option dexp :=
    match List.find (fun r => bool_decide (dr_name r = n)) (rev rules) with Some r => Some (dr_body r) | None => None end.
  Definition declared (n : list N) : Prop := exists e, body_of n = Some e.
  Definition calls (n m : list N) : Prop := exists e, body_of n = Some e /\ m ∈ refs e.
  Definition left_calls (n m : list N) : Prop := exists e, body_of n = Some e /\ m ∈ lefts e.
  (** No leftmost reference to a rule that is not declared. *)
  Definition lefts_declared : Prop := forall n m, left_calls n m -> declared m.
  (** [rtc] and [tc]: reflexive-transitive and transitive closure. *)
  Definition reaches : list N -> list N -> Prop := rtc left_calls.
  (** [n] can call itself through leftmost references. *)
  Definition on_left_cycle (n : list N) : Prop := tc left_calls n n.
  (** [n] is left-recursive or runs into left recursion before consuming. *)
  Definition left_recursive (n : list N) : Prop := exists m, reaches n m /\ on_left_cycle m.
End graph.
