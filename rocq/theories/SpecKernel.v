(** Reference behaviour of repetition over an arbitrary closure. *)
From Verif Require Export ParserCore.

(** [chain f k p st n q st']: [n] consecutive successes of [f], each started
    where the one before stopped, lead from [p] to [q]. *)
Inductive chain {U} (f : parser U) (k : N) : N -> pstate U -> nat -> N -> pstate U -> Prop :=
  | chain_nil p st : chain f k p st 0 p st
  | chain_cons p st p1 st1 n q st' :
      f k p st = Ok ((true, p1), st1) -> chain f k p1 st1 n q st' -> chain f k p st (S n) q st'.
