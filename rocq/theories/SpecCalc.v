(** Specification of the calculators of examples 1, 3 and 4: arithmetic
    expressions, how they are written, and what their value is. *)
From Coq Require Import ZArith.
From Verif Require Export Base SpecPeg.
Local Open Scope N_scope.

Inductive binop := Add | Sub | Mul | Div | Pow.
(** A number as written: sign character of the integer part, its digits
    (character codes), the digits after a point, and the exponent: its letter,
    sign and digits. *)
Inductive arith :=
  | Num (sign : list N) (ds : list N) (frac : option (list N)) (expo : option (N * list N * list N))
  | Bin (o : binop) (l r : arith)
  | Paren (a : arith).

Definition sym (o : binop) : N := match o with Add => 43 | Sub => 45 | Mul => 42 | Div => 47 | Pow => 94 end.
Definition frac_text (f : option (list N)) : list N := match f with Some l => 46 :: l | None => [] end.
Definition expo_text (e : option (N * list N * list N)) : list N := match e with Some (c, sg, l) => c :: sg ++ l | None => [] end.
Fixpoint text (a : arith) : list N :=
  match a with
  | Num sg ds fr ex => sg ++ ds ++ frac_text fr ++ expo_text ex
  | Bin o l r => text l ++ sym o :: text r
  | Paren a => 40 :: text a ++ [41]
  end.

(** Binding strength: sums 0, products 1, powers 2, the rest 3. *)
Definition strength (o : binop) : nat := match o with Add | Sub => 0 | Mul | Div => 1 | Pow => 2 end.
Definition rank (a : arith) : nat := match a with Bin o _ _ => strength o | _ => 3 end.

Definition digit (c : N) : bool := (48 <=? c) && (c <=? 57).
Definition digits (l : list N) : bool := negb (bool_decide (l = [])) && forallb digit l.
Definition sign (l : list N) : bool := bool_decide (l = []) || bool_decide (l = [43]) || bool_decide (l = [45]).
(** No leading zero, except in the number 0 itself. *)
Definition no_leading_zero (l : list N) : bool := bool_decide (l = [48]) || negb (bool_decide (head l = Some 48)).

(** The three languages: sums of positive integers (example 1); signed
    integers, fractions and exponents with + - * / and parentheses (example
    3); the same with powers (example 4). *)
Inductive dialect := Sums | Basic | Full.
Definition allowed (d : dialect) (o : binop) : bool :=
  match d, o with
  | _, (Add | Sub) => true
  | (Basic | Full), (Mul | Div) => true
  | Full, Pow => true
  | _, _ => false
  end.
(** An expression as one writes it down: operators with their usual
    precedence, + - * / associating to the left and ^ to the right, brackets
    only where they stand. *)
Fixpoint well_formed (d : dialect) (a : arith) : bool :=
  match a with
  | Num sg ds fr ex =>
    digits ds && no_leading_zero ds &&
    match d with
    | Sums => bool_decide (sg = []) && bool_decide (fr = None) && bool_decide (ex = None) && negb (bool_decide (ds = [48]))
    | _ => sign sg && match fr with Some l => digits l | None => true end &&
           match ex with Some (c, sg, l) => (bool_decide (c = 69) || bool_decide (c = 101)) && sign sg && digits l | None => true end
    end
  | Bin o l r => allowed d o && well_formed d l && well_formed d r &&
      match o with
      | Add | Sub => Nat.leb 1 (rank r)
      | Mul | Div => Nat.leb 1 (rank l) && Nat.leb 2 (rank r)
      | Pow => Nat.leb 3 (rank l) && Nat.leb 2 (rank r)
      end
  | Paren a => match d with Sums => false | _ => well_formed d a end
  end.

(** ** Values *)
Local Open Scope Z_scope.
Definition fits (v : Z) : option Z := if (- 2 ^ 63 <=? v) && (v <? 2 ^ 63) then Some v else None.
Definition decimal (l : list N) : Z := foldl (fun v c => 10 * v + (Z.of_N c - 48)) 0 l.
(** One operation on 64-bit integers; [None] is an error.  The exponent of a
    power is reduced modulo 2^32, as the code does. *)
Definition operate (o : binop) (x y : Z) : option Z :=
  match o with
  | Add => fits (x + y)
  | Sub => fits (x - y)
  | Mul => fits (x * y)
  | Div => if y =? 0 then None else fits (Z.quot x y)
  | Pow => fits (x ^ (y mod 2 ^ 32))
  end.
Definition signed (sg : list N) (v : Z) : Z := if bool_decide (sg = [45%N]) then - v else v.
(** The value as the calculators compute it: every intermediate result must
    fit 64 bits; fractions and exponents are not supported. *)
Fixpoint value (a : arith) : option Z :=
  match a with
  | Num sg ds None None => fits (signed sg (decimal ds))
  | Num _ _ _ _ => None
  | Bin o l r => match value l, value r with Some x, Some y => operate o x y | _, _ => None end
  | Paren a => value a
  end.
(** The value in arithmetic, over unbounded integers, with division truncating
    towards zero and no power with a negative exponent. *)
Definition true_result (o : binop) (x y : Z) : option Z :=
  match o with
  | Add => Some (x + y) | Sub => Some (x - y) | Mul => Some (x * y)
  | Div => if y =? 0 then None else Some (Z.quot x y)
  | Pow => if y <? 0 then None else Some (x ^ y)
  end.
Fixpoint meaning (a : arith) : option Z :=
  match a with
  | Num sg ds None None => Some (signed sg (decimal ds))
  | Num _ _ _ _ => None
  | Bin o l r => match meaning l, meaning r with Some x, Some y => true_result o x y | _, _ => None end
  | Paren a => meaning a
  end.

(** Every exponent that is used is a number the code does not change. *)
Fixpoint small_exponents (a : arith) : Prop :=
  match a with
  | Num _ _ _ _ => True
  | Bin o l r => small_exponents l /\ small_exponents r /\
      (o = Pow -> forall y, value r = Some y -> 0 <= y < 2 ^ 32)
  | Paren a => small_exponents a
  end.
(** Every part of the expression has a meaning within 64 bits, and every
    exponent is below 2^32. *)
Fixpoint parts_fit (a : arith) : Prop :=
  match a with
  | Num _ _ _ _ => exists v, meaning a = Some v /\ - 2 ^ 63 <= v < 2 ^ 63
  | Bin o l r => parts_fit l /\ parts_fit r /\ (exists v, meaning a = Some v /\ - 2 ^ 63 <= v < 2 ^ 63) /\
      (o = Pow -> forall y, meaning r = Some y -> 0 <= y < 2 ^ 32)
  | Paren a => parts_fit a
  end.

(** The answer of an evaluator agrees with a value: it is the value, or where
    there is none the program panics (for another reason than running out of
    the 2^32 keys of the syntax tree). *)
Definition agrees (r : res Z) (o : option Z) : Prop :=
  match o with Some v => r = Ok v | None => exists p, r = Panic p /\ p <> PKeyOverflow end.
