(** An executable reader for the concrete syntax of SpecDsl, used to exhibit
    the rules that concrete files spell.  Only its soundness matters:
    [read_rules s = Some rules -> file_text s rules]. *)
From stdpp Require Import base list option numbers.
From Coq Require Import NArith.
From Verif Require Import SpecPeg.
From Verif Require Export SpecDsl.
Local Open Scope N_scope.

Definition is_blank (c : N) : bool := (c =? 32) || (c =? 10) || (c =? 13) || (c =? 9).
Definition is_letter (c : N) : bool := ((97 <=? c) && (c <=? 122)) || ((65 <=? c) && (c <=? 90)).
Definition is_digit (c : N) : bool := (48 <=? c) && (c <=? 57).
Definition is_hex (c : N) : bool := is_digit c || ((65 <=? c) && (c <=? 70)).
Fixpoint span (p : N -> bool) (l : list N) : list N * list N :=
  match l with
  | [] => ([], [])
  | c :: r => if p c then let '(a, b) := span p r in (c :: a, b) else ([], l)
  end.
Definition skip (l : list N) : list N := snd (span is_blank l).
Definition expect (c : N) (l : list N) : option (list N) :=
  match l with x :: r => if x =? c then Some r else None | [] => None end.
Definition read_name (l : list N) : option (list N * list N) :=
  match l with
  | c :: r => if is_letter c then let '(a, b) := span (fun c => is_letter c || (c =? 95)) r in Some (c :: a, b) else None
  | [] => None
  end.
Definition read_quoted (l : list N) : option (list N * list N) :=
  match l with
  | x :: r =>
    if negb (x =? 39) then None else
    match r with
    | c :: y :: r' =>
      if (y =? 39) && (c <=? 255) then Some ([c], r') else
      if c =? 39 then Some ([], y :: r') else
      match r' with
      | z :: r'' => if (c =? 92) && ((y =? 110) || (y =? 114) || (y =? 116)) && (z =? 39) then Some ([92; y], r'') else None
      | [] => None
      end
    | [c] => if c =? 39 then Some ([], []) else None
    | [] => None
    end
  | [] => None
  end.
Definition read_hex (l : list N) : option (list N * list N) :=
  r ← expect 48 l; r ← expect 120 r; match span is_hex r with ([], _) => None | (ds, r) => Some (ds, r) end.
Definition read_int (l : list N) : option (list N * list N) :=
  match l with
  | c :: r => if (49 <=? c) && (c <=? 57) then let '(a, b) := span is_digit r in Some (c :: a, b) else None
  | [] => None
  end.
Definition read_bound (l : list N) : option (dbound * list N) :=
  match read_quoted l with
  | Some (c, r) => Some (BQuoted c, r)
  | None => match read_hex l with
    | Some (ds, r) => Some (BHex ds, r)
    | None => '(ds, r) ← read_int l; Some (BInt ds, r)
    end end.
Definition read_string (l : list N) : option (list N * list N) :=
  let '(a, r) := span (fun c => negb (c =? 34) && (c <=? 255)) l in
  r ← expect 34 r; if (2 <=? length a)%nat then Some (a, r) else None.

Fixpoint read_rhs (fuel : nat) (l : list N) : option (dexp * list N) :=
  match fuel with 0%nat => None | S fuel =>
    '(e, r) ← read_atom fuel (skip l);
    match r with
    | c :: r' =>
      if c =? 44 then '(es, r'') ← read_items fuel 44 (skip r'); Some (DSeq (e :: es), r'') else
      if c =? 47 then '(es, r'') ← read_items fuel 47 (skip r'); Some (DAlt (e :: es), r'') else Some (e, r)
    | [] => Some (e, r)
    end
  end
with read_items (fuel : nat) (sep : N) (l : list N) : option (list dexp * list N) :=
  match fuel with 0%nat => None | S fuel =>
    '(e, r) ← read_atom fuel l;
    match r with
    | c :: r' => if c =? sep then '(es, r'') ← read_items fuel sep (skip r'); Some (e :: es, r'') else Some ([e], r)
    | [] => Some ([e], r)
    end
  end
with read_atom (fuel : nat) (l : list N) : option (dexp * list N) :=
  match fuel with 0%nat => None | S fuel =>
    match l with
    | [] => None
    | c :: r =>
      if c =? 38 then '(e, r) ← read_nucleus fuel r; Some (DAnd e, skip r) else
      if c =? 33 then '(e, r) ← read_nucleus fuel r; Some (DNot e, skip r) else
      '(e, r) ← read_nucleus fuel l;
      match skip r with
      | c :: r' =>
        if c =? 43 then Some (DPlus e, skip r') else
        if c =? 42 then Some (DStar e, skip r') else
        if c =? 63 then Some (DOpt e, skip r') else Some (e, skip r)
      | [] => Some (e, [])
      end
    end
  end
with read_nucleus (fuel : nat) (l : list N) : option (dexp * list N) :=
  match fuel with 0%nat => None | S fuel =>
    match l with
    | [] => None
    | c :: r =>
      if c =? 91 then
        '(a, r) ← read_bound (skip r); r ← expect 46 r; r ← expect 46 r; '(b, r) ← read_bound r; r ← expect 93 (skip r);
        Some (DRange a b, skip r)
      else if c =? 40 then '(e, r) ← read_rhs fuel r; r ← expect 41 r; Some (DGroup e, skip r)
      else if c =? 34 then '(a, r) ← read_string r; Some (DString a, skip r)
      else if c =? 60 then '(n, r) ← read_name r; r ← expect 62 r; Some (DRef n, skip r)
      else if c =? 39 then '(q, r) ← read_quoted l; Some (DQuoted q, skip r)
      else if c =? 48 then '(ds, r) ← read_hex l; Some (DHexLit ds, skip r)
      else if is_letter c then '(n, r) ← read_name l; r ← expect 40 r; '(e, r) ← read_rhs fuel r; r ← expect 41 r; Some (DHook n e, skip r)
      else '(ds, r) ← read_int l; Some (DIntLit ds, skip r)
    end
  end.
Fixpoint read_comments (fuel : nat) (l : list N) : option (list (list N) * list N) :=
  match fuel with 0%nat => None | S fuel =>
    match expect 35 (skip l) with
    | None => Some ([], l)
    | Some r =>
      let '(a, r) := span (fun c => negb (c =? 35) && (c <=? 255)) r in
      r ← expect 35 r; '(cs, r) ← read_comments fuel (skip r); Some (a :: cs, r)
    end
  end.
Fixpoint expects (k : list N) (l : list N) : option (list N) :=
  match k with [] => Some l | c :: k => r ← expect c l; expects k r end.
Definition read_rule (fuel : nat) (l : list N) : option (drule * list N) :=
  r ← expect 60 l; '(n, r) ← read_name r; r ← expect 62 r;
  let '(il, r) := match expects keyword_inline (skip r) with Some r' => (true, skip r') | None => (false, r) end in
  r ← expect 61 (skip r); '(e, r) ← read_rhs fuel (skip r); r ← expect 59 (skip r);
  '(cs, r) ← read_comments fuel (skip r); Some (DRule n il e cs, r).
Fixpoint read_rule_list (fuel : nat) (l : list N) : option (list drule) :=
  match fuel with 0%nat => None | S fuel' =>
    match l with
    | [] => Some []
    | _ :: _ =>
      match read_rule fuel l with
      | Some (r, l) => rs ← read_rule_list fuel' l; Some (r :: rs)
      | None => match skip l with [] => Some [] | _ => None end
      end
    end
  end.
Definition read_rules (l : list N) : option (list drule) :=
  match read_rule_list (length l) l with Some (r :: rs) => Some (r :: rs) | _ => None end.
