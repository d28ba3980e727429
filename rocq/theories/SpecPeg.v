(** Specification: parsing expression grammars (Ford 2004), memo-free.

    This file does not mention the implementation model.  A grammar maps
    nonterminals to parsing expressions; [peg g s e i o] says that [e],
    started at byte position [i] of [s], has outcome [o]: [Some j] = success
    having consumed [s[i..j)], [None] = failure. *)
From stdpp Require Import base list option numbers.
From Coq Require Import NArith.
Local Open Scope N_scope.

Inductive pexp : Type :=
  | PChar (c : N)
  | PStr (l : list N)
  | PRange (a b : N)
  | PSeq (e1 e2 : pexp)
  | PAlt (e1 e2 : pexp)          (* prioritised choice *)
  | PAnd (e : pexp)              (* &e *)
  | PNot (e : pexp)              (* !e *)
  | PPlus (e : pexp)
  | PStar (e : pexp)
  | POpt (e : pexp)
  | PRef (label : option N) (A : N).   (* nonterminal A; a label names the tree node it builds *)

Definition pgrammar := N -> option pexp.

(** [l] occurs in [s] at position [i]. *)
Definition occurs_at (s : list N) (i : N) (l : list N) : Prop :=
  take (length l) (drop (N.to_nat i) s) = l.

Section peg.
  Context (g : pgrammar) (s : list N).

  Inductive peg : pexp -> N -> option N -> Prop :=
  | peg_char_ok c i : s !! N.to_nat i = Some c -> peg (PChar c) i (Some (i + 1))
  | peg_char_fail c i : s !! N.to_nat i <> Some c -> peg (PChar c) i None
  | peg_range_ok a b x i : s !! N.to_nat i = Some x -> a <= x <= b -> peg (PRange a b) i (Some (i + 1))
  | peg_range_fail a b i :
      (forall x, s !! N.to_nat i = Some x -> ~ (a <= x <= b)) -> peg (PRange a b) i None
  | peg_str_ok l i : occurs_at s i l -> peg (PStr l) i (Some (i + N.of_nat (length l)))
  | peg_str_fail l i : ~ occurs_at s i l -> peg (PStr l) i None
  | peg_seq_ok e1 e2 i j o : peg e1 i (Some j) -> peg e2 j o -> peg (PSeq e1 e2) i o
  | peg_seq_fail e1 e2 i : peg e1 i None -> peg (PSeq e1 e2) i None
  | peg_alt_1 e1 e2 i j : peg e1 i (Some j) -> peg (PAlt e1 e2) i (Some j)
  | peg_alt_2 e1 e2 i o : peg e1 i None -> peg e2 i o -> peg (PAlt e1 e2) i o
  | peg_and_ok e i j : peg e i (Some j) -> peg (PAnd e) i (Some i)
  | peg_and_fail e i : peg e i None -> peg (PAnd e) i None
  | peg_not_ok e i : peg e i None -> peg (PNot e) i (Some i)
  | peg_not_fail e i j : peg e i (Some j) -> peg (PNot e) i None
  | peg_star_stop e i : peg e i None -> peg (PStar e) i (Some i)
  | peg_star_more e i j o : peg e i (Some j) -> peg (PStar e) j o -> peg (PStar e) i o
  | peg_plus_fail e i : peg e i None -> peg (PPlus e) i None
  | peg_plus_ok e i j o : peg e i (Some j) -> peg (PStar e) j o -> peg (PPlus e) i o
  | peg_opt_some e i j : peg e i (Some j) -> peg (POpt e) i (Some j)
  | peg_opt_none e i : peg e i None -> peg (POpt e) i (Some i)
  | peg_ref l A body i o : g A = Some body -> peg body i o -> peg (PRef l A) i o.
End peg.

(** Trees: label, start, end, success flag, children in order. *)
Inductive ptree : Type := TNode (label start end_ : N) (ok : bool) (children : list ptree).

Definition t_label (t : ptree) : N := let 'TNode l _ _ _ _ := t in l.
Definition t_start (t : ptree) : N := let 'TNode _ i _ _ _ := t in i.
Definition t_end (t : ptree) : N := let 'TNode _ _ j _ _ := t in j.
Definition t_ok (t : ptree) : bool := let 'TNode _ _ _ b _ := t in b.
Definition t_children (t : ptree) : list ptree := let 'TNode _ _ _ _ c := t in c.

(** What a memo-free recursive-descent parser records: [trace e i o F] is
    [peg e i o] where moreover [F] lists, in order, one tree for every labelled
    nonterminal that was tried directly under [e] (also under failed
    alternatives and predicates). A failed attempt at [i] is recorded with the
    empty span [i,i]. *)
Definition node_of (label i : N) (o : option N) (F : list ptree) : ptree :=
  match o with
  | Some j => TNode label i j true F
  | None => TNode label i i false F
  end.

Definition record (l : option N) (i : N) (o : option N) (F : list ptree) : list ptree :=
  match l with Some r => [node_of r i o F] | None => F end.

Section trace.
  Context (g : pgrammar) (s : list N).

  Inductive trace : pexp -> N -> option N -> list ptree -> Prop :=
  | tr_char_ok c i : s !! N.to_nat i = Some c -> trace (PChar c) i (Some (i + 1)) []
  | tr_char_fail c i : s !! N.to_nat i <> Some c -> trace (PChar c) i None []
  | tr_range_ok a b x i : s !! N.to_nat i = Some x -> a <= x <= b -> trace (PRange a b) i (Some (i + 1)) []
  | tr_range_fail a b i :
      (forall x, s !! N.to_nat i = Some x -> ~ (a <= x <= b)) -> trace (PRange a b) i None []
  | tr_str_ok l i : occurs_at s i l -> trace (PStr l) i (Some (i + N.of_nat (length l))) []
  | tr_str_fail l i : ~ occurs_at s i l -> trace (PStr l) i None []
  | tr_seq_ok e1 e2 i j o F1 F2 :
      trace e1 i (Some j) F1 -> trace e2 j o F2 -> trace (PSeq e1 e2) i o (F1 ++ F2)
  | tr_seq_fail e1 e2 i F1 : trace e1 i None F1 -> trace (PSeq e1 e2) i None F1
  | tr_alt_1 e1 e2 i j F1 : trace e1 i (Some j) F1 -> trace (PAlt e1 e2) i (Some j) F1
  | tr_alt_2 e1 e2 i o F1 F2 :
      trace e1 i None F1 -> trace e2 i o F2 -> trace (PAlt e1 e2) i o (F1 ++ F2)
  | tr_and_ok e i j F : trace e i (Some j) F -> trace (PAnd e) i (Some i) F
  | tr_and_fail e i F : trace e i None F -> trace (PAnd e) i None F
  | tr_not_ok e i F : trace e i None F -> trace (PNot e) i (Some i) F
  | tr_not_fail e i j F : trace e i (Some j) F -> trace (PNot e) i None F
  | tr_star_stop e i F : trace e i None F -> trace (PStar e) i (Some i) F
  | tr_star_more e i j o F1 F2 :
      trace e i (Some j) F1 -> trace (PStar e) j o F2 -> trace (PStar e) i o (F1 ++ F2)
  | tr_plus_fail e i F : trace e i None F -> trace (PPlus e) i None F
  | tr_plus_ok e i j o F1 F2 :
      trace e i (Some j) F1 -> trace (PStar e) j o F2 -> trace (PPlus e) i o (F1 ++ F2)
  | tr_opt_some e i j F : trace e i (Some j) F -> trace (POpt e) i (Some j) F
  | tr_opt_none e i F : trace e i None F -> trace (POpt e) i (Some i) F
  | tr_ref l A body i o F :
      g A = Some body -> trace body i o F -> trace (PRef l A) i o (record l i o F).
End trace.

(** Removing failed and empty matches, together with everything below them. *)
Definition keep (t : ptree) : bool := t_ok t && negb (t_start t =? t_end t).

Fixpoint prune (t : ptree) : ptree :=
  let 'TNode l i j b F := t in
  TNode l i j b ((fix go (F : list ptree) : list ptree :=
    match F with
    | [] => []
    | t :: F => if keep t then prune t :: go F else go F
    end) F).
Fixpoint prune_forest (F : list ptree) : list ptree :=
  match F with
  | [] => []
  | t :: F => if keep t then prune t :: prune_forest F else prune_forest F
  end.

(** [subtree t u]: [t] occurs in [u] (reflexive). *)
Inductive subtree (t : ptree) : ptree -> Prop :=
  | sub_refl : subtree t t
  | sub_child l i j b F u : u ∈ F -> subtree t u -> subtree t (TNode l i j b F).

Fixpoint tsize (t : ptree) : N :=
  let 'TNode _ _ _ _ F := t in
  1 + (fix go (F : list ptree) : N := match F with [] => 0 | t :: F => tsize t + go F end) F.
Fixpoint fsize (F : list ptree) : N := match F with [] => 0 | t :: F => tsize t + fsize F end.
