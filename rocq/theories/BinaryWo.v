(** generator/src/binary_wo.rs: the out tree and the statements emitted from it. *)
From Verif Require Export GenTree.

(** binary_wo.rs:6-28 — enum Reference. *)
Inductive reference : Type :=
  | RTerminal (contents : list N)
  | RVarName (n : name)
  | ROneOrMore | RZeroOrMore | ROptional | RAndPredicate | RNotPredicate | RSubexpression
  | ROrderedChoice | RSequence
  | RExec | RNull
  | ROrderedChoiceMatchRange (a b : N)
  | RStringTerminal (chars : list N)             (* code points *)
  | RStringTerminalAsciiOpt (chars : list N)
  | RInlinedRule (n : name)
  | RLeftRecursiveRule (n : name) (involved : list name)
  | RHookedCall (n : name).

(** binary_wo.rs:444-448 — struct BinaryNode. *)
Record bnode := BNode { b_ref : reference; b_lhs : option N; b_rhs : option N }.

(** binary_wo.rs:30-32: nodes in push order. *)
Definition btree := list bnode.

(** binary_wo.rs:43-53 — push.  Simplification: the truncation [len as u32] is
    not modelled (fewer than 2^32 nodes). *)
Definition push (t : btree) (r : reference) (lhs rhs : option N) : N * btree :=
  (N.of_nat (length t), t ++ [BNode r lhs rhs]).
(** binary_wo.rs:35-41 — new. *)
Definition btree_new : btree := [BNode RNull None None].

(** The lines of code emitted, one constructor per format string. *)
Inductive stmt : Type :=
  | SString (k : N) (chars : list N)               (* binary_wo.rs:129-143 *)
  | SStringAscii (k : N) (chars : list N)          (* 145-165 *)
  | SRange (k a b : N)                             (* 167-181 *)
  | SAnd (k a : N) | SNot (k a : N)                (* 183-216 *)
  | SPlus (k a : N) | SStar (k a : N)              (* 218-249 *)
  | SHook (k : N) (h : name) (a : N)               (* 251-266 *)
  | SSub (k a : N) | SOpt (k a : N)                (* 267-298 *)
  | SChoice (k a b : N) | SSeq (k a b : N)         (* 300-334 *)
  | STerminal (k : N) (contents : list N)          (* 335-349 *)
  | SVar (k : N) (rule fn : name)                  (* 350-374 *)
  | SInvolved (rules : list name)                  (* 375-402 *)
  | SLR (k : N) (rule fn : name)                   (* 403-423 *)
  | SInline (k : N) (fn : name)                    (* 425-441 *)
  | SExec (k : N).                                 (* 114-127 *)

(** [map] with early panic. *)
Fixpoint map_res {A B} (f : A -> res B) (l : list A) : res (list B) :=
  match l with [] => Ok [] | x :: l => let! y := f x in let! r := map_res f l in Ok (y :: r) end.

Definition expect_key (o : option N) : res N := match o with Some k => Ok k | None => Panic PExplicit end.

(** binary_wo.rs:85-112 — match_ref and the per-reference emitters (lines as
    above).  They return the statements pushed on the stack; every emitter
    returns its own index as the key.  Recursion follows keys: fuel. *)
Fixpoint match_ref (fuel : nat) (t : btree) (k : N) : res (list stmt) :=
  match fuel with
  | O => NoFuel
  | S fuel =>
    match t !! N.to_nat k with
    | None => Panic PIndex
    | Some n =>
      let unary (mk : N -> stmt) :=
        let! a := expect_key (b_lhs n) in
        let! l := match_ref fuel t a in
        Ok (l ++ [mk a]) in
      let binary (mk : N -> N -> stmt) :=
        let! a := expect_key (b_lhs n) in
        let! la := match_ref fuel t a in
        let! b := expect_key (b_rhs n) in
        let! lb := match_ref fuel t b in
        Ok (la ++ lb ++ [mk a b]) in
      match b_ref n with
      | RAndPredicate => unary (SAnd k)
      | RNotPredicate => unary (SNot k)
      | ROptional => unary (SOpt k)
      | ROneOrMore => unary (SPlus k)
      | RZeroOrMore => unary (SStar k)
      | RSubexpression => unary (SSub k)
      | RHookedCall h => unary (SHook k h)
      | ROrderedChoice => binary (SChoice k)
      | RSequence => binary (SSeq k)
      | RTerminal c => Ok [STerminal k c]
      | RVarName n => let! r := rule_name n in Ok [SVar k r (to_lowercase n)]
      | ROrderedChoiceMatchRange a b => Ok [SRange k a b]
      | RStringTerminal c => Ok [SString k c]
      | RStringTerminalAsciiOpt c => Ok [SStringAscii k c]
      | RInlinedRule n => Ok [SInline k (to_lowercase n)]
      | RLeftRecursiveRule n inv =>
        let! inv' := map_res rule_name inv in
        let! r := rule_name n in
        Ok [SInvolved inv'; SLR k r (to_lowercase n)]
      | RExec | RNull => Panic PExplicit
      end
    end
  end.

(** binary_wo.rs:79-83, 114-127 — to_string and to_string_kernel. *)
Definition btree_to_string (fuel : nat) (t : btree) (k : N) : res (list stmt) :=
  match t !! N.to_nat k with
  | None => Panic PIndex
  | Some n =>
    match b_ref n with
    | RExec => let! a := expect_key (b_lhs n) in
               let! l := match_ref fuel t a in Ok (l ++ [SExec a])
    | _ => Panic PExplicit
    end
  end.
