(** Theorems C62, the other direction: what the levels give, the parser
    answers. *)
From Verif Require Import SpecSafe SpecSession SpecTerm SpecKeys SpecLR ProofBasics ProofPeg ProofTree ProofTree2 ProofExact Programs Checks TheoremsPackrat TheoremsExact TheoremsLRTree TheoremsKeys SpecLevels.
From Verif Require Import ProofCycle ProofLevels TheoremsLevels TheoremsLevelsOrder.
Local Open Scope N_scope.

(** The parser answers [y], on every fuel from some point on: it says whether
    [y] is a tree, where that ends, and its nodes hold it. *)
Definition answers_tree {U} (pr : program U) (u0 : U) (s : list N) (r f : N) (y : option ptree) : Prop :=
  let found := match y with Some _ => true | None => false end in
  let last := match y with Some t => t_end t | None => 0 end in
  exists fuel0 p', (forall fuel, (fuel0 <= fuel)%nat -> parse_with pr u0 fuel (EVar r f) s = Ok (found, last, p')) /\
    denotes p' (TNode (pr_grammar pr) 0 0 true (prune_forest (match y with Some t => [TNode r 0 last true [t]] | None => [] end))).
Definition tree_room (y : option ptree) : Prop := match y with Some t => 3 + fsize (prune_forest [t]) <= u32_modulus | None => True end.

Section total.
  Context {U : Type} (pr : program U) (fn : N -> N) (plain : N -> bool) (Nr : N -> bool).
  Context (s : list N) (u0 : U) (Hs : N.of_nat (length s) < u32_modulus).
  Context (c : level) (ls : list level) (HO : levels_ok pr fn plain Nr (c :: ls)) (Hpp : plain_part pr fn plain Nr).
  Context (Hwf : program_wf pr fn) (Hnh : no_hooks pr).
  Notation L := (N.of_nat (length s)).
  Notation g := (grammar_of pr).
  Context (r f : N) (Hf : pr_fn pr f = Some (lv_call c)) (Hr : fn r = f).

  Lemma levels_total : (exists fuel0 a st, forall fuel, (fuel0 <= fuel)%nat -> run_entry pr u0 fuel (EVar r f) s = Ok (a, st)) ->
    (exists y, levels_give g s fn plain 0 (c :: ls) y) /\
    (forall y, levels_give g s fn plain 0 (c :: ls) y -> tree_room y -> answers_tree pr u0 s r f y).
  Proof using HO Hpp Hwf Hnh Hs Hf Hr.
    intros (f0 & [b q] & st & Hrun).
    destruct (C62_raw pr fn plain Nr s u0 Hs c ls HO Hpp Hwf Hnh r f f0 b q st Hf Hr (Hrun f0 (Nat.le_refl _))) as (l & i & j & F & y & Hd & Hy & He & Hq & HP).
    split; [by exists y|]. intros y' Hy' Hroom. rewrite <- (C62_unique pr fn plain Nr s c ls 0 _ _ HO Hy Hy') in Hroom |- *.
    destruct (C17_clear_false_prunes _ (pr_grammar pr) _ _ _ _ Hd) as (f1 & p' & Hc & Hd').
    { assert (2 <= u32_modulus) by done. rewrite HP. destruct y as [t|]; [|simpl; lia]. unfold tree_room in Hroom. cbn [prune_forest]. destruct (keep _); [|simpl; lia]. rewrite prune_eq.
      change (fsize [?x]) with (tsize x + 0). rewrite tsize_eq. lia. }
    assert (Eb : b = (match y with Some _ => true | None => false end) /\ q = (match y with Some t => t_end t | None => 0 end)).
    { destruct b, y as [t|]; cbn in He; try discriminate He; [by injection He as ->|by rewrite Hq]. }
    destruct Eb as [-> ->]. exists (f0 `max` f1)%nat, p'. rewrite HP in Hd'. split; [|done].
    intros fuel Hle. unfold parse_with. rewrite (Hrun fuel ltac:(lia)). cbn [rbind]. rewrite Hc by lia. done.
  Qed.

  (** If the keys suffice, the levels give exactly one answer, and the parser
      finds it, on every fuel from some point on. *)
  Context (nul : N -> bool) (lvl rk : N -> nat) (V R : gset N) (I C E : N) (n m : nat).
  Context (Hwg : well_founded_program pr nul lvl) (Hrk : ranked_program pr nul rk) (HB : key_budget pr L V R I C).
  Context (He : expr_wf pr fn (EVar r f)) (Hge : guarded nul lvl m true (EVar r f)) (Hre : ranked nul rk n true (EVar r f)).
  Context (HV : r ∈ V) (HE : lr_calls pr L (EVar r f) E).
  Theorem C62_answers : key_bound L (size V) (size R) I C E <= u32_modulus ->
    (exists y, levels_give g s fn plain 0 (c :: ls) y) /\
    (forall y, levels_give g s fn plain 0 (c :: ls) y -> tree_room y -> answers_tree pr u0 s r f y).
  Proof using All.
    intros Hk. apply levels_total.
    apply (C54_answers pr fn nul lvl rk s u0 Hs Hwf Hwg Hnh V R I C E (EVar r f) n m Hrk HB He Hge Hre); [..|done|done].
    - simpl. intros r' Hr'. by apply elem_of_list_singleton in Hr' as ->.
    - simpl. intros r' Hr'. by apply elem_of_nil in Hr'.
    - simpl. intros inv Hi. by apply elem_of_nil in Hi.
  Qed.
End total.

(** The hypotheses hold of the first crate of C64, on texts of up to 5000
    bytes. *)
Theorem C62_answers_instance s : N.of_nat (length s) <= 5000 ->
  (exists y, levels_give (grammar_of fact_last_program) s fno plo 0 [ord_terms; ord_facts] y) /\
  (forall y, levels_give (grammar_of fact_last_program) s fno plo 0 [ord_terms; ord_facts] y -> tree_room y -> answers_tree fact_last_program tt s 1 4 y).
Proof.
  intros Hl. assert (Hbig : 5000 < u32_modulus) by done.
  apply (levels_total fact_last_program fno plo nro s tt ltac:(lia) ord_terms [ord_facts] ord_levels ord_plain ord_wf (table_no_hooks _ _) 1 4); [vm_compute; reflexivity|reflexivity|].
  eapply (table_answers (order_table [4] false) 1 [(1, 4)] (EVar 1 4) 5 4 0); [vm_compute; reflexivity..| | |lia|].
  - vm_compute; reflexivity.
  - vm_compute; reflexivity.
  - etrans; [by apply key_bound_mono|]. vm_compute. discriminate.
Qed.
