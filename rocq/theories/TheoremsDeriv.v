(** Theorem C22: the returned tree contains the successful derivation. *)
From Verif Require Import SpecDeriv ProofComplete ProofFuel ProofPeg ProofTree2 ProofSafe SpecSession Programs TheoremsKernel TheoremsPackrat.

Lemma contains_empty F : contains F [].
Proof. induction F; by constructor. Qed.
Lemma contains_app F1 D1 F2 D2 : contains F1 D1 -> contains F2 D2 -> contains (F1 ++ F2) (D1 ++ D2).
Proof. induction 1; intros H2; simpl; [done|apply con_skip; auto|apply con_keep; auto]. Qed.
Lemma contains_skip F1 F2 D : contains F2 D -> contains (F1 ++ F2) D.
Proof. intros H. apply (contains_app F1 [] F2 D); [apply contains_empty|done]. Qed.
Lemma contains_prune F D : contains F D -> contains (prune_forest F) (prune_forest D).
Proof.
  induction 1 as [|t F D _ IH|r i j b F1 D1 F D _ IH1 _ IH]; [constructor| |].
  - cbn [prune_forest]. destruct (keep t); [by constructor|done].
  - cbn [prune_forest]. unfold keep. cbn [t_ok t_start t_end]. destruct (b && negb (i =? j)); [|done].
    rewrite !prune_eq. by apply con_keep.
Qed.

Section deriv_facts.
  Context (g : pgrammar) (s : list N).
  Lemma deriv_peg e i j D : deriv g s e i j D -> peg g s e i (Some j).
  Proof. induction 1; by econstructor. Qed.
  Lemma trace_deriv e i o F : trace g s e i o F ->
    match o with Some j => exists D, deriv g s e i j D /\ contains F D | None => True end.
  Proof.
    assert (Hp : forall e i o F, trace g s e i o F -> peg g s e i o) by apply trace_peg.
    induction 1; try done;
      try (destruct o as [?|]; [|done]);
      repeat match goal with H : exists _, _ |- _ => destruct H as (? & ? & ?) end;
      try (eexists; split; [econstructor; eauto|]; first [by apply contains_app|by apply contains_skip|done|by constructor|by apply contains_empty]; fail).
    all: try (destruct l as [r|]; cbn [record]; eexists; (split; [econstructor; eauto|]); [apply con_keep; [done|constructor]|done]).
  Qed.
  Lemma deriv_det e i j D : deriv g s e i j D -> forall j' D', deriv g s e i j' D' -> j = j' /\ D = D'.
  Proof.
    assert (Hp : forall e i j D o, deriv g s e i j D -> peg g s e i o -> o = Some j).
    { intros. symmetry. by eapply peg_det; [eapply deriv_peg|]. }
    induction 1; intros j' D' H';
      inversion H'; subst; try done; simplify_eq;
      repeat match goal with
      | H : peg _ _ ?e ?i None, H2 : deriv _ _ ?e ?i _ _ |- _ => pose proof (Hp _ _ _ _ _ H2 H); done
      | IH : forall j' D', deriv _ _ ?e ?i j' D' -> _, H : deriv _ _ ?e ?i _ _ |- _ => destruct (IH _ _ H); subst; clear IH
      end; try done.
  Qed.
  Lemma laid_le i j D : laid_out i j D -> i <= j.
  Proof. induction 1; lia. Qed.
  Lemma laid_weaken i i' j D : laid_out i' j D -> i <= i' -> laid_out i j D.
  Proof. intros [] ?; constructor; solve [done|lia]. Qed.
  Lemma laid_app i j k D1 D2 : laid_out i j D1 -> laid_out j k D2 -> laid_out i k (D1 ++ D2).
  Proof.
    intros H1 H2. revert k H2. induction H1 as [|i j r a z b C D Hi HC _ HD IH]; intros k' H2; simpl; [by eapply laid_weaken|].
    constructor; [done|done|by apply IH].
  Qed.
  Lemma deriv_laid e i j D : deriv g s e i j D -> laid_out i j D.
  Proof.
    induction 1; try (constructor; lia); try done; try (by eapply laid_app).
    constructor; [lia|done|constructor; lia].
  Qed.
  Lemma laid_prune i j D : laid_out i j D -> laid_out i j (prune_forest D).
  Proof.
    induction 1 as [|i j r a z b C D Hi HC IHC HD IH]; [by constructor|]. cbn [prune_forest].
    destruct (keep _); [rewrite prune_eq; by constructor|]. eapply laid_weaken; [done|]. apply laid_le in HC. lia.
  Qed.
End deriv_facts.

Section C22.
  Context {U : Type} (pr : program U) (fn : N -> N) (s : list N) (u0 : U).
  Context (Hs : N.of_nat (length s) < u32_modulus) (Hpr : program_ok pr fn).
  Notation g := (grammar_of pr).

  (** Whenever parse succeeds, the match has a derivation, and the returned
      tree contains its rule applications (the non-empty ones; parse drops
      empty nodes), each under its caller and in order. *)
  Theorem C22_derivation_in_tree entry fuel q p' r i j b G :
    expr_ok pr fn entry -> parse_with pr u0 fuel entry s = Ok (true, q, p') ->
    denotes p' (TNode r i j b G) ->
    exists D, deriv g s (pexp_of entry) 0 q D /\ contains G (prune_forest D) /\ laid_out 0 q (prune_forest D).
  Proof using Hpr Hs.
    intros He Hp Hd.
    destruct (C17_parse_tree pr fn s u0 entry fuel true q p' Hs Hpr He Hp) as (F & Htr & Hd').
    destruct (unfolds_det nothing nothing p') as [Hdet _].
    pose proof (Hdet _ _ Hd _ Hd') as E. simplify_eq.
    destruct (trace_deriv _ _ _ _ _ _ Htr) as (D & HD & HF).
    exists D. split; [done|]. split; [by apply contains_prune|]. by eapply laid_prune, deriv_laid.
  Qed.
  (** The derivation is unique: grammar, rule and input determine it. *)
  Theorem C22_derivation_unique e i j D j' D' :
    deriv g s e i j D -> deriv g s e i j' D' -> j = j' /\ D = D'.
  Proof. intros H H'. by eapply deriv_det. Qed.
  (** And it is a derivation of the PEG match. *)
  Theorem C22_derivation_matches e i j : peg g s e i (Some j) <-> exists D, deriv g s e i j D.
  Proof.
    split; [|intros (D & H); by eapply deriv_peg].
    intros H. destruct (peg_trace _ _ _ _ _ H) as [F Ht]. destruct (trace_deriv _ _ _ _ _ _ Ht) as (D & HD & _). by exists D.
  Qed.
End C22.

(** <Grammar> = (<B>, 'x') / (<B>, <C>) ;  <B> = 'a' ;  <C> = 'b'  on "ab": the
    derivation is B, C; the tree has a second B in front. *)
Definition c22b_program : program unit := table_program
  [ EChoice (ESub (ESeq (EVar 1 1) (ETerminal 120))) (ESub (ESeq (EVar 1 1) (EVar 2 2))); ETerminal 97; ETerminal 98 ] 0.
Lemma c22b_program_ok : program_ok c22b_program id.
Proof.
  intros f e Hf. cbn in Hf. unfold id.
  destruct (N.to_nat f) as [|[|[|m]]]; cbn in Hf; simplify_eq; cbn; eauto 10.
Qed.
Definition c22b_derivation := [TNode 0 0 2 true [TNode 1 0 1 true []; TNode 2 1 2 true []]].
Example C22_instance :
  (exists p', parse_with c22b_program tt 20 (EVar 0 0) (bytes "ab") = Ok (true, 2, p') /\
    TheoremsPackrat.read_tree 20 p' 0 = Some (TNode 0 0 0 true [TNode 0 0 2 true [TNode 1 0 1 true []; TNode 1 0 1 true []; TNode 2 1 2 true []]])) /\
  deriv (grammar_of c22b_program) (bytes "ab") (PRef (Some 0) 0) 0 2 c22b_derivation.
Proof.
  split; [eexists; split; vm_compute; reflexivity|].
  assert (HB : deriv (grammar_of c22b_program) (bytes "ab") (PRef (Some 1) 1) 0 1 [TNode 1 0 1 true []])
    by (econstructor; [reflexivity|by apply (dv_char _ _ 97 0)]).
  econstructor; [reflexivity|]. apply dv_alt_2.
  - eapply peg_seq_ok; [by eapply deriv_peg|]. by apply peg_char_fail.
  - apply (dv_seq _ _ _ _ 0 1 2 [_] [_] HB). econstructor; [reflexivity|by apply (dv_char _ _ 98 1)].
Qed.
