(** The example parsers shipped in the repository. *)
From Verif Require Import ProofComplete ProofFuel ProofTree2 ProofSafe SpecSession SpecTerm SpecLR Programs TheoremsKernel TheoremsPackrat.
From Verif Require Import ProofPegTotal Checks Stratify SpecExamples ProofTerm ProofLR TheoremsLR.

(** ** The meaning of the examples *)
Lemma grammar_agrees {U} (pr : program U) S table gr (G : pgrammar) :
  pr = table_program table gr ->
  Forall (fun x => lr_grammar pr S (N.of_nat (fst x)) = G (N.of_nat (fst x))) (imap pair table) ->
  forall A body, lr_grammar pr S A = Some body -> G A = Some body.
Proof.
  intros -> H A body HA. pose proof HA as HA'. unfold lr_grammar in HA. simpl in HA.
  destruct (table !! N.to_nat A) as [e|] eqn:E; [|done].
  rewrite list.Forall_forall in H. specialize (H (N.to_nat A, e)). simpl in H. rewrite N2Nat.id in H.
  rewrite <- H; [done|]. apply elem_of_list_lookup. exists (N.to_nat A). by rewrite list_lookup_imap, E.
Qed.
Lemma peg_more g g' s e i o : (forall A body, g A = Some body -> g' A = Some body) -> peg g s e i o -> peg g' s e i o.
Proof. intros H. induction 1; try (by constructor; auto); try (by econstructor; eauto). Qed.

(** The rules of a crate, called in any way a user can. *)
Section meaning.
  Context {U : Type} (pr : program U) (S : strat) (table : list expr) (gr : N) (G : pgrammar) (fn : N -> N).
  Context (nul : N -> bool) (lvl : N -> nat) (R : gset N).
  Context (Hpr : pr = table_program table gr) (HS : stratified pr S).
  Context (HG : forall A body, lr_grammar pr S A = Some body -> G A = Some body).
  Context (Hwf : program_wf pr fn) (Hgd : well_founded_program pr nul lvl) (HR : lr_labels_in pr R).

  Definition means (entry : expr) : Prop := forall s u0,
    N.of_nat (length s) < u32_modulus ->
    exists fuel0,
      (exists b q st, (forall fuel, (fuel0 <= fuel)%nat -> run_entry pr u0 fuel entry s = Ok ((b, q), st)) /\
        peg G s (pexp_of entry) 0 (if b then Some q else None)) \/
      (forall fuel, (fuel0 <= fuel)%nat -> run_entry pr u0 fuel entry s = Panic PKeyOverflow).

  Lemma entry_means entry n :
    top_call pr S entry -> expr_wf pr fn entry -> guarded nul lvl n true entry ->
    (forall r, r ∈ lr_labels entry -> r ∈ R) -> means entry.
  Proof using Hpr HS HG Hwf Hgd HR.
    intros Htop Hwe Hge HRe s u0 Hs.
    assert (Hnh : no_hooks pr) by (subst pr; apply table_no_hooks).
    destruct (C27_answers_or_key_exhaustion pr fn nul lvl s u0 Hs Hwf Hgd R _ entry n 0 Hnh HR HRe
      (session_fresh _ _ _ _) Hwe Hge ltac:(lia)) as [m [(r & st' & H)|H]].
    - exists m. left. destruct r as [b q]. exists b, q, st'. split; [done|].
      eapply peg_more; [exact HG|].
      pose proof (C29_left_recursion_meaning pr S s u0 Hs HS _ m entry 0 b q st' (session_fresh _ _ _ _) Htop) as HM.
      apply HM. by apply H.
    - exists m. right. done.
  Qed.
End meaning.

Lemma lr_labels_table {U} table gr extra : lr_labels_in (table_program (U:=U) table gr) (list_to_set (extra ++ concat (map lr_labels table))).
Proof.
  intros f body r Hf Hr. simpl in Hf. apply elem_of_list_to_set, elem_of_app. right.
  apply elem_of_list_In, in_concat. exists (lr_labels body). split; [|by apply elem_of_list_In].
  apply in_map, elem_of_list_In, elem_of_list_lookup. eauto.
Qed.

(** One check per crate. *)
Lemma example_means {U} table gr entries groups (G : pgrammar) entry :
  let pr := table_program (U:=U) table gr in
  let S := strat_of table entries groups in
  let fn := fn_of table entries in
  forallb (fun x => strat_checkb (U:=U) table gr S (map fst groups) (N.of_nat (fst x)) (snd x)) (imap pair table) = true ->
  Forall (fun x => lr_grammar pr S (N.of_nat (fst x)) = G (N.of_nat (fst x))) (imap pair table) ->
  forallb (fun x => expr_wfb pr fn (snd x)) (imap pair table) = true ->
  forallb (fun x => guardedb (nul_of table) (lvl_of table) (lvl_of table (N.of_nat (fst x))) true (snd x) &&
      (negb (nullable (nul_of table) (pexp_of (snd x))) || nul_of table (N.of_nat (fst x)))) (imap pair table) = true ->
  typedb pr S 0 None false entry = true -> expr_wfb pr fn entry = true ->
  guardedb (nul_of table) (lvl_of table) 100 true entry = true ->
  means pr G entry.
Proof.
  intros pr S fn H1 H2 H3 H4 H5 H6 H7.
  eapply (entry_means pr S table gr G fn (nul_of table) (lvl_of table) (list_to_set (lr_labels entry ++ concat (map lr_labels table))) eq_refl).
  - by apply strat_of_ok.
  - by eapply grammar_agrees.
  - by apply check_wf.
  - by apply check_guarded.
  - apply lr_labels_table.
  - by apply typedb_ok.
  - by apply expr_wfb_ok.
  - apply guardedb_ok. exact H7.
  - intros r Hr. apply elem_of_list_to_set, elem_of_app. by left.
Qed.
(** ** C41: the examples mean what their iterative reading says. *)
Theorem C41_example_1 : means ex1_program s1_spec ex1_entry.
Proof. apply (example_means _ _ [(ex1_R_Grammar, ex1_f_grammar)] [(ex1_R_Expr, [ex1_R_Addition; ex1_R_Expr; ex1_R_Subtraction])]);
  [vm_compute; reflexivity|repeat (constructor; [vm_compute; reflexivity|]); constructor|vm_compute; reflexivity..]. Qed.
Theorem C41_example_3 : means ex3_program s3_spec ex3_entry.
Proof. apply (example_means _ _ [(ex3_R_Grammar, ex3_f_grammar)] [(ex3_R_Expr, [ex3_R_Addition; ex3_R_Expr; ex3_R_Subtraction]); (ex3_R_Term, [ex3_R_Division; ex3_R_Multiplication; ex3_R_Term])]);
  [vm_compute; reflexivity|repeat (constructor; [vm_compute; reflexivity|]); constructor|vm_compute; reflexivity..]. Qed.
Theorem C41_example_4 : means ex4_program s4_spec ex4_entry.
Proof. apply (example_means _ _ [(ex4_R_Grammar, ex4_f_grammar)] [(ex4_R_Expr, [ex4_R_Addition; ex4_R_Expr; ex4_R_Subtraction]); (ex4_R_Term, [ex4_R_Division; ex4_R_Multiplication; ex4_R_Term])]);
  [vm_compute; reflexivity|repeat (constructor; [vm_compute; reflexivity|]); constructor|vm_compute; reflexivity..]. Qed.
Theorem C41_example_5 : means ex5_program s5_spec ex5_entry.
Proof. apply (example_means _ _ [(ex5_R_Grammar, ex5_f_grammar)] [(ex5_R_Expr, [ex5_R_Expr])]);
  [vm_compute; reflexivity|repeat (constructor; [vm_compute; reflexivity|]); constructor|vm_compute; reflexivity..]. Qed.
Theorem C41_example_6 : means ex6_program s6_spec ex6_entry.
Proof. apply (example_means _ _ [(ex6_R_Grammar, ex6_f_grammar)] [(ex6_R_Term, [ex6_R_Term]); (ex6_R_Fact, [ex6_R_Fact])]);
  [vm_compute; reflexivity|repeat (constructor; [vm_compute; reflexivity|]); constructor|vm_compute; reflexivity..]. Qed.
Theorem C41_example_10 : means ex10_program s10_spec ex10_entry.
Proof. apply (example_means _ _ [(ex10_R_Grammar, ex10_f_grammar)] [(ex10_R_Lr, [ex10_R_Lr])]);
  [vm_compute; reflexivity|repeat (constructor; [vm_compute; reflexivity|]); constructor|vm_compute; reflexivity..]. Qed.
