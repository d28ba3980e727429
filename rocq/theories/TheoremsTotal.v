(** Theorems C24, C26 - C29: totality, and parsers with left recursion. *)
From Verif Require Import ProofComplete ProofFuel ProofTree2 ProofSafe SpecSession SpecTerm SpecLR Programs TheoremsKernel TheoremsPackrat.
From Verif Require Import ProofPegTotal Checks ProofTerm ProofLR.

(** ** C24: a parser generated from a well-formed grammar (no rule reaches
    itself before consuming, no repetition over something nullable) answers on
    every input. *)
Section plain_total.
  Context {U : Type} (pr : program U) (fn : N -> N) (nul : N -> bool) (lvl : N -> nat) (u0 : U).
  Context (Hok : program_ok pr fn) (Hnh : no_hooks pr) (Hwf : well_founded_program pr nul lvl).
  Context (R : gset N) (HR : labels_in pr R).

  Theorem C24_plain_total s entry n :
    1 + N.of_nat (size R) * (N.of_nat (length s) + 1) <= u32_modulus ->
    N.of_nat (length s) < u32_modulus ->
    allowed pr fn R entry -> guarded nul lvl n true entry ->
    exists fuel0 b q st, (forall fuel, (fuel0 <= fuel)%nat -> run_entry pr u0 fuel entry s = Ok ((b, q), st)) /\
      peg (grammar_of pr) s (pexp_of entry) 0 (if b then Some q else None).
  Proof using Hok Hnh Hwf HR.
    intros Hb Hs [He Hl] Hg.
    destruct (peg_total nul lvl (grammar_of pr) s (well_founded_program_grammar pr fn nul lvl Hok Hwf)
      (pexp_of entry) n true 0 (guarded_pguarded pr fn nul lvl n true entry He Hg) ltac:(lia)) as [o Ho].
    destruct (C11_packrat_complete pr fn s u0 Hs Hok Hnh R HR Hb entry o He Hl Ho) as (fuel0 & b & q & st & Eo & _ & H).
    exists fuel0, b, q, st. split; [done|]. by rewrite Eo.
  Qed.
End plain_total.

(** The grammar-DSL parser (parser/src/parse.rs:10-23). *)
Definition dsl_labels : gset N := list_to_set (dsl_R_Grammar :: concat (map labels dsl_table)).
Definition dsl_fn : N -> N := fn_of dsl_table [(dsl_R_Grammar, dsl_f_grammar)].

Lemma dsl_ok : program_ok dsl_program dsl_fn.
Proof. apply check_ok. vm_compute. done. Qed.
Lemma dsl_wf : well_founded_program dsl_program (nul_of dsl_table) (lvl_of dsl_table).
Proof. apply check_guarded. vm_compute. done. Qed.
Lemma dsl_labels_in : labels_in dsl_program dsl_labels.
Proof. apply check_labels. vm_compute. done. Qed.
Lemma dsl_labels_size : size dsl_labels = 30%nat.
Proof. vm_compute. done. Qed.
Lemma dsl_entry_ok : allowed dsl_program dsl_fn dsl_labels dsl_entry.
Proof.
  split; [apply expr_okb_ok; vm_compute; done|]. intros r Hr. apply elem_of_list_singleton in Hr as ->.
  apply elem_of_list_to_set. by left.
Qed.
Lemma dsl_entry_guarded : guarded (nul_of dsl_table) (lvl_of dsl_table) (S (lvl_of dsl_table dsl_f_grammar)) true dsl_entry.
Proof. apply guardedb_ok. vm_compute. done. Qed.

Theorem C24_dsl_total s :
  1 + 30 * (N.of_nat (length s) + 1) <= u32_modulus ->
  exists fuel0 b q st, (forall fuel, (fuel0 <= fuel)%nat -> run_entry dsl_program tt fuel dsl_entry s = Ok ((b, q), st)) /\
    peg (grammar_of dsl_program) s (pexp_of dsl_entry) 0 (if b then Some q else None).
Proof.
  intros Hb. eapply (C24_plain_total dsl_program dsl_fn _ _ tt dsl_ok (table_no_hooks _ _) dsl_wf dsl_labels dsl_labels_in).
  - by rewrite dsl_labels_size.
  - unfold u32_modulus in *. lia.
  - apply dsl_entry_ok.
  - apply dsl_entry_guarded.
Qed.
(** ... and so does parse, unless the unshared copy made by clear_false
    outgrows 2^32 nodes. *)
Theorem C24_dsl_parse_total s :
  1 + 30 * (N.of_nat (length s) + 1) <= u32_modulus ->
  exists fuel0, (exists b q p', forall fuel, (fuel0 <= fuel)%nat -> dsl_parse fuel s = Ok (b, q, p')) \/
    (forall fuel, (fuel0 <= fuel)%nat -> dsl_parse fuel s = Panic PKeyOverflow).
Proof.
  intros Hb. destruct (C24_dsl_total s Hb) as (f1 & b & q & st & H1 & _).
  assert (Hs : N.of_nat (length s) < u32_modulus) by (unfold u32_modulus in *; lia).
  destruct (C15_tree_is_trace dsl_program dsl_fn s tt Hs dsl_ok dsl_entry f1 b q st (proj1 dsl_entry_ok) (H1 f1 (le_n _))) as (F & Hd & _).
  pose proof (clear_false_total _ _ (fheight F) (pr_grammar dsl_program) _ _ _ _ Hd (le_n _)) as Hc.
  exists (Nat.max f1 (fheight F)). unfold dsl_parse, parse_with.
  assert (Hpar : forall fuel, (f1 `max` fheight F <= fuel)%nat ->
    match clear_false fuel (pr_grammar dsl_program) (cx_pub (st_ctx st)) with Ok _ => True | Panic x => x = PKeyOverflow | NoFuel => False end).
  { intros fuel Hf. pose proof (clear_false_total _ _ fuel (pr_grammar dsl_program) _ _ _ _ Hd ltac:(lia)) as H.
    destruct (clear_false fuel (pr_grammar dsl_program) (cx_pub (st_ctx st))); cbn [fine] in H; [exact I|apply H|exact H]. }
  destruct (clear_false (fheight F) (pr_grammar dsl_program) (cx_pub (st_ctx st))) as [p'|x|] eqn:E; cbn [fine] in Hc.
  - left. exists b, q, p'. intros fuel Hf. rewrite H1 by lia. cbn [rbind]. 
    by rewrite (clear_false_mono _ fuel _ _ _ E ltac:(done) ltac:(lia)).
  - right. intros fuel Hf. rewrite H1 by lia. cbn [rbind]. specialize (Hpar fuel Hf).
    destruct (clear_false fuel (pr_grammar dsl_program) (cx_pub (st_ctx st))) as [p'|y|] eqn:E'; cbn [rbind]; [|by subst|done].
    exfalso. destruct Hc as [_ Hsz]. destruct (clear_false_denotes _ _ _ _ _ _ _ _ Hd E') as [_ Hsz']. change (p_len (publisher_new (pr_grammar dsl_program))) with 1 in Hsz. lia.
  - done.
Qed.
(** Non-vacuous: a two-rule grammar file is within the bound and accepted. *)
Example C24_instance :
  let s := bytes "<G> = 'a', <B>; <B> Inline = ['a'..'z']*;" in
  1 + 30 * (N.of_nat (length s) + 1) <= u32_modulus /\
  match dsl_parse 200 s with Ok (b, q, _) => b = true /\ q = N.of_nat (length s) | _ => False end.
Proof. vm_compute. split; [by intros [=]|done]. Qed.
