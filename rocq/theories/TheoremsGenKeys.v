(** Theorems C56: how long an input may be before a parser generated from a
    grammar file with left recursion can run out of node keys. *)
From Verif Require Import SpecGenerator SpecMeaning SpecProgram SpecCfg SpecSession SpecLR SpecTerm SpecKeys ProofPeg ProofTree ProofTree2 ProofSafe ProofMeaning ProofFirst ProofRanks Checks.
From Verif Require Import TheoremsKernel TheoremsPackrat TheoremsTotal TheoremsLR TheoremsKeys TheoremsGenerator TheoremsMeaning TheoremsTermination Programs.
From Verif Require Import DslReader ProofReader GrammarChecks DslSources ShippedNames TheoremsBootstrap.
From stdpp Require Import relations gmap.
From Verif Require Import SpecMeaning.
Local Open Scope N_scope.

Section crate.
  Context (file : list N) (rules : list drule) (c : gen_code) (table : list expr).
  Context (Hcr : crate_of file rules c table) (Hreg : regular rules).
  Context (gr : N).
  Notation pr := (table_program table gr : program unit).
  Context (Hloops : no_empty_loops rules).

  Lemma crate_ranks (nul : name -> bool) (Hnul : forall e, empties nul e = true <-> may_be_empty rules e)
    (Hdet : forall n, tc (first_calls rules) n n -> left_recursive rules n) :
    exists rkf, ranked_program pr (fun f => nul (nm rules f)) rkf.
  Proof using Hcr Hreg Hloops.
    destruct (crate_parts _ _ _ _ Hcr) as (inv & inl & Hres & Hen & Hnd & Htab). cbv zeta in Hnd, Htab.
    set (lr := fun n => match inv n with Some _ => true | None => false end).
    set (next := fun n => match body_of rules n with Some b => filter (fun m => m ∈ map dr_name rules) (starts nul b) | None => [] end).
    assert (Hlrs : forall n, lr n = true <-> left_recursive rules n).
    { intros n. destruct Hres as [H1 _]. specialize (H1 n). unfold lr. destruct (inv n); split; intros; try done; by destruct H1. }
    assert (Hstep : forall a b, b ∈ next a -> first_calls rules a b).
    { intros a b Hb. unfold next in Hb. destruct (body_of rules a) as [e|] eqn:E; [|by apply elem_of_nil in Hb].
      apply elem_of_list_filter in Hb as [_ H2]. exists e. split; [done|]. by eapply starts_sound. }
    destruct (ranks_exist next (map dr_name rules)) as [rk Hrk].
    { intros n m Hm. unfold next in Hm. destruct (body_of rules n) as [b|]; [|by apply elem_of_nil in Hm]. by apply elem_of_list_filter in Hm as [? _]. }
    set (nulf := fun f : N => nul (nm rules f)). set (rkf := fun f : N => rk (nm rules f)).
    exists rkf. change (fun f => nul (nm rules f)) with nulf. set (hooks := concat (map (fun r => hooks_of (dr_body r)) rules)) in *.
    set (ok := refok rules inv inl (gc_enum c) hooks).
    assert (Hfn : forall n e, ok n e -> exists f, n ∈ map dr_name rules /\ rkf f = rk n /\ nulf f = nul n /\
      ((exists l r, e = ELR l r f /\ lr n = true) \/ (lr n = false /\ ((exists r, e = EVar r f) \/ e = EInline f)))).
    { intros n e [[body Hb] He]. destruct (body_index rules Hnd n body Hb) as (k & r & Hk & En & Eb & Ei).
      assert (Enm : nm rules (N.of_nat k) = n) by (unfold nm; by rewrite Nat2N.id, Hk).
      unfold compile_ref, fn_index in He. simpl in He. rewrite Ei in He. exists (N.of_nat k). unfold rkf, nulf, lr. rewrite Enm. split.
      { apply elem_of_list_In, in_map_iff. exists r. split; [done|]. apply elem_of_list_In. by eapply elem_of_list_lookup_2. }
      split; [done|]. split; [done|].
      destruct (inv n) as [il|].
      - left. destruct (all_some (map (fun r => index_of r (gc_enum c)) il)); simpl in He; [|done]. destruct (enum_index _ _); simpl in He; [|done].
        injection He as <-. eauto.
      - right. split; [done|]. destruct (inl n); [injection He as <-; by right|].
        destruct (enum_index _ _); simpl in He; [|done]. injection He as <-. left. eauto. }
    intros f e Hf. simpl in Hf. pose proof (all_some_lookup _ _ Htab (N.to_nat f)) as H. rewrite Hf in H. simpl in H.
    rewrite list_lookup_fmap in H. destruct (rules !! N.to_nat f) as [r|] eqn:Er; [|done].
    destruct (rule_stands rules inv inl (gc_enum c) hooks Hnd (re_declared _ Hreg) (re_hooks _ Hreg) (re_literals _ Hreg) table Htab _ _ Er) as (e' & He' & Hst).
    rewrite Hf in He'. injection He' as <-. pose proof (rule_body rules Hnd _ _ Er) as Hb.
    assert (Enm : nm rules f = dr_name r) by (unfold nm; by rewrite Er).
    eapply (stands_ranked rules nul Hnul ok rk nulf rkf lr (fun m => m ∈ map dr_name rules) Hfn); [exact Hst| |apply Hloops; by eapply elem_of_list_lookup_2].
    intros _ m Hm Hin. unfold rkf. rewrite Enm.
    assert (Hnx : m ∈ next (dr_name r)) by (unfold next; rewrite Hb; by apply elem_of_list_filter).
    destruct (Hrk _ _ Hnx) as [H1 H2]. split; [done|]. intros Hl. apply H2. intros Hback.
    assert (Hcyc : tc (first_calls rules) m m).
    { eapply tc_rtc_l; [|apply tc_once, Hstep, Hnx]. clear -Hback Hstep. induction Hback as [|a b d Hab _ IH]; [apply rtc_refl|]. eapply rtc_l; [by apply Hstep|done]. }
    apply Hdet, Hlrs in Hcyc. congruence.
  Qed.

  Context (s : list N) (Hs : N.of_nat (length s) < u32_modulus).
  Notation L := (N.of_nat (length s)).
  (** The parser started at any rule answers, provided the keys suffice for
      [key_bound]; what it matches is derivable. *)
  Theorem C56_answers n entry C : (forall n, tc (first_calls rules) n n -> left_recursive rules n) -> entry_for rules c n entry ->
    (forall f body, table !! f = Some body -> exists k, lr_calls pr L body k /\ k <= C) ->
    key_bound L (size (vars_of table entry)) (size (lrs_of table entry)) (width_of table entry) C C <= u32_modulus ->
    exists fuel0 (b : bool) q st, (b = true -> derives rules s (DRef n) 0 q) /\ (b = false -> q = 0) /\
      forall fuel, (fuel0 <= fuel)%nat -> run_entry pr tt fuel entry s = Ok ((b, q), st).
  Proof using Hcr Hreg Hloops Hs.
    intros Hdet He HC Hk. destruct (nul_exists rules) as [nul Hnul]. destruct (crate_levels _ _ _ _ Hcr Hreg gr Hloops nul Hnul Hdet) as [lvlf Hwfp].
    destruct (crate_ranks nul Hnul Hdet) as [rkf Hrk].
    destruct (crate_parts _ _ _ _ Hcr) as (inv & inl & Hres & Hen & Hnd & Htab). cbv zeta in Hnd, Htab.
    pose proof (crate_wf rules inv inl _ _ Hnd (re_declared _ Hreg) (re_hooks _ Hreg) (re_literals _ Hreg) table gr Htab) as Hwf.
    destruct (entry_parts _ _ _ _ Hcr Hreg gr inv inl Hnd Htab n entry He) as (l & k & r & e & Ep & Hk1 & En & Ht & Hst & Hb & Hoke & _ & Hlr).
    assert (Hcalls : exists E, lr_calls pr L entry E /\ E <= C).
    { destruct He as (k' & r' & _ & _ & [->|(v & _ & ->)]); cbn [pexp_of] in Ep; injection Ep as _ E.
      - destruct (HC k e Ht) as (x & Hx & Hl). exists x. split; [|done]. rewrite E. eapply lc_inline; [|exact Hx]. simpl. by rewrite Nat2N.id.
      - exists 0. split; [constructor|lia]. }
    destruct Hcalls as (E & HE & HEC).
    destruct (C54_answers pr _ (fun f => nul (nm rules f)) lvlf rkf s tt Hs Hwf Hwfp (table_no_hooks _ _)
      (vars_of table entry) (lrs_of table entry) (width_of table entry) C E entry (S (rkf (N.of_nat k))) (S (lvlf (N.of_nat k))) Hrk) as (f0 & [b q] & st & Hrun).
    - split.
      + intros f body x Hf Hx. apply elem_of_list_to_set, elem_of_app. right. by apply (in_concat_map var_labels table (N.to_nat f) body).
      + intros f body x Hf Hx. apply elem_of_list_to_set, elem_of_app. right. by apply (in_concat_map lr_labels table (N.to_nat f) body).
      + intros f body x Hf Hx. unfold width_of. apply inj_le', le_width, elem_of_app. right. by apply (in_concat_map involved_sets table (N.to_nat f) body).
      + intros f body Hf. by apply (HC (N.to_nat f)).
    - by apply expr_ok_wf.
    - destruct He as (k' & r' & _ & _ & [->|(v & _ & ->)]); cbn [pexp_of] in Ep; cbn [guarded]; intros _; injection Ep as _ ->; lia.
    - destruct He as (k' & r' & _ & _ & [->|(v & _ & ->)]); cbn [pexp_of] in Ep; cbn [ranked]; intros _; injection Ep as _ ->; lia.
    - intros x Hx. apply elem_of_list_to_set, elem_of_app. by left.
    - intros x Hx. apply elem_of_list_to_set, elem_of_app. by left.
    - intros x Hx. unfold width_of. apply inj_le', le_width, elem_of_app. by left.
    - exact HE.
    - etrans; [|exact Hk]. unfold key_bound. apply N.add_le_mono_l, N.mul_le_mono_r, HEC.
    - exists f0, b, q, st. split; [|split; [|done]].
      + intros ->. eapply (C47_derivable _ _ _ _ Hcr Hreg gr s Hs); [exact He|by apply Hrun].
      + intros ->. assert (Hq : (false = false -> q = 0) /\ (false = true -> 0 <= q <= L)); [|by apply Hq].
        eapply (C01_positions pr _ s tt); [done|exact Hwf|apply table_no_hooks|apply session_fresh|by apply expr_ok_wf|lia|by apply Hrun].
  Qed.
End crate.

(** ** The shipped examples *)
(** On every input of at most [n] bytes the crate's parser answers, and what it
    matches can be derived from the rules its grammar file spells. *)
Definition answers_within (n : N) (file : list N) (table : list expr) (gr v f : N) : Prop :=
  file_text file (rules_of file) /\ forall s, N.of_nat (length s) <= n ->
  exists fuel0 (b : bool) q st, (b = true -> derives (rules_of file) s (DRef grammar_name) 0 q) /\ (b = false -> q = 0) /\
    forall fuel, (fuel0 <= fuel)%nat -> run_entry (table_program table gr : program unit) tt fuel (EVar v f) s = Ok ((b, q), st).
Lemma lookup_all {A} (P : A -> bool) (l : list A) k x : forallb P l = true -> l !! k = Some x -> P x = true.
Proof. intros H Hk. rewrite forallb_forall in H. apply H, elem_of_list_In. by eapply elem_of_list_lookup_2. Qed.
Lemma answers_within_ok n file table fns imports enum size' gr v f depth C : n < u32_modulus ->
  regenerates file table fns imports enum size' -> lr_checks file enum v f = true ->
  (forall L, forallb (fun e => match direct (table_program (U:=unit) table gr) L depth e with Some c => c <=? C | None => false end) table = true) ->
  key_bound n (size (vars_of table (EVar v f))) (size (lrs_of table (EVar v f))) (width_of table (EVar v f)) C C <= u32_modulus ->
  answers_within n file table gr v f.
Proof.
  intros Hn Hg H HC Hk. unfold lr_checks in H. rewrite !andb_true_iff in H. destruct H as [[[[H1 H2] H3] H4] H5]. split; [by apply spelled_ok|]. intros s Hl.
  assert (Hs : N.of_nat (length s) < u32_modulus) by lia.
  destruct (regenerates_crate _ _ _ _ _ _ Hg H1) as (c & Hc & Hcr). apply regular_ok in H2. apply no_empty_loops_ok in H3. rewrite <- Hc in H5.
  apply entry_ok in H5. eapply (C56_answers _ _ _ _ Hcr H2 gr H3 s Hs grammar_name (EVar v f) C); [|exact H5| |].
  - intros m. apply C35_detected. exact (cycles_visible_ok _ H4).
  - intros g body Hb. pose proof (lookup_all _ _ _ _ (HC (N.of_nat (length s))) Hb) as Hd. simpl in Hd.
    destruct (direct _ _ depth body) as [k|] eqn:Ed; [|done]. exists k. split; [by eapply direct_ok|by apply N.leb_le].
  - etrans; [by apply key_bound_mono|done].
Qed.

Theorem C56_examples :
  answers_within 12000 ex1_source ex1_table ex1_R_Grammar ex1_R_Grammar ex1_f_grammar /\
  answers_within 21000 ex2_source ex2_table ex2_R_Grammar ex2_R_Grammar ex2_f_grammar /\
  answers_within 5000 ex3_source ex3_table ex3_R_Grammar ex3_R_Grammar ex3_f_grammar /\
  answers_within 5000 ex4_source ex4_table ex4_R_Grammar ex4_R_Grammar ex4_f_grammar /\
  answers_within 26000 ex5_source ex5_table ex5_R_Grammar ex5_R_Grammar ex5_f_grammar /\
  answers_within 13000 ex6_source ex6_table ex6_R_Grammar ex6_R_Grammar ex6_f_grammar /\
  answers_within 18000 ex7_source ex7_table ex7_R_Grammar ex7_R_Grammar ex7_f_grammar /\
  answers_within 13000 ex8_source ex8_table ex8_R_Grammar ex8_R_Grammar ex8_f_grammar /\
  answers_within 9000 ex9_source ex9_table ex9_R_Grammar ex9_R_Grammar ex9_f_grammar /\
  answers_within 26000 ex10_source ex10_table ex10_R_Grammar ex10_R_Grammar ex10_f_grammar.
Proof.
  destruct C49_examples as (H1 & H2 & H3 & H4 & H5 & H6 & H7 & H8 & H9 & H10 & _).
  split; [|split; [|split; [|split; [|split; [|split; [|split; [|split; [|split]]]]]]]].
  - apply (fun h => answers_within_ok _ _ _ _ _ _ _ _ _ _ 9%nat 2 h H1); [reflexivity|vm_cast_no_check (eq_refl true)|intros L; vm_compute; reflexivity|vm_compute; discriminate].
  - apply (fun h => answers_within_ok _ _ _ _ _ _ _ _ _ _ 9%nat 1 h H2); [reflexivity|vm_cast_no_check (eq_refl true)|intros L; vm_compute; reflexivity|vm_compute; discriminate].
  - apply (fun h => answers_within_ok _ _ _ _ _ _ _ _ _ _ 9%nat 3 h H3); [reflexivity|vm_cast_no_check (eq_refl true)|intros L; vm_compute; reflexivity|vm_compute; discriminate].
  - apply (fun h => answers_within_ok _ _ _ _ _ _ _ _ _ _ 9%nat 3 h H4); [reflexivity|vm_cast_no_check (eq_refl true)|intros L; vm_compute; reflexivity|vm_compute; discriminate].
  - apply (fun h => answers_within_ok _ _ _ _ _ _ _ _ _ _ 9%nat 1 h H5); [reflexivity|vm_cast_no_check (eq_refl true)|intros L; vm_compute; reflexivity|vm_compute; discriminate].
  - apply (fun h => answers_within_ok _ _ _ _ _ _ _ _ _ _ 9%nat 5 h H6); [reflexivity|vm_cast_no_check (eq_refl true)|intros L; vm_compute; reflexivity|vm_compute; discriminate].
  - apply (fun h => answers_within_ok _ _ _ _ _ _ _ _ _ _ 9%nat 1 h H7); [reflexivity|vm_cast_no_check (eq_refl true)|intros L; vm_compute; reflexivity|vm_compute; discriminate].
  - apply (fun h => answers_within_ok _ _ _ _ _ _ _ _ _ _ 9%nat 1 h H8); [reflexivity|vm_cast_no_check (eq_refl true)|intros L; vm_compute; reflexivity|vm_compute; discriminate].
  - apply (fun h => answers_within_ok _ _ _ _ _ _ _ _ _ _ 9%nat 1 h H9); [reflexivity|vm_cast_no_check (eq_refl true)|intros L; vm_compute; reflexivity|vm_compute; discriminate].
  - apply (fun h => answers_within_ok _ _ _ _ _ _ _ _ _ _ 9%nat 1 h H10); [reflexivity|vm_cast_no_check (eq_refl true)|intros L; vm_compute; reflexivity|vm_compute; discriminate].
Qed.
