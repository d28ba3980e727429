(** Theorems C35, C48: when the parser generated from a grammar file answers on
    every input. *)
From Verif Require Import SpecGenerator SpecMeaning SpecProgram SpecCfg SpecSession SpecLR SpecTerm ProofPeg ProofTree ProofTree2 ProofSafe ProofMeaning ProofFirst Checks.
From Verif Require Import TheoremsKernel TheoremsPackrat TheoremsTotal TheoremsLR TheoremsGenerator TheoremsMeaning Programs.
From stdpp Require Import relations gmap.
From Verif Require Import SpecMeaning.
Local Open Scope N_scope.

Lemma lr_labels_sub e r : r ∈ lr_labels e -> r ∈ labels e.
Proof.
  induction e; simpl; try done; auto; try (intros H; by apply elem_of_nil in H); rewrite !elem_of_app; intros [?|?]; auto.
Qed.

(** Whenever [n] may try [m] before consuming and [m] may lead back to [n]
    likewise, the reference is one the detector looks at. *)
Definition cycles_visible (rules : list drule) : Prop :=
  forall n m, first_calls rules n m -> rtc (first_calls rules) m n -> left_calls rules n m.

Section termination.
  Context (file : list N) (rules : list drule) (c : gen_code) (table : list expr).
  Context (Hcr : crate_of file rules c table) (Hreg : regular rules).
  Context (gr : N).
  Notation pr := (table_program table gr : program unit).
  Context (Hloops : no_empty_loops rules).

  (** The name of a function. *)
  Definition nm (f : N) : name := match rules !! N.to_nat f with Some r => dr_name r | None => [] end.
  Lemma crate_levels (nul : name -> bool) (Hnul : forall e, empties nul e = true <-> may_be_empty rules e)
    (Hdet : forall n, tc (first_calls rules) n n -> left_recursive rules n) :
    exists lvlf, well_founded_program pr (fun f => nul (nm f)) lvlf.
  Proof using Hcr Hreg Hloops.
    destruct (crate_parts _ _ _ _ Hcr) as (inv & inl & Hres & Hen & Hnd & Htab). cbv zeta in Hnd, Htab.
    set (lr := fun n => match inv n with Some _ => true | None => false end).
    set (next := fun n => match body_of rules n with Some b => filter (fun m => lr m = false) (starts nul b) | None => [] end).
    assert (Hlrs : forall n, lr n = true <-> left_recursive rules n).
    { intros n. destruct Hres as [H1 _]. specialize (H1 n). unfold lr. destruct (inv n); split; intros; try done; by destruct H1. }
    destruct (levels_exist next (map dr_name rules)) as [lvl Hlvl].
    { intros n Hn. unfold next. destruct (body_of rules n) as [b|] eqn:E; [|done]. apply body_of_rule in E as (k & r & Hk & <- & _).
      destruct Hn. apply elem_of_list_In, in_map. apply elem_of_list_In. by eapply elem_of_list_lookup_2. }
    { assert (Hstep : forall a b, b ∈ next a -> first_calls rules a b /\ lr b = false).
      { intros a b Hb. unfold next in Hb. destruct (body_of rules a) as [e|] eqn:E; [|by apply elem_of_nil in Hb].
        apply elem_of_list_filter in Hb as [H1 H2]. split; [|done]. exists e. split; [done|]. by eapply starts_sound. }
      assert (Htc : forall a b, tc (fun n m => m ∈ next n) a b -> tc (first_calls rules) a b /\ lr b = false).
      { intros a b H. induction H as [a b H|a b d H _ [IH1 IH2]]; [destruct (Hstep _ _ H); split; [by apply tc_once|done]|].
        destruct (Hstep _ _ H). split; [by eapply tc_l|done]. }
      intros n Hn. apply Htc in Hn as [H1 H2]. apply Hdet in H1. apply Hlrs in H1. congruence. }
    set (nulf := fun f : N => nul (nm f)). set (lvlf := fun f : N => lvl (nm f)).
    exists lvlf. change (fun f => nul (nm f)) with nulf. set (hooks := concat (map (fun r => hooks_of (dr_body r)) rules)) in *.
    set (ok := refok rules inv inl (gc_enum c) hooks).
    assert (Hfn : forall n e, ok n e -> (exists l r f, e = ELR l r f /\ lr n = true /\ nulf f = nul n) \/
      (lr n = false /\ exists f, ((exists r, e = EVar r f) \/ e = EInline f) /\ lvlf f = lvl n /\ nulf f = nul n)).
    { intros n e [[body Hb] He]. destruct (body_index rules Hnd n body Hb) as (k & r & Hk & En & Eb & Ei).
      assert (Enm : nm (N.of_nat k) = n) by (unfold nm; by rewrite Nat2N.id, Hk).
      unfold compile_ref, fn_index in He. simpl in He. rewrite Ei in He. unfold lr. destruct (inv n) as [il|].
      - left. destruct (all_some (map (fun r => index_of r (gc_enum c)) il)); simpl in He; [|done]. destruct (enum_index _ _); simpl in He; [|done].
        injection He as <-. eexists _, _, _. split; [done|]. split; [done|]. unfold nulf. by rewrite Enm.
      - right. split; [done|]. exists (N.of_nat k). unfold nulf, lvlf. rewrite Enm. split; [|done]. destruct (inl n); [injection He as <-; by right|].
        destruct (enum_index _ _); simpl in He; [|done]. injection He as <-. left. eauto. }
    intros f e Hf. simpl in Hf. pose proof (all_some_lookup _ _ Htab (N.to_nat f)) as H. rewrite Hf in H. simpl in H.
    rewrite list_lookup_fmap in H. destruct (rules !! N.to_nat f) as [r|] eqn:Er; [|done].
    destruct (rule_stands rules inv inl (gc_enum c) hooks Hnd (re_declared _ Hreg) (re_hooks _ Hreg) (re_literals _ Hreg) table Htab _ _ Er) as (e' & He' & Hs).
    rewrite Hf in He'. injection He' as <-. pose proof (rule_body rules Hnd _ _ Er) as Hb.
    assert (Enm : nm f = dr_name r) by (unfold nm; by rewrite Er). split.
    - eapply (stands_guarded rules nul Hnul ok lvl nulf lvlf lr Hfn); [exact Hs| |apply Hloops; by eapply elem_of_list_lookup_2].
      intros _ m Hm Hlr. unfold lvlf. rewrite Enm. apply Hlvl. unfold next. rewrite Hb. apply elem_of_list_filter. done.
    - rewrite (stands_nullable nul ok lvl nulf lvlf lr Hfn _ _ Hs). intros He. unfold nulf. rewrite Enm. change (empties nul (DRef (dr_name r)) = true). apply Hnul. eapply me_ref; [exact Hb|]. by apply Hnul.
  Qed.
  Lemma crate_terminates (Hdet : forall n, tc (first_calls rules) n n -> left_recursive rules n) :
    exists nulf lvlf, well_founded_program pr nulf lvlf.
  Proof using Hcr Hreg Hloops.
    destruct (nul_exists rules) as [nul Hnul]. destruct (crate_levels nul Hnul Hdet) as [lvlf H]. eauto.
  Qed.

  Context (s : list N) (Hs : N.of_nat (length s) < u32_modulus).
  Notation len := (N.of_nat (length s)).

  (** ** C48 *)
  Theorem C48_answers n entry : (forall n, tc (first_calls rules) n n -> left_recursive rules n) -> entry_for rules c n entry ->
    exists fuel0, (exists b q st, forall fuel, (fuel0 <= fuel)%nat -> run_entry pr tt fuel entry s = Ok ((b, q), st)) \/
      (forall fuel, (fuel0 <= fuel)%nat -> run_entry pr tt fuel entry s = Panic PKeyOverflow).
  Proof using Hcr Hreg Hloops Hs.
    intros Hdet He. destruct (crate_terminates Hdet) as (nulf & lvlf & Hwfp).
    destruct (crate_parts _ _ _ _ Hcr) as (inv & inl & Hres & Hen & Hnd & Htab). cbv zeta in Hnd, Htab.
    pose proof (crate_wf rules inv inl _ _ Hnd (re_declared _ Hreg) (re_hooks _ Hreg) (re_literals _ Hreg) table gr Htab) as Hwf.
    pose proof (crate_labels rules inv inl _ _ Hnd (re_declared _ Hreg) (re_hooks _ Hreg) (re_literals _ Hreg) table gr Htab) as HL.
    destruct (entry_parts _ _ _ _ Hcr Hreg gr inv inl Hnd Htab n entry He) as (l & k & r & e & Ep & Hk & En & Ht & Hst & Hb & Hoke & _ & Hlr).
    destruct (C27_answers_or_key_exhaustion pr _ nulf lvlf s tt Hs Hwf Hwfp (label_set (gc_enum c))
      (PState (context_new gr) tt) entry (S (lvlf (N.of_nat k))) 0) as (fuel0 & [(q & st & H)|H]).
    - apply table_no_hooks.
    - intros f body q Hf Hq. eapply HL; [exact Hf|]. by apply lr_labels_sub.
    - rewrite Hlr. intros q Hq. by apply elem_of_nil in Hq.
    - apply session_fresh.
    - by apply expr_ok_wf.
    - destruct He as (k' & r' & _ & _ & [->|(v & _ & ->)]); cbn [pexp_of] in Ep; cbn [guarded]; intros _; injection Ep as _ ->; lia.
    - lia.
    - exists fuel0. left. destruct q as [b q]. exists b, q, st. exact H.
    - exists fuel0. by right.
  Qed.

  (** Without left recursion of any kind: the meaning is total and so is the
      parser. *)
  Theorem C48_total n entry : (forall n, ~ tc (first_calls rules) n n) -> (forall n, ~ left_recursive rules n) ->
    1 + N.of_nat (length (gc_enum c)) * (len + 1) <= u32_modulus -> entry_for rules c n entry ->
    exists fuel0 (b : bool) q st, means rules s (DRef n) 0 (if b then Some q else None) /\
      forall fuel, (fuel0 <= fuel)%nat -> run_entry pr tt fuel entry s = Ok ((b, q), st).
  Proof using Hcr Hreg Hloops Hs.
    intros Hac Hnlr Hb He. destruct (crate_terminates) as (nulf & lvlf & Hwfp); [intros m Hm; by apply Hac in Hm|].
    destruct (crate_parts _ _ _ _ Hcr) as (inv & inl & Hres & Hen & Hnd & Htab). cbv zeta in Hnd, Htab.
    pose proof (crate_ok rules inv inl _ _ Hnd (re_declared _ Hreg) (re_hooks _ Hreg) (re_literals _ Hreg) table gr Htab (not_lr _ inv inl Hres Hnlr)) as Hok.
    pose proof (crate_labels rules inv inl _ _ Hnd (re_declared _ Hreg) (re_hooks _ Hreg) (re_literals _ Hreg) table gr Htab) as HL.
    destruct (entry_parts _ _ _ _ Hcr Hreg gr inv inl Hnd Htab n entry He) as (l & k & r & e & Ep & Hk & En & Ht & Hst & Hbo & Hoke & Hlab & Hlr).
    destruct (C24_plain_total pr _ nulf lvlf tt Hok (table_no_hooks _ _) Hwfp (label_set (gc_enum c)) HL s entry (S (lvlf (N.of_nat k)))) as (fuel0 & b & q & st & H & _).
    - pose proof (label_set_size (gc_enum c)). etrans; [|exact Hb]. apply N.add_le_mono_l, N.mul_le_mono_r. lia.
    - done.
    - done.
    - destruct He as (k' & r' & _ & _ & [->|(v & _ & ->)]); cbn [pexp_of] in Ep; cbn [guarded]; intros _; injection Ep as _ ->; lia.
    - exists fuel0, b, q, st. split; [|done]. eapply (C47_sound _ _ _ _ Hcr Hreg gr s Hs Hnlr n entry fuel0 b q st He). by apply H.
  Qed.

  (** ** C35: left recursion through references the detector looks at is found,
      and the generated parser answers on every input. *)
  Theorem C35_detected n : cycles_visible rules -> tc (first_calls rules) n n -> left_recursive rules n.
  Proof using.
    intros Hv Hn. exists n. split; [apply rtc_refl|]. unfold on_left_cycle.
    assert (H : forall a, rtc (first_calls rules) n a -> tc (first_calls rules) a n -> tc (left_calls rules) a n).
    { intros a Ha H. induction H as [a b H|a b d H Hr IH].
      - apply tc_once. apply Hv; [done|]. done.
      - eapply tc_l; [apply Hv; [exact H|]|].
        + eapply rtc_transitive; [by apply tc_rtc|done].
        + apply IH; [exact Hn|]. eapply rtc_r; [exact Ha|exact H]. }
    apply H; [apply rtc_refl|done].
  Qed.
  Theorem C35_answers n entry : cycles_visible rules -> entry_for rules c n entry ->
    exists fuel0, (exists b q st, forall fuel, (fuel0 <= fuel)%nat -> run_entry pr tt fuel entry s = Ok ((b, q), st)) \/
      (forall fuel, (fuel0 <= fuel)%nat -> run_entry pr tt fuel entry s = Panic PKeyOverflow).
  Proof using Hcr Hreg Hloops Hs.
    intros Hv. apply C48_answers. intros m. by apply C35_detected.
  Qed.
End termination.
