(** Well-founded grammars have an answer everywhere (Ford). *)
From Verif Require Import ProofPeg SpecTerm SpecProgram.
From Verif Require Import ProofSound.

Section total.
  Context (nul : N -> bool) (lvl : N -> nat) (g : pgrammar) (s : list N).
  Context (Hwf : well_founded_grammar nul lvl g).
  Notation L := (N.of_nat (length s)).

  (** A success stays inside the text and consumes unless nullable. *)
  Lemma peg_consumes e i o : peg g s e i o -> forall j, o = Some j -> i <= L ->
    i <= j <= L /\ (j = i -> nullable nul e = true).
  Proof using Hwf.
    induction 1; intros j' E Hi; simplify_eq; simpl.
    - apply lookup_lt_Some in H. split; [lia|lia].
    - apply lookup_lt_Some in H. split; [lia|lia].
    - unfold occurs_at in H. assert (Hlen : (length l <= length s - N.to_nat i)%nat).
      { rewrite <-H, take_length, drop_length. lia. }
      split; [lia|]. destruct l; [done|]. simpl in *. lia.
    - destruct (IHpeg1 _ eq_refl Hi) as [H1 H2]. destruct (IHpeg2 _ eq_refl ltac:(lia)) as [H3 H4].
      split; [lia|]. intros ->. assert (j = i) as -> by lia. rewrite H2, H4 by done. done.
    - destruct (IHpeg _ eq_refl Hi) as [H1 H2]. split; [done|]. intros E. rewrite H2 by done. done.
    - destruct (IHpeg2 _ eq_refl Hi) as [H1 H2]. split; [done|]. intros E. rewrite H2 by done. apply orb_true_r.
    - split; [lia|done].
    - split; [lia|done].
    - split; [lia|done].
    - destruct (IHpeg1 _ eq_refl Hi) as [H1 H2]. destruct (IHpeg2 _ eq_refl ltac:(lia)) as [H3 H4]. split; [lia|done].
    - destruct (IHpeg1 _ eq_refl Hi) as [H1 H2]. destruct (IHpeg2 _ eq_refl ltac:(lia)) as [H3 H4]. split; [lia|].
      intros ->. apply H2. lia.
    - destruct (IHpeg _ eq_refl Hi) as [H1 H2]. split; [done|done].
    - split; [lia|done].
    - destruct (IHpeg _ eq_refl Hi) as [H1 H2]. split; [done|]. intros E. apply (Hwf _ _ H). auto.
  Qed.

  Definition Answers (d n : nat) : Prop := forall e start, pguarded nul lvl g n start e ->
    forall i, i <= L -> (N.to_nat (L - i) <= d)%nat -> (start = false -> (N.to_nat (L - i) < d)%nat) ->
    exists o, peg g s e i o.

  Lemma star_answers e d start : nullable nul e = false ->
    (forall i, i <= L -> (N.to_nat (L - i) <= d)%nat -> (start = false -> (N.to_nat (L - i) < d)%nat) -> exists o, peg g s e i o) ->
    forall i, i <= L -> (N.to_nat (L - i) <= d)%nat -> (start = false -> (N.to_nat (L - i) < d)%nat) -> exists o, peg g s (PStar e) i o.
  Proof using Hwf.
    intros Hn He i. remember (N.to_nat (L - i)) as k eqn:Ek. revert i Ek.
    induction k as [k IH] using lt_wf_ind. intros i Ek Hi H1 H2.
    subst k. destruct (He i Hi H1 H2) as [[j|] Hj]; [|eexists; by apply peg_star_stop].
    destruct (peg_consumes _ _ _ Hj j eq_refl Hi) as [Hb Hne]. assert (i <> j) by (intros ->; rewrite Hne in Hn; done).
    destruct (IH (N.to_nat (L - j)) ltac:(lia) j eq_refl ltac:(lia)) as [o Ho]; [lia|intros E; specialize (H2 E); lia|].
    eexists. by eapply peg_star_more.
  Qed.

  Lemma peg_answers d : forall n, Answers d n.
  Proof using Hwf.
    induction d as [d IHd] using lt_wf_ind. induction n as [n IHn] using lt_wf_ind.
    intros e. induction e; intros sb Hg i Hi Hd Hst; simpl in Hg.
    - destruct (decide (s !! N.to_nat i = Some c)); eexists; by constructor.
    - destruct (decide (occurs_at s i l)); eexists; by constructor.
    - destruct (s !! N.to_nat i) as [v|] eqn:E.
      + destruct (decide (a <= v <= b)); eexists; [by econstructor|].
        constructor. intros v' Hv. by simplify_eq.
      + eexists. constructor. intros v' Hv. by simplify_eq.
    - destruct Hg as [G1 G2]. destruct (IHe1 sb G1 i Hi Hd Hst) as [[j|] Hj]; [|eexists; by apply peg_seq_fail].
      destruct (peg_consumes _ _ _ Hj j eq_refl Hi) as [Hb Hne].
      destruct (IHe2 _ G2 j) as [o Ho]; [lia|lia| |eexists; by eapply peg_seq_ok].
      intros E. destruct sb; simpl in E; [|specialize (Hst eq_refl); lia].
      assert (i <> j) by (intros ->; rewrite Hne in E; done). lia.
    - destruct Hg as [G1 G2]. destruct (IHe1 sb G1 i Hi Hd Hst) as [[j|] Hj]; [eexists; by apply peg_alt_1|].
      destruct (IHe2 sb G2 i Hi Hd Hst) as [o Ho]. eexists; by eapply peg_alt_2.
    - destruct (IHe sb Hg i Hi Hd Hst) as [[j|] Hj]; eexists; [by eapply peg_and_ok|by eapply peg_and_fail].
    - destruct (IHe sb Hg i Hi Hd Hst) as [[j|] Hj]; eexists; [by eapply peg_not_fail|by eapply peg_not_ok].
    - destruct Hg as [Hn Hg]. destruct (IHe sb Hg i Hi Hd Hst) as [[j|] Hj]; [|eexists; by apply peg_plus_fail].
      destruct (peg_consumes _ _ _ Hj j eq_refl Hi) as [Hb Hne].
      destruct (star_answers e d sb Hn (IHe sb Hg) j) as [o Ho]; [lia|lia|intros E; specialize (Hst E); lia|]. eexists; by eapply peg_plus_ok.
    - destruct Hg as [Hn Hg]. by apply (star_answers e d sb Hn (IHe sb Hg)).
    - destruct (IHe sb Hg i Hi Hd Hst) as [[j|] Hj]; eexists; [by eapply peg_opt_some|by eapply peg_opt_none].
    - destruct Hg as [[body Hb] Hl]. destruct (Hwf A body Hb) as [Hgb _]. destruct sb.
      + destruct (IHn (lvl A) (Hl eq_refl) body true Hgb i Hi Hd ltac:(done)) as [o Ho]. eexists. by eapply peg_ref.
      + specialize (Hst eq_refl). destruct (IHd (N.to_nat (L - i)) Hst (lvl A) body true Hgb i Hi ltac:(lia) ltac:(done)) as [o Ho].
        eexists. by eapply peg_ref.
  Qed.

  Theorem peg_total e n start i : pguarded nul lvl g n start e -> i <= L -> exists o, peg g s e i o.
  Proof using Hwf. intros He Hi. eapply (peg_answers (S (N.to_nat (L - i))) n e start He i Hi); lia. Qed.
End total.

Section programs.
  Context {U : Type} (pr : program U) (fn : N -> N) (nul : N -> bool) (lvl : N -> nat).
  Context (Hok : program_ok pr fn).
  Lemma guarded_pguarded n start e : expr_ok pr fn e -> guarded nul lvl n start e ->
    pguarded nul lvl (grammar_of pr) n start (pexp_of e).
  Proof.
    revert start. induction e; intros sb He Hg; simpl in *; try tauto; intuition auto.
    - destruct H0 as [body Hb]. exists (pexp_of body). unfold grammar_of. by rewrite Hb.
    - destruct He as [body Hb]. exists (pexp_of body). unfold grammar_of. by rewrite Hb.
  Qed.
  Lemma well_founded_program_grammar : well_founded_program pr nul lvl -> well_founded_grammar nul lvl (grammar_of pr).
  Proof using Hok.
    intros H A body. unfold grammar_of. destruct (pr_fn pr A) as [e|] eqn:E; [|done]. simpl. intros [= <-].
    destruct (H A e E) as [H1 H2]. split; [|done]. apply guarded_pguarded; [by eapply Hok|done].
  Qed.
End programs.
