(** Proof: the cleaned tree of a match is linear in the length of the match. *)
From Verif Require Import SpecKeys SpecLRTree SpecKernel ProofTree ProofTree2 ProofDslSize ProofDsl ProofTrace.
From Verif Require Import ProofExact.
Local Open Scope N_scope.
Section size.
  Context (g : pgrammar) (s : list N) (Pl : N -> bool) (h : N -> N) (nul : N -> bool) (H : N).
  Context (Hlow : low h nul H g).
  Notation lderiv := (lderiv g s Pl).
  Notation K := (2 * (1 + H)).
  Lemma tower_le e : tower h nul e <= 1 + H.
  Proof using Hlow.
    induction e as [ | | | | | | | | | |[r|] A]; cbn [tower]; try lia.
    - destruct (nullable nul e2), (nullable nul e1); lia.
    - pose proof (low_all _ _ _ _ Hlow A). lia.
    - pose proof (low_all _ _ _ _ Hlow A). lia.
  Qed.
  Lemma ld_le e i j D : lderiv e i j D -> i <= j.
  Proof using. induction 1; lia. Qed.
  Lemma ld_null e i j D : lderiv e i j D -> i = j -> nullable nul e = true.
  Proof using Hlow.
    induction 1; intros E; cbn [nullable]; try done; try lia.
    - destruct l; [done|]. simpl in E. lia.
    - apply ld_le in H0_, H0_0. rewrite IHlderiv1, IHlderiv2 by lia. done.
    - by rewrite IHlderiv by lia.
    - rewrite IHlderiv by lia. apply orb_true_r.
    - apply ld_le in H0_, H0_0. apply IHlderiv1. lia.
    - eapply (low_body _ _ _ _ Hlow); eauto.
    - eapply (low_body _ _ _ _ Hlow); eauto.
  Qed.
  Lemma two : forall e1 e2 i j k D1 D2 t, lderiv e1 i j D1 -> lderiv e2 j k D2 ->
      (i = j -> prune_forest D1 = []) /\ (i < j -> fsize (prune_forest D1) + K <= K * (j - i) + tower h nul e1) ->
      (j = k -> prune_forest D2 = []) /\ (j < k -> fsize (prune_forest D2) + K <= K * (k - j) + tower h nul e2) ->
      (j = k -> tower h nul e1 <= t) -> (i = j -> tower h nul e2 <= t) ->
      (i = k -> prune_forest (D1 ++ D2) = []) /\ (i < k -> fsize (prune_forest (D1 ++ D2)) + K <= K * (k - i) + t).
  Proof using Hlow.
    intros e1 e2 i j k D1 D2 t H1 H2 [A1 B1] [A2 B2] T1 T2. rewrite prune_forest_app. apply ld_le in H1, H2.
      split.
      - intros ->. rewrite A1, A2 by lia. done.
      - intros Hlt. rewrite fsize_app. pose proof (tower_le e1). pose proof (tower_le e2).
        destruct (N.eq_dec i j) as [->|Hij].
        + rewrite (A1 eq_refl). cbn [fsize]. specialize (B2 ltac:(lia)). specialize (T2 eq_refl). lia.
        + specialize (B1 ltac:(lia)). destruct (N.eq_dec j k) as [->|Hjk].
          * rewrite (A2 eq_refl). cbn [fsize]. specialize (T1 eq_refl). lia.
          * specialize (B2 ltac:(lia)). assert (k - i = (j - i) + (k - j)) as -> by lia. rewrite N.mul_add_distr_l. lia.
  Qed.
  Lemma ld_size e i j D : lderiv e i j D ->
    (i = j -> prune_forest D = []) /\ (i < j -> fsize (prune_forest D) + K <= K * (j - i) + tower h nul e).
  Proof using Hlow.
    induction 1; try (by split; [done|lia]).
    - split; [lia|]. intros _. replace (i + 1 - i) with 1 by lia. cbn. lia.
    - split; [lia|]. intros _. replace (i + 1 - i) with 1 by lia. cbn. lia.
    - split; [done|]. intros Hl. cbn [prune_forest fsize tower]. rewrite !N.add_0_l, N.add_0_r. rewrite <- (N.mul_1_r K) at 1. apply N.mul_le_mono_l. lia.
    - eapply two; [done|done|done|done| |]; intros E; cbn [tower].
      + rewrite (ld_null _ _ _ _ H0_0 E). lia.
      + rewrite (ld_null _ _ _ _ H0_ E). lia.
    - destruct IHlderiv as [A B]. split; [done|]. intros Hl. specialize (B Hl). cbn [tower]. lia.
    - destruct IHlderiv as [A B]. split; [done|]. intros Hl. specialize (B Hl). cbn [tower]. lia.
    - eapply two; eauto; cbn [tower]; lia.
    - eapply two; eauto; cbn [tower]; lia.
    - destruct IHlderiv as [A B]. split; [done|]. intros Hl. specialize (B Hl). cbn [tower]. lia.
    - destruct IHlderiv as [A' B]. split.
      + intros ->. cbn [prune_forest]. unfold keep. cbn [t_ok t_start t_end]. rewrite N.eqb_refl. done.
      + intros Hl. specialize (B Hl). cbn [tower]. destruct (low_body _ _ _ _ Hlow _ _ H0) as [HB _]. cbn [prune_forest]. unfold keep. cbn [t_ok t_start t_end].
        destruct (N.eqb_spec i j); [lia|]. cbn [negb andb]. rewrite prune_eq. cbn [fsize]. rewrite tsize_eq. lia.
    - destruct IHlderiv as [A' B]. split; [done|]. intros Hl. specialize (B Hl). cbn [tower]. destruct (low_body _ _ _ _ Hlow _ _ H0) as [HB _]. lia.
  Qed.
  Lemma ld_linear e i j D : lderiv e i j D -> fsize (prune_forest D) <= K * (j - i).
  Proof using Hlow.
    intros HD. pose proof (ld_le _ _ _ _ HD). destruct (ld_size _ _ _ _ HD) as [A B]. pose proof (tower_le e).
    destruct (N.eq_dec i j) as [->|]; [rewrite A by done; cbn; lia|]. specialize (B ltac:(lia)). lia.
  Qed.
End size.
