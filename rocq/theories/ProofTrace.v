(** Reading off the shape of a trace: inversion lemmas and checkers. *)
From Verif Require Import SpecDsl SpecProgram SpecLR SpecTerm ProofPeg ProofTree.

Section trace.
  Context (g : pgrammar) (s : list N).
  Notation tr := (trace g s).

  Lemma tr_seq_inv a b i k F : tr (PSeq a b) i (Some k) F ->
    exists j F1 F2, F = F1 ++ F2 /\ tr a i (Some j) F1 /\ tr b j (Some k) F2.
  Proof. inversion 1; subst. eauto 10. Qed.
  Lemma tr_alt_inv a b i k F : tr (PAlt a b) i (Some k) F ->
    tr a i (Some k) F \/ exists F1 F2, F = F1 ++ F2 /\ tr a i None F1 /\ tr b i (Some k) F2.
  Proof. inversion 1; subst; eauto 10. Qed.
  Lemma tr_node_inv r A i k F : tr (PRef (Some r) A) i (Some k) F ->
    exists body F', g A = Some body /\ F = [TNode r i k true F'] /\ tr body i (Some k) F'.
  Proof. inversion 1; subst. eexists _, _. done. Qed.
  Lemma tr_inline_inv A i o F : tr (PRef None A) i o F -> exists body, g A = Some body /\ tr body i o F.
  Proof. inversion 1; subst. eexists. done. Qed.
  Lemma tr_opt_inv e i k F : tr (POpt e) i (Some k) F -> tr e i (Some k) F \/ (k = i /\ tr e i None F).
  Proof. inversion 1; subst; eauto. Qed.
  Lemma tr_not_inv e i k F : tr (PNot e) i (Some k) F -> k = i /\ tr e i None F.
  Proof. inversion 1; subst; eauto. Qed.
  Lemma tr_plus_inv e i k F : tr (PPlus e) i (Some k) F ->
    exists j F1 F2, F = F1 ++ F2 /\ tr e i (Some j) F1 /\ tr (PStar e) j (Some k) F2.
  Proof. inversion 1; subst. eauto 10. Qed.
  Lemma tr_star_inv e i k F : tr (PStar e) i (Some k) F ->
    (k = i /\ tr e i None F) \/
    exists j F1 F2, F = F1 ++ F2 /\ tr e i (Some j) F1 /\ tr (PStar e) j (Some k) F2.
  Proof. inversion 1; subst; eauto 10. Qed.

  Lemma text_one i c : text s i (i + 1) [c] <-> s !! N.to_nat i = Some c.
  Proof.
    unfold text. rewrite occurs_at_cons. split.
    - intros [_ [H _]]. done.
    - intros H. split; [simpl; lia|]. split; [done|apply occurs_at_nil].
  Qed.
  Lemma text_nil i : text s i i [].
  Proof. split; [simpl; lia|apply occurs_at_nil]. Qed.
  Lemma text_app i j k l l' : text s i j l -> text s j k l' -> text s i k (l ++ l').
  Proof.
    unfold text. intros [-> H1] [-> H2]. split; [rewrite app_length; lia|].
    revert i H1 H2. induction l as [|c l IH]; intros i H1 H2; simpl.
    - by rewrite N.add_0_r in H2.
    - apply occurs_at_cons in H1 as [Hc H1]. apply occurs_at_cons. split; [done|].
      apply IH; [done|]. simpl in H2. by replace (i + 1 + N.of_nat (length l)) with (i + N.pos (Pos.of_succ_nat (length l))) by lia.
  Qed.
  Lemma text_snoc_char i j c l : text s i j l -> s !! N.to_nat j = Some c -> text s i (j + 1) (l ++ [c]).
  Proof. intros H Hc. eapply text_app; [done|]. by apply text_one. Qed.
  Lemma text_app_inv i k l l' : text s i k (l ++ l') ->
    text s i (i + N.of_nat (length l)) l /\ text s (i + N.of_nat (length l)) k l'.
  Proof.
    revert i. induction l as [|c l IH]; intros i; simpl.
    - intros H. rewrite N.add_0_r. split; [apply text_nil|done].
    - intros [-> [Hc H]%occurs_at_cons].
      destruct (IH (i + 1)) as [[_ H1] [H2 H3]]; [split; [simpl; lia|done]|].
      replace (i + 1 + N.of_nat (length l)) with (i + N.pos (Pos.of_succ_nat (length l))) in * by lia.
      split; split; try (simpl in *; lia); [|done].
      apply occurs_at_cons. done.
  Qed.
  Lemma text_cons_inv i k c l : text s i k (c :: l) -> s !! N.to_nat i = Some c /\ text s (i + 1) k l.
  Proof.
    intros H. apply (text_app_inv i k [c] l) in H as [H1 H2]. simpl in *. split; [by apply text_one|done].
  Qed.
  Lemma text_le i j l : text s i j l -> i <= j.
  Proof. intros [-> _]. lia. Qed.
  Lemma blank_nil i : blank s i i.
  Proof. exists []. split; [apply text_nil|constructor]. Qed.
  Lemma blank_trans i j k : blank s i j -> blank s j k -> blank s i k.
  Proof. intros (l & H1 & H2) (l' & H3 & H4). exists (l ++ l'). split; [by eapply text_app|by apply Forall_app]. Qed.

  Lemma tr_char_inv c i k F : tr (PChar c) i (Some k) F -> F = [] /\ k = i + 1 /\ text s i (i + 1) [c].
  Proof. inversion 1; subst. by rewrite text_one. Qed.
  Lemma tr_range_inv a b i k F : tr (PRange a b) i (Some k) F ->
    F = [] /\ k = i + 1 /\ exists c, text s i (i + 1) [c] /\ a <= c <= b.
  Proof. inversion 1; subst. split; [done|]. split; [done|]. eexists. by rewrite text_one. Qed.
  Lemma tr_str_inv l i k F : tr (PStr l) i (Some k) F -> F = [] /\ text s i k l.
  Proof. inversion 1; subst. done. Qed.
  Lemma tr_char_fail_inv c i F : tr (PChar c) i None F -> F = [] /\ s !! N.to_nat i <> Some c.
  Proof. inversion 1; subst. done. Qed.

  (** Expressions that build no nodes, directly or through unlabelled rules. *)
  Fixpoint quiet (n : nat) (e : pexp) : bool :=
    match n with
    | O => false
    | S n =>
      match e with
      | PChar _ | PStr _ | PRange _ _ => true
      | PSeq a b | PAlt a b => quiet n a && quiet n b
      | PAnd e | PNot e | PPlus e | PStar e | POpt e => quiet n e
      | PRef None A => match g A with Some body => quiet n body | None => false end
      | PRef (Some _) _ => false
      end
    end.
  Lemma quiet_mono n m e : quiet n e = true -> (n <= m)%nat -> quiet m e = true.
  Proof.
    revert m e. induction n as [|n IH]; intros m e H Hm; [done|]. destruct m as [|m]; [lia|].
    assert (Hnm : (n <= m)%nat) by lia.
    destruct e; simpl in *; try done; try (apply andb_true_iff in H as [H1 H2]; rewrite !(IH m) by done; done);
      try by apply IH.
    destruct label; [done|]. destruct (g A); [by apply IH|done].
  Qed.
  Lemma quiet_sound e i o F : tr e i o F -> forall n, quiet n e = true -> F = [].
  Proof.
    induction 1; intros [|n] Hq; simpl in Hq; try done;
      try (apply andb_true_iff in Hq as [Hq1 Hq2]);
      try (by eauto); try (erewrite IHtrace1, IHtrace2 by eauto; done).
    - rewrite (IHtrace1 n), (IHtrace2 (S n)) by done. done.
    - rewrite (IHtrace1 n), (IHtrace2 (S n)) by done. done.
    - destruct l; [done|]. rewrite H in Hq. simpl. eauto.
  Qed.

  (** Expressions all of whose nodes carry labels satisfying [L]. *)
  Fixpoint tree_in (L : N -> bool) (t : ptree) : bool :=
    let 'TNode l _ _ _ F := t in L l && forallb (tree_in L) F.
  Fixpoint only_labels (L : N -> bool) (n : nat) (e : pexp) : bool :=
    match n with
    | O => false
    | S n =>
      match e with
      | PChar _ | PStr _ | PRange _ _ => true
      | PSeq a b | PAlt a b => only_labels L n a && only_labels L n b
      | PAnd e | PNot e | PPlus e | PStar e | POpt e => only_labels L n e
      | PRef l A => match l with Some r => L r | None => true end &&
                    match g A with Some body => only_labels L n body | None => false end
      end
    end.
  Lemma only_labels_sound L e i o F : tr e i o F -> forall n, only_labels L n e = true -> forallb (tree_in L) F = true.
  Proof.
    induction 1; intros [|n] Hq; simpl in Hq; try done;
      try (apply andb_true_iff in Hq as [Hq1 Hq2]);
      rewrite ?forallb_app;
      try (by eauto); try (erewrite IHtrace1, IHtrace2 by eauto; done).
    - rewrite (IHtrace1 n), (IHtrace2 (S n)) by done. done.
    - rewrite (IHtrace1 n), (IHtrace2 (S n)) by done. done.
    - rewrite H in Hq2. destruct l; simpl; [|eauto]. unfold node_of. destruct o; simpl; rewrite Hq1, (IHtrace n) by done; done.
  Qed.
  Lemma only_labels_body L n l A body : only_labels L (S n) (PRef l A) = true -> g A = Some body -> only_labels L n body = true.
  Proof. intros H Hb. cbn in H. rewrite Hb in H. by apply andb_true_iff in H as [_ H]. Qed.
  Lemma prune_tree_in L t : tree_in L t = true -> tree_in L (prune t) = true.
  Proof.
    induction t as [l i j b F IH] using ptree_ind'. rewrite prune_eq. simpl. intros [-> H]%andb_true_iff. simpl.
    induction F as [|t F IHF]; [done|]. simpl in H. apply andb_true_iff in H as [H1 H2].
    pose proof (IH t ltac:(by left) H1) as Ht. specialize (IHF ltac:(intros u Hu; apply IH; by right) H2).
    simpl. destruct (keep t); simpl; [rewrite Ht; simpl|]; auto.
  Qed.
  Lemma prune_forest_in L F : forallb (tree_in L) F = true -> forallb (tree_in L) (prune_forest F) = true.
  Proof.
    induction F as [|t F IH]; [done|]. simpl. intros [H1 H2]%andb_true_iff.
    destruct (keep t); simpl; [rewrite prune_tree_in by done; simpl|]; auto.
  Qed.

  (** Expressions that cannot fail. *)
  Fixpoint never (n : nat) (e : pexp) : bool :=
    match n with
    | O => false
    | S n =>
      match e with
      | PStar _ | POpt _ => true
      | PSeq a b => never n a && never n b
      | PRef None A => match g A with Some body => never n body | None => false end
      | _ => false
      end
    end.
  (** Expressions that, when they fail, have built only failed nodes. *)
  Fixpoint fclean (n : nat) (e : pexp) : bool :=
    match n with
    | O => false
    | S n =>
      match e with
      | PChar _ | PStr _ | PRange _ _ | PStar _ | POpt _ => true
      | PSeq a b => fclean n a && ((quiet (S n) a && fclean n b) || never n b)
      | PAlt a b => fclean n a && fclean n b
      | PAnd e => fclean n e
      | PNot e => quiet (S n) e
      | PPlus e => fclean n e
      | PRef None A => match g A with Some body => fclean n body | None => false end
      | PRef (Some _) _ => true
      end
    end.
  Lemma prune_forest_app F G : prune_forest (F ++ G) = prune_forest F ++ prune_forest G.
  Proof. induction F as [|t F IH]; simpl; [done|]. destruct (keep t); simpl; by rewrite IH. Qed.
  Lemma star_never_fails e i o F : tr e i o F -> forall a, e = PStar a -> o = None -> False.
  Proof. induction 1; intros a0 E Ho; simplify_eq; eauto. Qed.
  Lemma never_sound e i o F : tr e i o F -> forall n, never n e = true -> o <> None.
  Proof.
    induction 1; intros [|n] Hq Ho; simpl in Hq; try done; subst.
    - apply andb_true_iff in Hq as [H1 H2]. by eapply IHtrace2.
    - apply andb_true_iff in Hq as [H1 H2]. by eapply IHtrace.
    - eapply star_never_fails; [exact H0|done|done].
    - destruct l; [done|]. rewrite H in Hq. by eapply IHtrace.
  Qed.
  Lemma fclean_sound e i o F : tr e i o F -> forall n, fclean n e = true -> o = None -> prune_forest F = [].
  Proof.
    induction 1; intros [|n] Hq Ho; simpl in Hq; try done; subst.
    - apply andb_true_iff in Hq as [Hq1 [[Hq2 Hq3]%andb_true_iff|Hq3]%orb_true_iff].
      + rewrite (quiet_sound _ _ _ _ H (S n) Hq2). simpl. eauto.
      + by destruct (never_sound _ _ _ _ H0 n Hq3).
    - apply andb_true_iff in Hq as [Hq1 _]. eauto.
    - apply andb_true_iff in Hq as [Hq1 Hq2]. rewrite prune_forest_app.
      rewrite (IHtrace1 n), (IHtrace2 n) by done. done.
    - eauto.
    - rewrite (quiet_sound _ _ _ _ H (S n) Hq). done.
    - exfalso. eapply star_never_fails; [exact H0|done|done].
    - eauto.
    - exfalso. eapply star_never_fails; [exact H0|done|done].
    - destruct l; [done|]. rewrite H in Hq. simpl. eauto.
  Qed.

  (** Consumption. *)
  Context (nul : N -> bool).
  Hypothesis Hnul : forall A body, g A = Some body -> nullable nul body = true -> nul A = true.
  Lemma tr_consumes e i o F : tr e i o F -> forall j, o = Some j -> i <= j /\ (j = i -> nullable nul e = true).
  Proof using Hnul.
    induction 1; intros j' E; simplify_eq; simpl;
      try (destruct (IHtrace1 _ eq_refl) as [H1' H2']); try (destruct (IHtrace2 _ eq_refl) as [H3' H4']);
      try (destruct (IHtrace _ eq_refl) as [H1' H2']); try (split; [lia|done || lia]).
    - split; [lia|]. destruct l; simpl; [done|lia].
    - split; [lia|]. intros ->. assert (j = i) as -> by lia. rewrite H2', H4' by done. done.
    - split; [lia|]. intros ->. rewrite H2' by done. done.
    - split; [lia|]. intros ->. rewrite H4' by done. apply orb_true_r.
    - split; [lia|]. intros ->. apply H2'. lia.
    - split; [lia|]. intros ->. eapply Hnul; [done|]. auto.
  Qed.
End trace.
