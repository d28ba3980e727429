(** More fuel never changes an answer: [eval] is monotone in fuel, for every
    program whose hooks are themselves monotone in the closure they wrap. *)
From Verif Require Export ProofBasics.

Definition hooks_mono {U} (pr : program U) : Prop :=
  forall h src f g, p_le f g -> p_le (pr_hook pr h src f) (pr_hook pr h src g).

Section fuel.
  Context {U : Type}.
  Implicit Types f g : parser U.

  Ltac mono :=
    repeat first
      [ apply m_le_refl
      | apply m_le_bind; [|intros ?]
      | match goal with |- context [let '(_, _) := ?x in _] => destruct x end
      | match goal with |- m_le (if ?b then _ else _) (if ?b then _ else _) => destruct b end
      | match goal with |- m_le (match ?o with Some _ => _ | None => _ end) _ => destruct o end
      | match goal with H : p_le ?f _ |- m_le (?f _ _) _ => apply H end ].

  Lemma and_mono f g : p_le f g -> p_le (and_predicate_kernel f) (and_predicate_kernel g).
  Proof. intros H k p. unfold and_predicate_kernel. mono. Qed.
  Lemma not_mono f g : p_le f g -> p_le (not_predicate_kernel f) (not_predicate_kernel g).
  Proof. intros H k p. unfold not_predicate_kernel. mono. Qed.
  Lemma opt_mono f g : p_le f g -> p_le (optional_kernel f) (optional_kernel g).
  Proof. intros H k p. unfold optional_kernel. mono. Qed.
  Lemma sub_mono f g : p_le f g -> p_le (subexpression_kernel f) (subexpression_kernel g).
  Proof. intros H k p. unfold subexpression_kernel. mono. Qed.
  Lemma seq_mono f g f' g' : p_le f g -> p_le f' g' -> p_le (sequence_kernel f f') (sequence_kernel g g').
  Proof. intros H H' k p. unfold sequence_kernel. mono. Qed.
  Lemma choice_mono f g f' g' : p_le f g -> p_le f' g' -> p_le (ordered_choice_kernel f f') (ordered_choice_kernel g g').
  Proof. intros H H' k p. unfold ordered_choice_kernel. mono. Qed.
  Lemma loop_mono f g n m : p_le f g -> (n <= m)%nat -> p_le (repeat_loop n f) (repeat_loop m g).
  Proof.
    intros H. revert m. induction n as [|n IH]; intros m Hm k p.
    - intros st Hn. done.
    - destruct m as [|m]; [lia|]. simpl. mono. apply IH. lia.
  Qed.
  Lemma plus_mono f g n m : p_le f g -> (n <= m)%nat -> p_le (one_or_more_kernel n f) (one_or_more_kernel m g).
  Proof. intros H Hm k p. unfold one_or_more_kernel. mono. by apply loop_mono. Qed.
  Lemma default_mono f g : p_le f g -> forall r k p, m_le (default_behaviour f r k p) (default_behaviour g r k p).
  Proof. intros H r k p. unfold default_behaviour. mono. Qed.
  Lemma var_mono f g r : p_le f g -> p_le (var_name_kernel r f) (var_name_kernel r g).
  Proof. intros H k p. unfold var_name_kernel. mono. Qed.

  Lemma growth_loop_mono f g n m : p_le f g -> (n <= m)%nat ->
    forall r k p a l lk ck, m_le (growth_loop n r k p f a l lk ck) (growth_loop m r k p g a l lk ck).
  Proof.
    intros H. revert m. induction n as [|n IH]; intros m Hm r k p a l lk ck.
    - intros st Hn. done.
    - destruct m as [|m]; [lia|]. simpl.
      apply m_le_bind; [apply m_le_refl|intros _].
      apply m_le_bind; [apply H|intros res].
      apply m_le_bind; [apply m_le_refl|intros c].
      destruct (check c r p) as [[[b e] kk]|].
      + mono. apply IH. lia.
      + mono. apply IH. lia.
  Qed.
  Lemma lr_mono f g n m inv r : p_le f g -> (n <= m)%nat ->
    p_le (var_name_kernel_indirect_left_recursion n inv r f) (var_name_kernel_indirect_left_recursion m inv r g).
  Proof.
    intros H Hm k p. unfold var_name_kernel_indirect_left_recursion, growth_function.
    mono. by apply growth_loop_mono.
  Qed.

  Context (pr : program U) (src : source) (Hh : hooks_mono pr).

  Lemma eval_mono n m e : (n <= m)%nat -> p_le (eval pr src n e) (eval pr src m e).
  Proof.
    revert m e. induction n as [|n IH]; intros m e Hm.
    - intros k p st Hn. done.
    - destruct m as [|m]; [lia|]. assert (Hle : (n <= m)%nat) by lia.
      destruct e; simpl; try apply p_le_refl.
      + apply seq_mono; auto.
      + apply choice_mono; auto.
      + apply and_mono; auto.
      + apply not_mono; auto.
      + apply plus_mono; auto.
      + apply loop_mono; auto.
      + apply opt_mono; auto.
      + apply sub_mono; auto.
      + apply var_mono. intros k p. destruct (pr_fn pr f); [by apply IH|apply m_le_refl].
      + intros k p. destruct (pr_fn pr f); [by apply IH|apply m_le_refl].
      + apply lr_mono; [|done]. intros k p. destruct (pr_fn pr f); [by apply IH|apply m_le_refl].
      + apply Hh. auto.
  Qed.

  Lemma eval_mono_Ok n m e k p st r :
    eval pr src n e k p st = Ok r -> (n <= m)%nat -> eval pr src m e k p st = Ok r.
  Proof. intros H Hm. eapply res_le_Ok; [by apply eval_mono|done]. Qed.

  (** Answers are unique. *)
  Lemma eval_unique n m e k p st r r' :
    eval pr src n e k p st = Ok r -> eval pr src m e k p st = Ok r' -> r = r'.
  Proof.
    intros H1 H2. apply (eval_mono_Ok _ (n `max` m)%nat) in H1; [|lia].
    apply (eval_mono_Ok _ (n `max` m)%nat) in H2; [|lia]. congruence.
  Qed.
  Lemma eval_no_panic n m e k p st r pn :
    eval pr src n e k p st = Ok r -> eval pr src m e k p st <> Panic pn.
  Proof.
    intros H1 H2. apply (eval_mono_Ok _ (n `max` m)%nat) in H1; [|lia].
    assert (Hle := eval_mono m (n `max` m)%nat e ltac:(lia) k p st). unfold res_le in Hle.
    rewrite H2 in Hle. specialize (Hle ltac:(done)). congruence.
  Qed.
End fuel.
