(** Facts about the PEG specification: traces and outcomes determine each
    other, both are deterministic; an interpreter for induction on height. *)
From Verif Require Export Base SpecPeg.
From Coq Require Import Lia.
Local Open Scope N_scope.

Lemma trace_peg g s e i o F : trace g s e i o F -> peg g s e i o.
Proof. induction 1; eauto using peg. Qed.
Lemma peg_trace g s e i o : peg g s e i o -> exists F, trace g s e i o F.
Proof.
  induction 1; repeat match goal with H : exists _, _ |- _ => destruct H end;
    eauto using trace.
Qed.

Global Instance occurs_at_dec s i l : Decision (occurs_at s i l).
Proof. unfold occurs_at. apply _. Defined.

Lemma occurs_at_nil s i : occurs_at s i [].
Proof. done. Qed.
Lemma occurs_at_cons s i c l :
  occurs_at s i (c :: l) <-> s !! N.to_nat i = Some c /\ occurs_at s (i + 1) l.
Proof.
  unfold occurs_at. simpl. rewrite N.add_1_r, N2Nat.inj_succ.
  destruct (s !! N.to_nat i) as [v|] eqn:E.
  - rewrite (drop_S s v (N.to_nat i)) by done. simpl. split.
    + intros H. injection H as H1 H2. split; [congruence|done].
    + intros [[= ->] H]. by rewrite H.
  - rewrite drop_ge by by apply lookup_ge_None. simpl. split; [done|]. by intros [? ?].
Qed.

Section run.
  Context (g : pgrammar) (s : list N).

  Fixpoint run (n : nat) (e : pexp) (i : N) : option (option N * list ptree) :=
    match n with
    | O => None
    | S n =>
      match e with
      | PChar c => if decide (s !! N.to_nat i = Some c) then Some (Some (i + 1), []) else Some (None, [])
      | PRange a b =>
        match s !! N.to_nat i with
        | Some x => if (a <=? x) && (x <=? b) then Some (Some (i + 1), []) else Some (None, [])
        | None => Some (None, [])
        end
      | PStr l => if decide (take (length l) (drop (N.to_nat i) s) = l)
                  then Some (Some (i + N.of_nat (length l)), []) else Some (None, [])
      | PSeq e1 e2 =>
        match run n e1 i with
        | None => None
        | Some (None, F) => Some (None, F)
        | Some (Some j, F) =>
          match run n e2 j with None => None | Some (o, F2) => Some (o, F ++ F2) end
        end
      | PAlt e1 e2 =>
        match run n e1 i with
        | None => None
        | Some (Some j, F) => Some (Some j, F)
        | Some (None, F) =>
          match run n e2 i with None => None | Some (o, F2) => Some (o, F ++ F2) end
        end
      | PAnd e => match run n e i with
                  | None => None | Some (Some _, F) => Some (Some i, F) | Some (None, F) => Some (None, F) end
      | PNot e => match run n e i with
                  | None => None | Some (Some _, F) => Some (None, F) | Some (None, F) => Some (Some i, F) end
      | PStar e =>
        match run n e i with
        | None => None
        | Some (None, F) => Some (Some i, F)
        | Some (Some j, F) =>
          match run n (PStar e) j with None => None | Some (o, F2) => Some (o, F ++ F2) end
        end
      | PPlus e =>
        match run n e i with
        | None => None
        | Some (None, F) => Some (None, F)
        | Some (Some j, F) =>
          match run n (PStar e) j with None => None | Some (o, F2) => Some (o, F ++ F2) end
        end
      | POpt e => match run n e i with
                  | None => None | Some (Some j, F) => Some (Some j, F) | Some (None, F) => Some (Some i, F) end
      | PRef l A =>
        match g A with
        | None => None
        | Some body => match run n body i with
                       | None => None | Some (o, F) => Some (o, record l i o F) end
        end
      end
    end.

  Lemma run_mono n m e i r : run n e i = Some r -> (n <= m)%nat -> run m e i = Some r.
  Proof.
    revert m e i r. induction n as [|n IH]; intros m e i r H Hm; [discriminate|].
    destruct m as [|m]; [lia|]. assert (Hle : (n <= m)%nat) by lia.
    destruct e; simpl in *;
      repeat match goal with
      | H : context [match run n ?e ?i with _ => _ end] |- _ =>
          destruct (run n e i) as [[[?|] ?]|] eqn:?; try discriminate
      | H : run n ?e ?i = Some _ |- context [run m ?e ?i] => rewrite (IH m e i _ H Hle)
      | |- context [match g ?A with _ => _ end] => destruct (g A) eqn:?; try discriminate
      end; eauto.
  Qed.

  Lemma run_trace n e i o F : run n e i = Some (o, F) -> trace g s e i o F.
  Proof.
    revert e i o F. induction n as [|n IH]; intros e i o F H; [discriminate|].
    destruct e; simpl in H.
    - case_decide; simplify_eq; constructor; done.
    - case_decide; simplify_eq; constructor; done.
    - destruct (s !! N.to_nat i) as [x|] eqn:E.
      + destruct ((a <=? x) && (x <=? b)) eqn:E2; simplify_eq.
        * apply andb_true_iff in E2 as [?%N.leb_le ?%N.leb_le]. econstructor; eauto.
        * apply andb_false_iff in E2. constructor. intros y Hy [??]. rewrite E in Hy. simplify_eq.
          destruct E2 as [E2|E2]; apply N.leb_gt in E2; lia.
      + simplify_eq. constructor. intros y Hy. congruence.
    - destruct (run n e1 i) as [[[j|] F1]|] eqn:E; try discriminate.
      + destruct (run n e2 j) as [[o2 F2]|] eqn:E2; simplify_eq. econstructor; eauto.
      + simplify_eq. econstructor; eauto.
    - destruct (run n e1 i) as [[[j|] F1]|] eqn:E; try discriminate.
      + simplify_eq. econstructor; eauto.
      + destruct (run n e2 i) as [[o2 F2]|] eqn:E2; simplify_eq. eapply tr_alt_2; eauto.
    - destruct (run n e i) as [[[j|] F1]|] eqn:E; simplify_eq; econstructor; eauto.
    - destruct (run n e i) as [[[j|] F1]|] eqn:E; simplify_eq; econstructor; eauto.
    - destruct (run n e i) as [[[j|] F1]|] eqn:E; try discriminate.
      + destruct (run n (PStar e) j) as [[o2 F2]|] eqn:E2; simplify_eq. econstructor; eauto.
      + simplify_eq. econstructor; eauto.
    - destruct (run n e i) as [[[j|] F1]|] eqn:E; try discriminate.
      + destruct (run n (PStar e) j) as [[o2 F2]|] eqn:E2; simplify_eq. econstructor; eauto.
      + simplify_eq. econstructor; eauto.
    - destruct (run n e i) as [[[j|] F1]|] eqn:E; simplify_eq; eauto using trace.
    - destruct (g A) as [body|] eqn:E; try discriminate.
      destruct (run n body i) as [[o2 F2]|] eqn:E2; simplify_eq. econstructor; eauto.
  Qed.

  Lemma trace_run e i o F : trace g s e i o F -> exists n, run n e i = Some (o, F).
  Proof.
    induction 1;
      repeat match goal with H : exists n, run n _ _ = _ |- _ =>
        let n := fresh "n" in let H' := fresh "Hr" in destruct H as [n H'] end;
      try match goal with
      | H1 : run ?n1 _ _ = _, H2 : run ?n2 _ _ = _ |- _ =>
          exists (S (n1 `max` n2)); simpl;
          rewrite (run_mono n1 (n1 `max` n2) _ _ _ H1), (run_mono n2 (n1 `max` n2) _ _ _ H2) by lia; reflexivity
      | H1 : run ?n1 _ _ = _ |- _ => exists (S n1); simpl; rewrite ?H1; reflexivity
      end.
    1,2: exists 1%nat; simpl; case_decide; done.
    - exists 1%nat; simpl. rewrite H. destruct H0 as [?%N.leb_le ?%N.leb_le].
      by rewrite H0, H1.
    - exists 1%nat; simpl. destruct (s !! N.to_nat i) as [x|] eqn:E; [|done].
      destruct ((a <=? x) && (x <=? b)) eqn:E2; [|done].
      apply andb_true_iff in E2 as [?%N.leb_le ?%N.leb_le]. exfalso. by apply (H x).
    - exists 1%nat; simpl. unfold occurs_at in *. case_decide; done.
    - exists 1%nat; simpl. unfold occurs_at in *. case_decide; done.
    - eexists (S _); simpl. rewrite H. by rewrite Hr.
  Qed.
End run.

Lemma trace_det g s e i o F o' F' :
  trace g s e i o F -> trace g s e i o' F' -> o = o' /\ F = F'.
Proof.
  intros [n Hn]%trace_run [m Hm]%trace_run.
  apply (run_mono _ _ n (n `max` m)%nat) in Hn; [|lia].
  apply (run_mono _ _ m (n `max` m)%nat) in Hm; [|lia]. split; congruence.
Qed.
Lemma peg_det g s e i o o' : peg g s e i o -> peg g s e i o' -> o = o'.
Proof. intros [F ?]%peg_trace [F' ?]%peg_trace. by eapply trace_det. Qed.

(** Positions: consumption never moves left nor beyond the input. *)
Lemma occurs_at_bound s i l :
  occurs_at s i l -> l <> [] -> i + N.of_nat (length l) <= N.of_nat (length s).
Proof.
  unfold occurs_at. intros H Hl.
  assert (length (take (length l) (drop (N.to_nat i) s)) = length l) as H2 by by rewrite H.
  rewrite take_length, drop_length in H2.
  assert (length l <> 0%nat) by (destruct l; [done|discriminate]). lia.
Qed.

Lemma peg_bounds g s e i j :
  peg g s e i (Some j) -> i <= j /\ (j = i \/ j <= N.of_nat (length s)).
Proof.
  intros H. remember (Some j) as o eqn:Ho. revert j Ho.
  induction H; intros jj Hjj; simplify_eq; eauto.
  all: try (apply lookup_lt_Some in H; lia).
  all: try (destruct (IHpeg1 _ eq_refl), (IHpeg2 _ eq_refl); lia).
  all: try lia.
  destruct (decide (l = [])) as [->|Hl]; [simpl; lia|].
  pose proof (occurs_at_bound _ _ _ H Hl). lia.
Qed.
