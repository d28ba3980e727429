(** Decision procedures for the side conditions on grammar files, sound for
    the specification's definitions; used on the concrete files. *)
From Verif Require Import SpecGenerator SpecMeaning ProofLeft ProofMeaning ProofFirst Programs.
From stdpp Require Import relations gmap.
Local Open Scope N_scope.

Section checks.
  Context (rules : list drule).
  Definition is_declared (m : name) : bool := match body_of rules m with Some _ => true | None => false end.
  Lemma body_in n b : body_of rules n = Some b -> exists r, r ∈ rules /\ dr_name r = n /\ dr_body r = b.
  Proof. intros H. apply body_of_rule in H as (k & r & Hk & ? & ?). exists r. split; [by eapply elem_of_list_lookup_2|done]. Qed.
  Definition refs_declared_b : bool := forallb (fun r => forallb is_declared (refs (dr_body r))) rules.
  Lemma refs_declared_ok : refs_declared_b = true -> refs_declared rules.
  Proof.
    intros H n m (b & Hb & Hm). apply body_in in Hb as (r & Hr & <- & <-). unfold refs_declared_b in H. rewrite forallb_forall in H.
    specialize (H r ltac:(by apply elem_of_list_In)). rewrite forallb_forall in H. specialize (H m ltac:(by apply elem_of_list_In)).
    unfold is_declared in H. unfold declared. destruct (body_of rules m); eauto. done.
  Qed.
  Definition hook_free_b : bool := forallb (fun r => match hooks_of (dr_body r) with [] => true | _ => false end) rules.
  Lemma hook_free_ok : hook_free_b = true -> hook_free rules.
  Proof.
    intros H r Hr. unfold hook_free_b in H. rewrite forallb_forall in H. specialize (H r ltac:(by apply elem_of_list_In)).
    by destruct (hooks_of (dr_body r)).
  Qed.
  Definition plain_b : bool := forallb (fun r => plain_literals (dr_body r)) rules.
  Lemma plain_ok : plain_b = true -> forall r, r ∈ rules -> plain_literals (dr_body r) = true.
  Proof. intros H r Hr. unfold plain_b in H. rewrite forallb_forall in H. apply H. by apply elem_of_list_In. Qed.

  (** Rules that may match nothing: a closed set of names. *)
  Definition in_names (l : list name) (n : name) : bool := bool_decide (n ∈ l).
  Fixpoint grow (k : nat) (l : list name) : list name :=
    match k with O => l | S k => grow k (map dr_name (List.filter (fun r => empties (in_names l) (dr_body r)) rules)) end.
  Definition nullables : list name := grow (length rules) [].
  Definition nul : name -> bool := in_names nullables.
  Definition nul_closed : bool := forallb (fun r => implb (empties nul (dr_body r)) (nul (dr_name r))) rules.
  Lemma nul_empties : nul_closed = true -> forall e, may_be_empty rules e -> empties nul e = true.
  Proof.
    intros H. apply empties_complete. intros n. unfold step. destruct (body_of rules n) as [b|] eqn:E; [|done].
    apply body_in in E as (r & Hr & <- & <-). unfold nul_closed in H. rewrite forallb_forall in H. specialize (H r ltac:(by apply elem_of_list_In)).
    intros He. by rewrite He in H.
  Qed.
  Lemma starts_complete : nul_closed = true -> forall e m, starts_with rules e m -> m ∈ starts nul e.
  Proof.
    intros Hc e m H. induction H as [n| | | | | | | |es1 e es2 n He _ IH|es e n He _ IH]; cbn [starts]; try done.
    - by apply elem_of_list_singleton.
    - change (n ∈ starts_seq nul (es1 ++ e :: es2)). induction es1 as [|a es1 IHs]; cbn [app starts_seq].
      + apply elem_of_app. by left.
      + apply elem_of_app. right. inversion He; subst. rewrite (nul_empties Hc) by done. by apply IHs.
    - apply elem_of_list_In, in_concat. exists (starts nul e). split; [|by apply elem_of_list_In]. apply in_map. by apply elem_of_list_In.
  Qed.
  Fixpoint loops_b (e : dexp) : bool :=
    match e with
    | DPlus e | DStar e => negb (empties nul e) && loops_b e
    | DGroup e | DHook _ e | DAnd e | DNot e | DOpt e => loops_b e
    | DSeq es | DAlt es => forallb loops_b es
    | _ => true
    end.
  Definition no_empty_loops_b : bool := nul_closed && forallb (fun r => loops_b (dr_body r)) rules.
  Lemma no_empty_loops_ok : no_empty_loops_b = true -> no_empty_loops rules.
  Proof.
    unfold no_empty_loops_b. rewrite andb_true_iff, forallb_forall. intros [Hc H] r Hr. specialize (H r ltac:(by apply elem_of_list_In)).
    revert H. generalize (dr_body r). intros e. 
    induction e as [c|l|ds|ds|a b|n|e IH|n e IH|e IH|e IH|e IH|e IH|e IH|es IH|es IH] using dexp_ind'; simpl; try done.
    - rewrite andb_true_iff, negb_true_iff. intros [H1 H2]. split; [|auto]. intros Hm. apply (nul_empties Hc) in Hm. congruence.
    - rewrite andb_true_iff, negb_true_iff. intros [H1 H2]. split; [|auto]. intros Hm. apply (nul_empties Hc) in Hm. congruence.
    - induction IH as [|x es H _ IHs]; simpl; [done|]. rewrite andb_true_iff. intros [? ?]. split; [by apply H|by apply IHs].
    - induction IH as [|x es H _ IHs]; simpl; [done|]. rewrite andb_true_iff. intros [? ?]. split; [by apply H|by apply IHs].
  Qed.

  (** Graphs on rule names: an edge from each rule to the names [next] lists. *)
  Section graph.
    Context (next : dexp -> list name).
    Definition edge (n m : name) : Prop := exists b, body_of rules n = Some b /\ m ∈ next b.
    Definition rank_of (t : list (name * nat)) (n : name) : nat := match List.find (fun x => bool_decide (fst x = n)) t with Some (_, k) => k | None => 0%nat end.
    Definition ranks_step (t : list (name * nat)) : list (name * nat) :=
      map (fun r => (dr_name r, S (list_max (map (rank_of t) (next (dr_body r)))))) rules.
    Fixpoint ranks (k : nat) (t : list (name * nat)) : list (name * nat) := match k with O => t | S k => ranks k (ranks_step t) end.
    Definition acyclic_b : bool :=
      let rk := rank_of (ranks (length rules) []) in
      forallb (fun r => forallb (fun m => (rk m <? rk (dr_name r))%nat) (next (dr_body r))) rules.
    Lemma acyclic_ok : acyclic_b = true -> forall n, ~ tc edge n n.
    Proof.
      unfold acyclic_b. set (rk := rank_of _). clearbody rk. intros H.
      assert (He : forall n m, edge n m -> (rk m < rk n)%nat).
      { intros n m (b & Hb & Hm). apply body_in in Hb as (r & Hr & <- & <-). rewrite forallb_forall in H. specialize (H r ltac:(by apply elem_of_list_In)).
        rewrite forallb_forall in H. specialize (H m ltac:(by apply elem_of_list_In)). by apply Nat.ltb_lt. }
      assert (Ht : forall n m, tc edge n m -> (rk m < rk n)%nat).
      { intros n m Hn. induction Hn as [n m Hn|n m q Hn _ IH]; [auto|]. apply He in Hn. lia. }
      intros n Hn. apply Ht in Hn. lia.
    Qed.
    (** Reachable names. *)
    Definition targets (n : name) : list name := match body_of rules n with Some b => next b | None => [] end.
    Fixpoint reach (k : nat) (l : list name) : list name := match k with O => l | S k => reach k (remove_dups (l ++ concat (map targets l))) end.
    Definition reach_closed (l : list name) : bool := forallb (fun n => forallb (in_names l) (targets n)) l.
    Lemma reach_ok l n m : reach_closed l = true -> n ∈ l -> rtc edge n m -> m ∈ l.
    Proof.
      intros Hc Hn Hr. induction Hr as [|n p m Hp _ IH]; [done|]. apply IH. destruct Hp as (b & Hb & Hp).
      unfold reach_closed in Hc. rewrite forallb_forall in Hc. specialize (Hc n ltac:(by apply elem_of_list_In)). rewrite forallb_forall in Hc.
      unfold targets in Hc. rewrite Hb in Hc. specialize (Hc p ltac:(by apply elem_of_list_In)). by apply bool_decide_eq_true in Hc.
    Qed.
  End graph.
  Lemma tc_mono {A} (R R' : A -> A -> Prop) : (forall x y, R x y -> R' x y) -> forall x y, tc R x y -> tc R' x y.
  Proof. intros H x y Ht. induction Ht as [x y Hx|x y z Hx _ IH]; [apply tc_once; auto|eapply tc_l; eauto]. Qed.

  Definition not_left_recursive_b : bool := acyclic_b lefts.
  Lemma not_left_recursive_ok : not_left_recursive_b = true -> forall n, ~ left_recursive rules n.
  Proof. intros H n (m & _ & Hm). by apply (acyclic_ok lefts H m). Qed.
  Definition first_acyclic_b : bool := nul_closed && acyclic_b (starts nul).
  Lemma first_edge : nul_closed = true -> forall n m, first_calls rules n m -> edge (starts nul) n m.
  Proof. intros Hc n m (e & He & Hm). exists e. split; [done|]. by apply starts_complete. Qed.
  Lemma first_acyclic_ok : first_acyclic_b = true -> forall n, ~ tc (first_calls rules) n n.
  Proof.
    unfold first_acyclic_b. rewrite andb_true_iff. intros [Hc H] n Hn. apply (acyclic_ok _ H n). eapply tc_mono; [|exact Hn]. by apply first_edge.
  Qed.
  Definition cycles_visible_b : bool :=
    nul_closed && forallb (fun r => forallb (fun m =>
      let l := reach (starts nul) (length rules) [m] in
      in_names (lefts (dr_body r)) m || (in_names l m && reach_closed (starts nul) l && negb (in_names l (dr_name r)))) (starts nul (dr_body r))) rules.
  Lemma cycles_visible_ok : cycles_visible_b = true ->
    forall n m, first_calls rules n m -> rtc (first_calls rules) m n -> left_calls rules n m.
  Proof.
    unfold cycles_visible_b. rewrite andb_true_iff, forallb_forall. intros [Hc H] n m Hnm Hr. pose proof Hnm as (b & Hb & _).
    destruct (first_edge Hc _ _ Hnm) as (b' & Hb' & Hm). assert (b' = b) as -> by congruence. pose proof Hb as Hb0.
    apply body_in in Hb as (r & Hrr & <- & <-). specialize (H r ltac:(by apply elem_of_list_In)). rewrite forallb_forall in H.
    specialize (H m ltac:(by apply elem_of_list_In)). cbv zeta in H. set (l := reach _ _ _) in H. apply orb_true_iff in H as [H|H].
    - apply bool_decide_eq_true in H. exists (dr_body r). done.
    - rewrite !andb_true_iff, negb_true_iff in H. destruct H as [[H1 H2] H3]. apply bool_decide_eq_true in H1. apply bool_decide_eq_false in H3.
      destruct H3. eapply reach_ok; [exact H2|exact H1|]. eapply rtc_subrel; [|exact Hr]. by apply first_edge.
  Qed.
End checks.
