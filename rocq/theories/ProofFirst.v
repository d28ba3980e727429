(** Rules that may match nothing, first calls, and levels. *)
From Verif Require Import SpecGenerator SpecMeaning SpecProgram SpecCfg ProofPeg ProofLeft SpecLR SpecTerm ProofMeaning Programs.
From stdpp Require Import relations gmap.
Local Open Scope N_scope.

Fixpoint empties (nul : name -> bool) (e : dexp) : bool :=
  match e with
  | DQuoted c => bool_decide (c = [])
  | DString l => bool_decide (string_bytes l = Some [])
  | DHexLit _ | DIntLit _ | DRange _ _ => false
  | DRef n => nul n
  | DGroup e | DHook _ e | DPlus e => empties nul e
  | DAnd _ | DNot _ | DStar _ | DOpt _ => true
  | DSeq es => forallb (empties nul) es
  | DAlt es => existsb (empties nul) es
  end.
Fixpoint starts (nul : name -> bool) (e : dexp) : list name :=
  match e with
  | DRef n => [n]
  | DGroup e | DHook _ e | DPlus e | DAnd e | DNot e | DStar e | DOpt e => starts nul e
  | DSeq es => (fix go (es : list dexp) : list name :=
      match es with [] => [] | e :: es => starts nul e ++ if empties nul e then go es else [] end) es
  | DAlt es => concat (map (starts nul) es)
  | _ => []
  end.
Definition starts_seq (nul : name -> bool) : list dexp -> list name :=
  fix go (es : list dexp) : list name := match es with [] => [] | e :: es => starts nul e ++ if empties nul e then go es else [] end.

Scheme me_mind := Minimality for may_be_empty Sort Prop with ae_mind := Minimality for all_empty Sort Prop.
Combined Scheme me_mutind from me_mind, ae_mind.

Lemma literal_empties nul e l : literal e = Some l -> empties nul e = bool_decide (l = []).
Proof.
  destruct e as [c|l'|ds| | | | | | | | | | | |]; simpl; try done.
  - destruct c as [|a [|b [|]]]; simpl; try done; [by intros [= <-]|by intros [= <-]|].
    destruct (negb _); [done|]. repeat case_match; simpl; try done; by intros [= <-].
  - intros ->. apply bool_decide_ext. split; [by intros [= ->]|by intros ->].
  - by intros [= <-].
Qed.

Lemma all_empty_forall rules es : all_empty rules es <-> Forall (may_be_empty rules) es.
Proof.
  split; [induction 1; by constructor|induction 1; by constructor].
Qed.

Section nullable_rules.
  Context (rules : list drule).
  Definition step (nul : name -> bool) (n : name) : bool := match body_of rules n with Some b => empties nul b | None => false end.
  Definition below (f g : name -> bool) : Prop := forall n, f n = true -> g n = true.

  Lemma empties_mono f g : below f g -> forall e, empties f e = true -> empties g e = true.
  Proof.
    intros Hfg e. induction e as [c|l|ds|ds|a b|n|e IH|n e IH|e IH|e IH|e IH|e IH|e IH|es IH|es IH] using dexp_ind'; simpl; try done; auto.
    - rewrite !forallb_forall. intros H x Hx. rewrite list.Forall_forall in IH. apply IH; [by apply elem_of_list_In|auto].
    - rewrite !existsb_exists. intros (x & Hx & H). rewrite list.Forall_forall in IH. exists x. split; [done|]. apply IH; [by apply elem_of_list_In|auto].
  Qed.
  Lemma empties_sound nul : (forall n, nul n = true -> may_be_empty rules (DRef n)) -> forall e, empties nul e = true -> may_be_empty rules e.
  Proof.
    intros Hn e. induction e as [c|l|ds|ds|a b|n|e IH|n e IH|e IH|e IH|e IH|e IH|e IH|es IH|es IH] using dexp_ind'; simpl; intros H; try done; try (constructor; auto; fail); auto.
    - apply bool_decide_eq_true in H as ->. by apply me_literal.
    - apply bool_decide_eq_true in H. by apply me_literal.
    - apply me_seq. apply all_empty_forall. rewrite forallb_forall in H. rewrite list.Forall_forall in IH |- *. intros x Hx. apply IH; [done|].
      apply H. by apply elem_of_list_In.
    - apply existsb_exists in H as (x & Hx & H). rewrite list.Forall_forall in IH. apply elem_of_list_In in Hx. eapply me_alt; [done|]. auto.
  Qed.
  Lemma empties_complete nul : (forall n, step nul n = true -> nul n = true) -> 
    (forall e, may_be_empty rules e -> empties nul e = true) /\ (forall es, all_empty rules es -> forallb (empties nul) es = true).
  Proof.
    intros Hn. apply me_mutind; simpl; auto.
    - intros e He. by rewrite (literal_empties nul e [] He).
    - intros n body Hb _ IH. apply Hn. unfold step. by rewrite Hb.
    - intros es e He _ IH. apply existsb_exists. exists e. split; [by apply elem_of_list_In|done].
    - intros e es _ H1 _ H2. by rewrite H1, H2.
  Qed.

  (** The least fixpoint exists: the set of names can only grow
      [length rules] times. *)
  Definition count (nul : name -> bool) : nat := length (filter (fun n => nul n = true) (map dr_name rules)).
  Lemma count_le nul : (count nul <= length rules)%nat.
  Proof. unfold count. etrans; [apply filter_length|]. by rewrite map_length. Qed.
  Lemma filter_grow (f g : name -> bool) l : below f g -> (length (filter (fun n => f n = true) l) <= length (filter (fun n => g n = true) l))%nat /\
    (length (filter (fun n => f n = true) l) = length (filter (fun n => g n = true) l) -> forall n, n ∈ l -> g n = true -> f n = true).
  Proof.
    intros Hfg. induction l as [|x l [IH1 IH2]]; simpl; [split; [done|intros _ n Hn; by apply elem_of_nil in Hn]|].
    rewrite !filter_cons. destruct (decide (f x = true)) as [Hf|Hf], (decide (g x = true)) as [Hg|Hg]; simpl.
    - split; [lia|]. intros E n Hn. apply elem_of_cons in Hn as [->|Hn]; [done|]. apply IH2; [lia|done].
    - by destruct Hg; apply Hfg.
    - split; [lia|]. intros E. lia.
    - split; [done|]. intros E n Hn. apply elem_of_cons in Hn as [->|Hn]; [done|]. by apply IH2.
  Qed.
  Lemma undeclared_step nul n : n ∉ map dr_name rules -> step nul n = false.
  Proof.
    intros Hn. unfold step. destruct (body_of rules n) as [b|] eqn:E; [|done]. apply body_of_rule in E as (k & r & Hk & <- & _).
    destruct Hn. apply elem_of_list_In, in_map. apply elem_of_list_In. by eapply elem_of_list_lookup_2.
  Qed.
  Lemma nul_exists : exists nul, (forall e, empties nul e = true <-> may_be_empty rules e).
  Proof.
    assert (H : forall k, (exists nul, (forall e, empties nul e = true <-> may_be_empty rules e)) \/
      exists nul, (forall n, nul n = true -> may_be_empty rules (DRef n)) /\ below nul (step nul) /\ (k <= count nul)%nat).
    { induction k as [|k [?|(nul & H1 & H2 & H3)]]; [right|by left|].
      - exists (fun _ => false). split; [done|]. split; [intros n [=]|lia].
      - assert (Hs : forall n, step nul n = true -> may_be_empty rules (DRef n)).
        { intros n. unfold step. destruct (body_of rules n) as [b|] eqn:E; [|done]. intros Hb. eapply me_ref; [done|]. by eapply empties_sound. }
        destruct (filter_grow nul (step nul) (map dr_name rules) H2) as [Hle Heq]. fold (count nul) (count (step nul)) in *.
        destruct (decide (count nul = count (step nul))) as [E|E].
        + left. exists nul. intros e. split; [by apply empties_sound|]. apply empties_complete. intros n Hn.
          destruct (decide (n ∈ map dr_name rules)) as [Hin|Hni]; [by apply Heq|]. by rewrite undeclared_step in Hn.
        + right. exists (step nul). split; [done|]. split; [|lia]. intros n. unfold step at 1 2. destruct (body_of rules n); [|done]. by apply empties_mono. }
    destruct (H (S (length rules))) as [?|(nul & _ & _ & Hk)]; [done|]. pose proof (count_le nul). lia.
  Qed.

  Lemma starts_sound nul : (forall e, empties nul e = true <-> may_be_empty rules e) -> forall e m, m ∈ starts nul e -> starts_with rules e m.
  Proof.
    intros Hn e. induction e as [c|l|ds|ds|a b|n|e IH|n e IH|e IH|e IH|e IH|e IH|e IH|es IH|es IH] using dexp_ind'; simpl; intros m Hm;
      try (by apply elem_of_nil in Hm); try (constructor; auto; fail).
    - apply elem_of_list_singleton in Hm as ->. constructor.
    - assert (H : forall pre, all_empty rules pre -> starts_with rules (DSeq (pre ++ es)) m); [|by apply (H []); constructor].
      induction IH as [|x xs Hx _ IHxs]; intros pre Hp; [by apply elem_of_nil in Hm|]. apply elem_of_app in Hm as [Hm|Hm]; [by apply sw_seq; [|apply Hx]|].
      destruct (empties nul x) eqn:Ex; [|by apply elem_of_nil in Hm]. rewrite cons_middle, app_assoc. apply IHxs; [done|].
      apply all_empty_forall. apply Forall_app. split; [by apply all_empty_forall|]. constructor; [by apply Hn|constructor].
    - apply elem_of_list_In, in_concat in Hm as (l & Hl & Hm). apply in_map_iff in Hl as (x & <- & Hx). apply elem_of_list_In in Hx, Hm.
      eapply sw_alt; [exact Hx|]. rewrite list.Forall_forall in IH. by apply IH.
  Qed.
End nullable_rules.

(** ** Levels of a finite acyclic graph *)
Section levels.
  Context {A : Type} `{EqDecision A} (next : A -> list A) (dom : list A).
  Context (Hdom : forall n, n ∉ dom -> next n = []).
  Notation R := (fun n m => m ∈ next n).
  Context (Hacyc : forall n, ~ tc R n n).

  Fixpoint depth (k : nat) (n : A) : nat := match k with O => O | S k => S (list_max (map (depth k) (next n))) end.
  Fixpoint bounded (k : nat) (n : A) : Prop := match k with O => False | S k => forall m, m ∈ next n -> bounded k m end.
  Lemma depth_max k n m : m ∈ next n -> (depth k m < depth (S k) n)%nat.
  Proof.
    intros Hm. simpl. apply Nat.lt_succ_r.
    assert (H : Forall (fun x => x <= list_max (map (depth k) (next n)))%nat (map (depth k) (next n))) by (by apply list_max_le).
    rewrite list.Forall_forall in H. apply H. apply elem_of_list_In, in_map. by apply elem_of_list_In.
  Qed.
  Lemma depth_stable k : forall n, bounded k n -> depth (S k) n = depth k n.
  Proof.
    induction k as [|k IH]; intros n Hb; [done|]. cbn [depth]. do 2 f_equal. apply map_ext_in. intros m Hm. apply IH. apply Hb. by apply elem_of_list_In.
  Qed.
  Lemma bounded_mono k : forall n, bounded k n -> bounded (S k) n.
  Proof. induction k as [|k IH]; intros n Hb; [done|]. intros m Hm. apply IH. by apply Hb. Qed.
  Lemma bounded_le k k' n : (k <= k')%nat -> bounded k n -> bounded k' n.
  Proof. induction 1; [done|]. intros. by apply bounded_mono, IHle. Qed.
  (** A path longer than the number of nodes repeats a node. *)
  Lemma bounded_all : forall n, bounded (S (length dom)) n.
  Proof.
    assert (H : forall k path n, NoDup path -> (forall x, x ∈ path -> x ∈ dom /\ tc R x n) -> (length dom <= k + length path)%nat -> bounded (S k) n).
    { induction k as [|k IH]; intros path n Hnd Hp Hl m Hm.
      - destruct (decide (n ∈ dom)) as [Hin|Hni]; [|rewrite (Hdom n Hni) in Hm; by apply elem_of_nil in Hm].
        assert (Hnp : n ∉ path) by (intros Hc; destruct (Hp _ Hc) as [_ Ht]; by apply (Hacyc n)).
        assert (Hsub : submseteq (n :: path) dom).
        { apply NoDup_submseteq; [by constructor|]. intros x Hx. apply elem_of_cons in Hx as [->|Hx]; [done|]. by apply Hp. }
        apply submseteq_length in Hsub. simpl in Hsub. simpl in Hl. exfalso. lia.
      - destruct (decide (n ∈ dom)) as [Hin|Hni]; [|rewrite (Hdom n Hni) in Hm; by apply elem_of_nil in Hm].
        assert (Hnp : n ∉ path) by (intros Hc; destruct (Hp _ Hc) as [_ Ht]; by apply (Hacyc n)).
        apply (IH (n :: path)); [by constructor| |simpl; lia].
        intros x Hx. apply elem_of_cons in Hx as [->|Hx]; [split; [done|by apply tc_once]|]. destruct (Hp _ Hx). split; [done|]. by eapply tc_r. }
    intros n. apply (H (length dom) []); [constructor|intros x Hx; by apply elem_of_nil in Hx|simpl; lia].
  Qed.
  Lemma levels_exist : exists lvl : A -> nat, forall n m, m ∈ next n -> (lvl m < lvl n)%nat.
  Proof using Hdom Hacyc EqDecision0.
    exists (depth (S (length dom))). intros n m Hm. pose proof (depth_max (S (length dom)) n m Hm) as H.
    rewrite (depth_stable _ n (bounded_all n)) in H. exact H.
  Qed.
End levels.

(** ** From first calls to the termination condition on compiled code *)
Section guards.
  Context (rules : list drule) (nul : name -> bool) (Hnul : forall e, empties nul e = true <-> may_be_empty rules e).
  Context (refok : name -> expr -> Prop).
  Context (lvl : name -> nat) (nulf : N -> bool) (lvlf : N -> nat).
  (** [lr n]: compiled with the left-recursion entry. *)
  Context (lr : name -> bool).
  Context (Hfn : forall n e, refok n e -> (exists l r f, e = ELR l r f /\ lr n = true /\ nulf f = nul n) \/
    (lr n = false /\ exists f, ((exists r, e = EVar r f) \/ e = EInline f) /\ lvlf f = lvl n /\ nulf f = nul n)).
  Notation st := (stands refok).

  Lemma stands_nullable : forall e e', st e e' -> nullable nulf (pexp_of e') = empties nul e.
  Proof using Hfn.
    intros e e' H. induction H as [e c El|e l El| |n e Hn| | | | | | |e es e' es' _ IH1 _ IH2|e es e' es' _ IH1 _ IH2| |] using stands_mind
      with (P0 := fun es es' => forallb (fun e' => nullable nulf (pexp_of e')) es' = forallb (empties nul) es /\
                             existsb (fun e' => nullable nulf (pexp_of e')) es' = existsb (empties nul) es); simpl; auto.
    - by rewrite (literal_empties nul e _ El).
    - rewrite (literal_empties nul e _ El). by destruct l.
    - destruct (Hfn n e Hn) as [(l & r & f & -> & _ & E)|(_ & f & [(r & ->)| ->] & _ & E)]; simpl; done.
    - destruct IH2 as [IH2 _]. rewrite <- IH1, <- IH2. clear. revert e'. induction es' as [|x es' IH]; intros e'; simpl; [by rewrite andb_true_r|].
      rewrite IH. simpl. by rewrite andb_assoc.
    - destruct IH2 as [_ IH2]. rewrite <- IH1, <- IH2. clear. revert e'. induction es' as [|x es' IH]; intros e'; simpl; [by rewrite orb_false_r|].
      rewrite IH. simpl. by rewrite orb_assoc.
    - destruct IHstands0 as [-> ->]. rewrite IHstands. done.
  Qed.

  Definition low (k : nat) (start : bool) (ns : list name) : Prop := start = true -> forall m, m ∈ ns -> lr m = false -> (lvl m < k)%nat.
  Lemma low_app k start a b : low k start (a ++ b) <-> low k start a /\ low k start b.
  Proof.
    unfold low. split.
    - intros H. split; intros Hs m Hm; apply H; try done; apply elem_of_app; auto.
    - intros [H1 H2] Hs m Hm. apply elem_of_app in Hm as [Hm|Hm]; auto.
  Qed.
  Fixpoint loops_all (es : list dexp) : Prop := match es with [] => True | e :: es => loops_consume rules e /\ loops_all es end.

  Lemma stands_guarded k : forall e e', st e e' -> forall start, low k start (starts nul e) -> loops_consume rules e -> guarded nulf lvlf k start e'.
  Proof using Hfn Hnul.
    intros e e' H. induction H as [e c El|e l El| |n e Hn|e e' Hst IH|e e' Hst IH|e e' Hst IH|e e' Hst IH|e e' Hst IH|e e' Hst IH|e es e' es' Hst IH1 _ IH2|e es e' es' Hst IH1 _ IH2| |e e' es es' Hst IH1 Hall IH2] using stands_mind
      with (P0 := fun es es' => loops_all es ->
         (forall start p0, guarded nulf lvlf k start p0 -> low k (start && nullable nulf (pexp_of p0)) (starts_seq nul es) -> guarded nulf lvlf k start (fold_left ESeq es' p0)) /\
         (forall start p0, guarded nulf lvlf k start p0 -> low k start (concat (map (starts nul) es)) -> guarded nulf lvlf k start (fold_left EChoice es' p0)));
      simpl; auto.
    - intros start Hlow _. destruct (Hfn n e Hn) as [(l & r & f & -> & _ & E)|(Hl & f & [(r & ->)| ->] & El & E)]; simpl; [done| |];
        intros Hs; rewrite El; (apply Hlow; [done|by apply elem_of_list_singleton|done]).
    - intros start Hlow [Hn Hl]. split; [|by apply IH]. rewrite (stands_nullable _ _ Hst). destruct (empties nul e) eqn:Ee; [|done]. by destruct Hn; apply Hnul.
    - intros start Hlow [Hn Hl]. split; [|by apply IH]. rewrite (stands_nullable _ _ Hst). destruct (empties nul e) eqn:Ee; [|done]. by destruct Hn; apply Hnul.
    - intros start Hlow [Hl1 Hl2]. apply low_app in Hlow as [Hlow1 Hlow2]. destruct (IH2 Hl2) as [IH3 _]. apply IH3; [by apply IH1|].
      rewrite (stands_nullable _ _ Hst). destruct (empties nul e); [by rewrite andb_true_r|]. rewrite andb_false_r. by intros [=].
    - intros start Hlow [Hl1 Hl2]. apply low_app in Hlow as [Hlow1 Hlow2]. destruct (IH2 Hl2) as [_ IH3]. apply IH3; [by apply IH1|done].
    - intros [Hl1 Hl2]. destruct (IH2 Hl2) as [IH3 IH4]. split.
      + intros start p0 Hp Hlow. apply low_app in Hlow as [Hlow1 Hlow2]. apply IH3.
        * simpl. split; [done|]. by apply IH1.
        * simpl. rewrite (stands_nullable _ _ Hst). rewrite andb_assoc. destruct (empties nul e); [by rewrite andb_true_r|]. rewrite andb_false_r. by intros [=].
      + intros start p0 Hp Hlow. apply low_app in Hlow as [Hlow1 Hlow2]. apply IH4; [|done]. simpl. split; [done|]. by apply IH1.
  Qed.
End guards.
