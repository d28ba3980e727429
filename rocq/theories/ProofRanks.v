(** Proof: generated programs are ranked - a rule called through the memo table
    never needs its caller at the same position. *)
From Verif Require Import SpecGenerator SpecMeaning SpecProgram SpecLR SpecTerm SpecKeys ProofMeaning ProofFirst.
From stdpp Require Import relations.
From Verif Require Import SpecMeaning.

(** ** What can be reached in a finite graph *)
Section reach.
  Context {A : Type} `{EqDecision A} (next : A -> list A) (dom : list A).
  Context (Hdom : forall n m, m ∈ next n -> m ∈ dom).
  Notation R := (fun n m => m ∈ next n).
  Fixpoint grow (k : nat) (S : list A) : list A :=
    match k with
    | O => S
    | S k => match filter (fun x => x ∉ S) (concat (map next S)) with [] => S | x :: _ => grow k (x :: S) end
    end.
  Lemma in_next S x : x ∈ concat (map next S) <-> exists y, y ∈ S /\ x ∈ next y.
  Proof.
    rewrite elem_of_list_In, in_concat. split.
    - intros (l & Hl & Hx). apply in_map_iff in Hl as (y & <- & Hy). exists y. split; by apply elem_of_list_In.
    - intros (y & Hy & Hx). exists (next y). split; [|by apply elem_of_list_In]. apply in_map. by apply elem_of_list_In.
  Qed.
  Lemma grow_spec n k : forall S, NoDup S -> n ∈ S -> (forall x, x ∈ S -> rtc R n x) -> (forall x, x ∈ S -> x = n \/ x ∈ dom) ->
    (length dom + 2 <= k + length S)%nat ->
    NoDup (grow k S) /\ (forall x, x ∈ grow k S <-> rtc R n x).
  Proof using Hdom.
    induction k as [|k IH]; intros S Hnd Hn Hr Hd Hk; cbn [grow].
    - assert (Hs : submseteq S (n :: dom)).
      { apply NoDup_submseteq; [done|]. intros x Hx. apply elem_of_cons. by apply Hd. }
      apply submseteq_length in Hs. simpl in *. lia.
    - destruct (filter (fun x => x ∉ S) (concat (map next S))) as [|x l] eqn:E.
      + split; [done|]. intros x. split; [apply Hr|]. intros H.
        assert (Hc : forall a b, a ∈ S -> b ∈ next a -> b ∈ S).
        { intros a b Ha Hb. destruct (decide (b ∈ S)) as [|Hni]; [done|].
          assert (Hf : b ∈ filter (fun x => x ∉ S) (concat (map next S))) by (apply elem_of_list_filter; split; [done|]; apply in_next; eauto).
          rewrite E in Hf. by apply elem_of_nil in Hf. }
        clear -H Hn Hc. revert Hn. induction H as [a|a b d Hab _ IH]; intros Ha; [done|]. apply IH. by eapply Hc.
      + assert (Hx : x ∈ filter (fun x => x ∉ S) (concat (map next S))) by (rewrite E; apply elem_of_list_here).
        apply elem_of_list_filter in Hx as [Hni Hx]. apply in_next in Hx as (y & Hy & Hx).
        apply IH.
        * by constructor.
        * by apply elem_of_list_further.
        * intros z Hz. apply elem_of_cons in Hz as [->|Hz]; [|by apply Hr]. eapply rtc_r; [by apply Hr|done].
        * intros z Hz. apply elem_of_cons in Hz as [->|Hz]; [right; by eapply Hdom|by apply Hd].
        * simpl. lia.
  Qed.
  Lemma ranks_exist : exists rk : A -> nat, forall n m, m ∈ next n -> (rk m <= rk n)%nat /\ (~ rtc R m n -> (rk m < rk n)%nat).
  Proof using Hdom EqDecision0.
    exists (fun n => length (grow (length dom + 2) [n])). intros n m Hm.
    assert (HG : forall n, NoDup (grow (length dom + 2) [n]) /\ (forall x, x ∈ grow (length dom + 2) [n] <-> rtc R n x)).
    { intros z. apply grow_spec; [apply NoDup_singleton|apply elem_of_list_here|..].
      - intros x Hx. apply elem_of_list_singleton in Hx as ->. apply rtc_refl.
      - intros x Hx. apply elem_of_list_singleton in Hx as ->. by left.
      - simpl. lia. }
    destruct (HG n) as [N1 M1], (HG m) as [N2 M2]. split.
    - apply submseteq_length, NoDup_submseteq; [done|]. intros x Hx. apply M1. apply M2 in Hx. by eapply rtc_l.
    - intros Hnr. change (length (n :: grow (length dom + 2) [m]) <= length (grow (length dom + 2) [n]))%nat. apply submseteq_length, NoDup_submseteq.
      + constructor; [|done]. intros Hx. by apply Hnr, M2.
      + intros x Hx. apply M1. apply elem_of_cons in Hx as [->|Hx]; [apply rtc_refl|]. apply M2 in Hx. by eapply rtc_l.
  Qed.
End reach.

Section ranks.
  Context (rules : list drule) (nul : name -> bool) (Hnul : forall e, empties nul e = true <-> may_be_empty rules e).
  Context (refok : name -> expr -> Prop).
  Context (rk : name -> nat) (nulf : N -> bool) (rkf : N -> nat).
  Context (lr : name -> bool) (Dcl : name -> Prop).
  Context (Hfn : forall n e, refok n e -> exists f, Dcl n /\ rkf f = rk n /\ nulf f = nul n /\
    ((exists l r, e = ELR l r f /\ lr n = true) \/ (lr n = false /\ ((exists r, e = EVar r f) \/ e = EInline f)))).
  Notation st := (stands refok).

  Lemma stands_nullable' : forall e e', st e e' -> nullable nulf (pexp_of e') = empties nul e.
  Proof using Hfn.
    apply (stands_nullable nul refok (fun _ => 0%nat) nulf (fun _ => 0%nat) lr). intros n e He.
    destruct (Hfn n e He) as (f & _ & _ & E & [(l & r & -> & Hl)|(Hl & H)]).
    - left. eauto 10.
    - right. split; [done|]. eauto.
  Qed.
  Definition lowr (k : nat) (start : bool) (ns : list name) : Prop :=
    start = true -> forall m, m ∈ ns -> Dcl m -> (rk m <= k)%nat /\ (lr m = false -> (rk m < k)%nat).
  Lemma lowr_app k start a b : lowr k start (a ++ b) <-> lowr k start a /\ lowr k start b.
  Proof.
    unfold lowr. split.
    - intros H. split; intros Hs m Hm; apply H; try done; apply elem_of_app; auto.
    - intros [H1 H2] Hs m Hm. apply elem_of_app in Hm as [Hm|Hm]; auto.
  Qed.
  Lemma stands_ranked k : forall e e', st e e' -> forall start, lowr k start (starts nul e) -> loops_consume rules e -> ranked nulf rkf k start e'.
  Proof using Hfn Hnul.
    intros e e' H. induction H as [e c El|e l El| |n e Hn|e e' Hst IH|e e' Hst IH|e e' Hst IH|e e' Hst IH|e e' Hst IH|e e' Hst IH|e es e' es' Hst IH1 _ IH2|e es e' es' Hst IH1 _ IH2| |e e' es es' Hst IH1 Hall IH2] using stands_mind
      with (P0 := fun es es' => loops_all rules es ->
         (forall start p0, ranked nulf rkf k start p0 -> lowr k (start && nullable nulf (pexp_of p0)) (starts_seq nul es) -> ranked nulf rkf k start (fold_left ESeq es' p0)) /\
         (forall start p0, ranked nulf rkf k start p0 -> lowr k start (concat (map (starts nul) es)) -> ranked nulf rkf k start (fold_left EChoice es' p0)));
      simpl; auto.
    - intros start Hlow _. destruct (Hfn n e Hn) as (f & Hd & El & E & [(l & r & -> & Hl)|(Hl & [(r & ->)| ->])]); simpl; intros Hs; rewrite El;
        destruct (Hlow Hs n ltac:(by apply elem_of_list_singleton) Hd) as [H1 H2]; auto.
    - intros start Hlow [Hn Hl]. split; [|by apply IH]. rewrite (stands_nullable' _ _ Hst). destruct (empties nul e) eqn:Ee; [|done]. by destruct Hn; apply Hnul.
    - intros start Hlow [Hn Hl]. split; [|by apply IH]. rewrite (stands_nullable' _ _ Hst). destruct (empties nul e) eqn:Ee; [|done]. by destruct Hn; apply Hnul.
    - intros start Hlow [Hl1 Hl2]. apply lowr_app in Hlow as [Hlow1 Hlow2]. destruct (IH2 Hl2) as [IH3 _]. apply IH3; [by apply IH1|].
      rewrite (stands_nullable' _ _ Hst). destruct (empties nul e); [by rewrite andb_true_r|]. rewrite andb_false_r. by intros [=].
    - intros start Hlow [Hl1 Hl2]. apply lowr_app in Hlow as [Hlow1 Hlow2]. destruct (IH2 Hl2) as [_ IH3]. apply IH3; [by apply IH1|done].
    - intros [Hl1 Hl2]. destruct (IH2 Hl2) as [IH3 IH4]. split.
      + intros start p0 Hp Hlow. apply lowr_app in Hlow as [Hlow1 Hlow2]. apply IH3.
        * simpl. split; [done|]. by apply IH1.
        * simpl. rewrite (stands_nullable' _ _ Hst). rewrite andb_assoc. destruct (empties nul e); [by rewrite andb_true_r|]. rewrite andb_false_r. by intros [=].
      + intros start p0 Hp Hlow. apply lowr_app in Hlow as [Hlow1 Hlow2]. apply IH4; [|done]. simpl. split; [done|]. by apply IH1.
  Qed.
End ranks.
