(** The node store as a tree: clear_false refines [prune], == refines equality
    of unfoldings, and what trace trees look like. *)
From Verif Require Export ProofSound.

Fixpoint theight (t : ptree) : nat :=
  let 'TNode _ _ _ _ F := t in
  S ((fix go (F : list ptree) : nat := match F with [] => O | t :: F => Nat.max (theight t) (go F) end) F).
Fixpoint fheight (F : list ptree) : nat :=
  match F with [] => O | t :: F => Nat.max (theight t) (fheight F) end.

Lemma theight_eq l i j b F : theight (TNode l i j b F) = S (fheight F).
Proof. reflexivity. Qed.
Lemma prune_eq l i j b F : prune (TNode l i j b F) = TNode l i j b (prune_forest F).
Proof. reflexivity. Qed.
Lemma tsize_eq l i j b F : tsize (TNode l i j b F) = 1 + fsize F.
Proof. reflexivity. Qed.

(** Induction over trees with their forests. *)
Lemma ptree_ind' (P : ptree -> Prop) :
  (forall l i j b F, (forall t, t ∈ F -> P t) -> P (TNode l i j b F)) -> forall t, P t.
Proof.
  intros HP. fix IH 1. intros [l i j b F]. apply HP.
  induction F as [|u F IHF]; intros t Ht.
  - exfalso. inversion Ht.
  - apply elem_of_cons in Ht as [->|Ht]; [apply IH|exact (IHF t Ht)].
Qed.

Lemma keep_prune t : keep (prune t) = keep t.
Proof. by destruct t. Qed.
Lemma prune_forest_idem_aux F :
  (forall t, t ∈ F -> prune (prune t) = prune t) -> prune_forest (prune_forest F) = prune_forest F.
Proof.
  induction F as [|t F IH]; intros H; [done|]. simpl.
  assert (HF : prune_forest (prune_forest F) = prune_forest F).
  { apply IH. intros u Hu. apply H. by apply elem_of_cons; right. }
  destruct (keep t) eqn:E; [|done]. simpl. rewrite keep_prune, E, HF. f_equal.
  apply H. by apply elem_of_cons; left.
Qed.
Lemma prune_idem t : prune (prune t) = prune t.
Proof.
  induction t as [l i j b F IH] using ptree_ind'. rewrite !prune_eq. f_equal.
  by apply prune_forest_idem_aux.
Qed.
Lemma prune_forest_idem F : prune_forest (prune_forest F) = prune_forest F.
Proof. apply prune_forest_idem_aux. intros. apply prune_idem. Qed.

Lemma prune_forest_elem t F : t ∈ prune_forest F -> exists u, u ∈ F /\ keep u = true /\ t = prune u.
Proof.
  induction F as [|u F IH]; simpl; intros H; [by apply elem_of_nil in H|].
  destruct (keep u) eqn:E.
  - apply elem_of_cons in H as [->|H].
    + exists u. split; [by apply elem_of_cons; left|done].
    + destruct (IH H) as (v & ? & ?). exists v. split; [by apply elem_of_cons; right|done].
  - destruct (IH H) as (v & ? & ?). exists v. split; [by apply elem_of_cons; right|done].
Qed.

Lemma prune_forest_complete u F : u ∈ F -> keep u = true -> prune u ∈ prune_forest F.
Proof.
  induction F as [|v F IH]; simpl; intros H Hk; [by apply elem_of_nil in H|].
  apply elem_of_cons in H as [->|H].
  - rewrite Hk. by apply elem_of_cons; left.
  - destruct (keep v); [apply elem_of_cons; right|]; by apply IH.
Qed.

(** Every node of a pruned tree comes from a node of the original. *)
Lemma subtree_prune t u : subtree u (prune t) ->
  u = prune t \/ exists v, subtree v t /\ v <> t /\ u = prune v /\ keep v = true.
Proof.
  revert u. induction t as [l i j b F IH] using ptree_ind'. intros u H. rewrite prune_eq in H.
  inversion H as [|l' i' j' b' F' w Hw Hsub]; subst; [left; by rewrite prune_eq|right].
  apply prune_forest_elem in Hw as (v & Hv & Hk & ->).
  assert (Hne : forall x, subtree x v -> x <> TNode l i j b F).
  { intros x Hx ->. clear -Hv Hx.
    assert (Hht : forall x y, subtree x y -> (theight x <= theight y)%nat).
    { clear. intros x y. induction 1 as [|l i j b F u Hu Hsub IH]; [done|]. rewrite theight_eq.
      assert (theight u <= fheight F)%nat; [|lia]. clear -Hu.
      induction F as [|w F IHF]; [by apply elem_of_nil in Hu|].
      apply elem_of_cons in Hu as [->|Hu]; simpl; [lia|]. specialize (IHF Hu). lia. }
    apply Hht in Hx. rewrite theight_eq in Hx.
    assert (theight v <= fheight F)%nat; [|lia]. clear -Hv.
    induction F as [|w F IHF]; [by apply elem_of_nil in Hv|].
    apply elem_of_cons in Hv as [->|Hu]; simpl; [lia|]. specialize (IHF Hu). lia. }
  destruct (IH v Hv u Hsub) as [->|(x & Hx & _ & -> & Hkx)].
  - exists v. split; [econstructor; [exact Hv|constructor]|]. split; [apply Hne; constructor|done].
  - exists x. split; [by econstructor|]. split; [by apply Hne|done].
Qed.

(** ** clear_false *)
Section clear_false.
  Context (p : publisher) (O0 : N -> Prop).

  Lemma clear_kernel fuel : forall t (O : N -> Prop) new parent index,
    unfolds O0 p index t -> (theight t <= fuel)%nat ->
    pub_wf new -> (forall k, O k -> k < p_len new) -> O parent ->
    p_len new + fsize (prune_forest [t]) <= u32_modulus ->
    exists new' ks, clear_false_kernel fuel p new parent index = Ok new' /\
      pub_wf new' /\ grown parent ks new new' /\ unfolds_list O new' ks (prune_forest [t]) /\
      p_len new' = p_len new + fsize (prune_forest [t]).
  Proof.
    induction fuel as [|fuel IH]; intros t O new parent index Hu Hh Hw HO HOp Hb.
    { destruct t. rewrite theight_eq in Hh. lia. }
    destruct Hu as [index n F HnO Hn HF]. cbn [clear_false_kernel].
    unfold get_node at 1. rewrite Hn. cbn [rbind].
    change (prune_forest [?t]) with (if keep t then [prune t] else []).
    change (prune_forest [?t]) with (if keep t then [prune t] else []) in Hb.
    unfold keep in Hb |- *. cbn [t_ok t_start t_end] in Hb |- *.
    destruct (n_result n && negb (n_start n =? n_end n)) eqn:Ek.
    2:{ exists new, []. split; [done|]. split; [done|]. split; [apply grown_refl|].
        split; [constructor|]. simpl. lia. }
    rewrite prune_eq in Hb |- *. change (fsize [?t]) with (tsize t + 0). change (fsize [?t]) with (tsize t + 0) in Hb.
    rewrite tsize_eq in Hb |- *.
    unfold add_node. set (k := p_len new).
    assert (Hk : k <? u32_modulus = true) by (apply N.ltb_lt; unfold k; lia).
    rewrite Hk. cbn [rbind]. set (new1 := Publisher _ _).
    assert (Hw1 : pub_wf new1) by (by apply pub_wf_add).
    assert (Hpk : parent <> k) by (apply HO in HOp; unfold k; lia).
    assert (Hplt : parent < p_len new1) by (apply HO in HOp; simpl; unfold k; lia).
    unfold connect. rewrite (proj2 (N.eqb_neq _ _) Hpk).
    destruct (get_node_Ok new1 parent Hw1 Hplt) as (pn & Hpn & ->). cbn [rbind].
    set (new2 := set_node new1 parent _).
    assert (Hw2 : pub_wf new2) by (by apply pub_wf_set).
    pose (O1 := fun x => O x \/ x = k).
    (* the loop over the children *)
    assert (Hloop : forall l G new3 ks3 G3, unfolds_list O0 p l G -> (fheight G <= fuel)%nat ->
      pub_wf new3 -> grown k ks3 new2 new3 -> unfolds_list O1 new3 ks3 G3 ->
      p_len new3 + fsize (prune_forest G) <= u32_modulus ->
      exists new' ks',
        (fix go (l : list N) (t : publisher) : res publisher :=
           match l with
           | [] => Ok t
           | i :: l => let! t := clear_false_kernel fuel p t k i in go l t
           end) l new3 = Ok new' /\
        pub_wf new' /\ grown k ks' new2 new' /\ unfolds_list O1 new' ks' (G3 ++ prune_forest G) /\
        p_len new' = p_len new3 + fsize (prune_forest G)).
    { clear -IH HO. induction l as [|i l IHl]; intros G new3 ks3 G3 HG HhG Hw3 Hg3 Hu3 Hb3.
      - inversion HG; subst. exists new3, ks3. rewrite app_nil_r. simpl. repeat (split; [done|]). lia.
      - inversion HG as [|? ? t G' Ht HG']; subst.
        assert (Hsplit : prune_forest (t :: G') = prune_forest [t] ++ prune_forest G').
        { simpl. by destruct (keep t). }
        assert (Hfs : fsize (prune_forest (t :: G')) = fsize (prune_forest [t]) + fsize (prune_forest G')).
        { rewrite Hsplit. generalize (prune_forest [t]). intros A. induction A; simpl; lia. }
        cbn [fheight] in HhG. rewrite Hfs in Hb3.
        assert (HO3 : forall x, O1 x -> x < p_len new3).
        { intros x [Hx| ->]; apply gr_len in Hg3; simpl in Hg3; [apply HO in Hx; unfold k in *; lia|unfold k in *; lia]. }
        destruct (IH t O1 new3 k i Ht) as (new4 & ks4 & E4 & Hw4 & Hg4 & Hu4 & Hl4); [lia|done|done|by right|lia|].
        rewrite E4. cbn [rbind].
        destruct (IHl G' new4 (ks3 ++ ks4) (G3 ++ prune_forest [t])) as (new' & ks' & E' & Hw' & Hg' & Hu' & Hl').
        + done. + lia. + done. + by eapply grown_trans.
        + apply unfolds_list_app; [|done]. eapply (grown_frame O1); [exact Hw3|by right|exact Hg4|done].
        + lia.
        + exists new', ks'. split; [done|]. split; [done|]. split; [done|]. split.
          * rewrite Hsplit, app_assoc. done.
          * rewrite Hfs. lia. }
    destruct (Hloop (n_children n) F new2 [] [] HF) as (new' & ks' & E' & Hw' & Hg' & Hu' & Hl').
    { rewrite theight_eq in Hh. lia. } { done. } { apply grown_refl. } { constructor. }
    { simpl. unfold k in *. lia. }
    exists new', [k]. split; [exact E'|]. split; [done|].
    assert (Hk2 : p_nodes new2 !! k = Some (Node k (n_rule n) (n_start n) (n_end n) (n_result n) [])).
    { simpl. rewrite lookup_insert_ne by done. by rewrite lookup_insert. }
    apply (gr_parent _ _ _ _ Hg') in Hk2. unfold with_children in Hk2. simpl in Hk2.
    split.
    { destruct Hg' as [L Fr Pa]. simpl in L. split.
      - unfold k in *; lia.
      - intros x Hx Hne. assert (x <> k) by (unfold k; lia).
        rewrite Fr by (try done; simpl; unfold k; lia). simpl.
        rewrite lookup_insert_ne by done. by rewrite lookup_insert_ne.
      - intros m Hm. simpl in Hpn. rewrite lookup_insert_ne in Hpn by done. simplify_eq.
        rewrite Fr by (try done). simpl. by rewrite lookup_insert. }
    split.
    { constructor; [|constructor].
      refine (unf O new' k (Node k (n_rule n) (n_start n) (n_end n) (n_result n) ks') _ _ Hk2 _).
      - intros Hbad. apply HO in Hbad. unfold k in Hbad. lia.
      - simpl. simpl in Hu'. revert Hu'. apply unfolds_frame. intros x m Hx Hox. split; [|done].
        intros ?. apply Hox. by left. }
    simpl in Hl'. rewrite Hl'. unfold k. lia.
  Qed.

  Lemma clear_children fuel : forall l G (O : N -> Prop) new parent,
    unfolds_list O0 p l G -> (fheight G <= fuel)%nat ->
    pub_wf new -> (forall k, O k -> k < p_len new) -> O parent ->
    p_len new + fsize (prune_forest G) <= u32_modulus ->
    exists new' ks, clear_false_children fuel p new parent l = Ok new' /\
      pub_wf new' /\ grown parent ks new new' /\ unfolds_list O new' ks (prune_forest G) /\
      p_len new' = p_len new + fsize (prune_forest G).
  Proof.
    induction l as [|i l IHl]; intros G O new parent HG Hh Hw HO HOp Hb.
    - inversion HG; subst. exists new, []. split; [done|]. split; [done|]. split; [apply grown_refl|].
      split; [constructor|]. simpl. lia.
    - inversion HG as [|? ? t G' Ht HG']; subst.
      assert (Hsplit : prune_forest (t :: G') = prune_forest [t] ++ prune_forest G').
      { simpl. by destruct (keep t). }
      assert (Hfs : fsize (prune_forest (t :: G')) = fsize (prune_forest [t]) + fsize (prune_forest G')).
      { rewrite Hsplit. generalize (prune_forest [t]). intros A. induction A; simpl; lia. }
      cbn [fheight] in Hh. rewrite Hfs in Hb.
      destruct (clear_kernel fuel t O new parent i Ht) as (new1 & ks1 & E1 & Hw1 & Hg1 & Hu1 & Hl1);
        [lia|done|done|done|lia|].
      destruct (IHl G' O new1 parent) as (new' & ks' & E' & Hw' & Hg' & Hu' & Hl').
      + done. + lia. + done. + intros k Hk. apply HO in Hk. lia. + done. + lia.
      + exists new', (ks1 ++ ks'). simpl. rewrite E1. cbn [rbind]. split; [done|]. split; [done|].
        split; [by eapply grown_trans|]. split.
        * rewrite <-Hsplit || idtac. change (if keep t then prune t :: prune_forest G' else prune_forest G')
            with (prune_forest (t :: G')). rewrite Hsplit. apply unfolds_list_app; [|done].
          eapply (grown_frame O); [exact Hw1|exact HOp|exact Hg'|done].
        * change (if keep t then prune t :: prune_forest G' else prune_forest G')
            with (prune_forest (t :: G')). rewrite Hfs. lia.
  Qed.
End clear_false.

(** [clear_false] on a store that denotes a finite tree. *)
Lemma clear_false_spec O0 p fuel gr l i j b F :
  unfolds O0 p 0 (TNode l i j b F) -> (fheight F <= fuel)%nat ->
  2 + fsize (prune_forest F) <= u32_modulus ->
  exists p', clear_false fuel gr p = Ok p' /\ pub_wf p' /\
    denotes p' (TNode gr 0 0 true (if b then prune_forest F else [])).
Proof.
  intros Hu Hh Hb. inversion Hu as [k n F' HnO Hn HF]; subst.
  unfold clear_false, get_node. rewrite Hn. cbn [rbind].
  assert (Hbase : unfolds nothing (publisher_new gr) 0 (TNode gr 0 0 true [])).
  { refine (unf _ _ 0 (Node 0 gr 0 0 true []) [] _ _ _); [by intros []|done|constructor]. }
  destruct (n_result n) eqn:En.
  2:{ exists (publisher_new gr). split; [done|]. split; [apply pub_wf_new|done]. }
  unfold add_node. cbn [p_len publisher_new].
  change (1 <? u32_modulus) with true. cbn iota. cbn [rbind].
  set (new1 := Publisher _ _).
  assert (Hw1 : pub_wf new1) by apply (pub_wf_add (publisher_new gr)), pub_wf_new.
  pose (O := fun k : N => k = 0).
  destruct (clear_children p O0 fuel (n_children n) F O new1 0 HF) as (new' & ks & E & Hw' & Hg & Hul & Hl).
  { done. } { done. } { unfold O. simpl. lia. } { done. } { simpl. lia. }
  exists new'. split; [exact E|]. split; [done|].
  refine (unf _ _ 0 (Node 0 gr 0 0 true ks) (prune_forest F) _ _ _).
  - by intros [].
  - apply (gr_parent _ _ _ _ Hg (Node 0 gr 0 0 true [])). done.
  - simpl. revert Hul. apply unfolds_frame. intros x m Hx Hox. split; [by intros []|done].
Qed.

(** ** Equality *)
Lemma node_eq_true a b :
  node_eq a b = true <-> n_rule a = n_rule b /\ n_start a = n_start b /\ n_end a = n_end b /\
    n_result a = n_result b /\ length (n_children a) = length (n_children b).
Proof.
  unfold node_eq. rewrite !andb_true_iff, !N.eqb_eq, Bool.eqb_true_iff, Nat.eqb_eq. tauto.
Qed.

Lemma partial_eq_spec O p O' q fuel : forall t u a b,
  unfolds O p a t -> unfolds O' q b u -> (theight t <= fuel)%nat ->
  exists r, partial_eq_kernel fuel p q a b = Ok r /\ (r = true <-> t = u).
Proof.
  induction fuel as [|fuel IH]; intros t u a b Ht Hu Hh.
  { destruct t. rewrite theight_eq in Hh. lia. }
  destruct Ht as [a n F _ Hn HF]. destruct Hu as [b m G _ Hm HG].
  cbn [partial_eq_kernel]. unfold get_node. rewrite Hn, Hm. cbn [rbind].
  rewrite theight_eq in Hh.
  destruct (node_eq n m) eqn:En.
  2:{ exists false. split; [done|]. split; [done|]. intros [= E1 E2 E3 E4 E5]. subst G.
      assert (node_eq n m = true); [|congruence]. apply node_eq_true.
      apply unfolds_list_length in HF, HG. repeat split; try done. lia. }
  apply node_eq_true in En as (E1 & E2 & E3 & E4 & E5).
  assert (Hloop : forall la lb F G, unfolds_list O p la F -> unfolds_list O' q lb G ->
    (fheight F <= fuel)%nat -> length la = length lb ->
    exists r,
      (fix go (la lb : list N) : res bool :=
         match la, lb with
         | x :: la, y :: lb =>
           let! r := partial_eq_kernel fuel p q x y in
           if r then go la lb else Ok false
         | _, _ => Ok true
         end) la lb = Ok r /\ (r = true <-> F = G)).
  { clear -IH. induction la as [|x la IHl]; intros lb F G HF HG Hh Hlen; destruct lb as [|y lb]; try done.
    - inversion HF; inversion HG; subst. exists true. done.
    - inversion HF as [|? ? t F' Ht HF']; inversion HG as [|? ? u G' Hu HG']; subst.
      cbn [fheight] in Hh.
      destruct (IH t u x y Ht Hu) as (r1 & E1 & Hr1); [lia|]. rewrite E1. cbn [rbind].
      destruct r1.
      + destruct (IHl lb F' G' HF' HG') as (r2 & E2 & Hr2); [lia|by injection Hlen|].
        exists r2. split; [done|]. rewrite Hr2. split.
        * intros ->. f_equal. by apply Hr1.
        * by intros [= -> ->].
      + exists false. split; [done|]. split; [done|]. intros [= -> ->].
        destruct Hr1 as [_ Hr1]. by specialize (Hr1 eq_refl). }
  destruct (Hloop (n_children n) (n_children m) F G HF HG) as (r & Er & Hr); [lia|done|].
  exists r. split; [done|]. rewrite Hr. split.
  - intros ->. congruence.
  - by intros [= _ _ _ _ ->].
Qed.

(** ** Shape of trace trees *)
Fixpoint plabels_ok (fn : N -> N) (e : pexp) : Prop :=
  match e with
  | PChar _ | PStr _ | PRange _ _ => True
  | PSeq a b | PAlt a b => plabels_ok fn a /\ plabels_ok fn b
  | PAnd e | PNot e | PPlus e | PStar e | POpt e => plabels_ok fn e
  | PRef (Some r) A => fn r = A
  | PRef None _ => True
  end.

Lemma expr_ok_labels {U} (pr : program U) fn e : expr_ok pr fn e -> plabels_ok fn (pexp_of e).
Proof. induction e; simpl; try tauto. Qed.

Section trees.
  Context (g : pgrammar) (s : list N) (fn : N -> N).
  Context (Hg : forall A body, g A = Some body -> plabels_ok fn body).
  Let len := N.of_nat (length s).

  Definition justified (u : ptree) : Prop :=
    trace g s (PRef (Some (t_label u)) (fn (t_label u))) (t_start u)
      (outcome (t_ok u) (t_end u)) [u] /\ (t_ok u = false -> t_end u = t_start u).

  Definition starts_from (i : N) (u : ptree) : Prop := i <= t_start u.

  Lemma node_of_justified r A i o F : fn r = A ->
    trace g s (PRef (Some r) A) i o [node_of r i o F] -> justified (node_of r i o F).
  Proof. intros <- H. destruct o; by split. Qed.

  Lemma trace_justified e i o F : trace g s e i o F -> plabels_ok fn e ->
    forall t u, t ∈ F -> subtree u t -> justified u.
  Proof.
    induction 1; simpl; intros Hl tt u Ht Hsub; try (by apply elem_of_nil in Ht);
      try (apply elem_of_app in Ht as [Ht|Ht]); try destruct Hl; eauto.
    destruct l as [r|]; simpl in *.
    - apply elem_of_list_singleton in Ht. subst tt.
      assert (Htr : trace g s (PRef (Some r) A) i o [node_of r i o F]).
      { change [node_of r i o F] with (record (Some r) i o F). by econstructor. }
      assert (Hch : t_children (node_of r i o F) = F) by (by destruct o).
      inversion Hsub as [|l' i' j' b' F' w Hw Hs2]; subst.
      + by eapply node_of_justified.
      + rewrite <-H1 in Hch. simpl in Hch. subst F'. eapply IHtrace; eauto.
    - eapply IHtrace; eauto.
  Qed.

  Lemma trace_starts e i o F : trace g s e i o F -> forall t, t ∈ F -> i <= t_start t.
  Proof.
    induction 1; intros tt Ht; try (by apply elem_of_nil in Ht); eauto.
    - apply elem_of_app in Ht as [Ht|Ht]; [eauto|].
      apply IHtrace2 in Ht. apply trace_peg, peg_bounds in H. lia.
    - apply elem_of_app in Ht as [Ht|Ht]; eauto.
    - apply elem_of_app in Ht as [Ht|Ht]; [eauto|].
      apply IHtrace2 in Ht. apply trace_peg, peg_bounds in H. lia.
    - apply elem_of_app in Ht as [Ht|Ht]; [eauto|].
      apply IHtrace2 in Ht. apply trace_peg, peg_bounds in H. lia.
    - destruct l as [r|]; simpl in Ht; [|eauto].
      apply elem_of_list_singleton in Ht. subst tt. destruct o; simpl; lia.
  Qed.

  Lemma trace_pos_bound e i o F : trace g s e i o F -> i <= len -> forall t, t ∈ F -> t_start t <= len.
  Proof.
    induction 1; intros Hi tt Ht; try (by apply elem_of_nil in Ht); eauto.
    - apply elem_of_app in Ht as [Ht|Ht]; [eauto|]. apply IHtrace2; [|done].
      apply trace_peg, peg_bounds in H. unfold len in *. lia.
    - apply elem_of_app in Ht as [Ht|Ht]; eauto.
    - apply elem_of_app in Ht as [Ht|Ht]; [eauto|]. apply IHtrace2; [|done].
      apply trace_peg, peg_bounds in H. unfold len in *. lia.
    - apply elem_of_app in Ht as [Ht|Ht]; [eauto|]. apply IHtrace2; [|done].
      apply trace_peg, peg_bounds in H. unfold len in *. lia.
    - destruct l as [r|]; simpl in Ht; [|eauto].
      apply elem_of_list_singleton in Ht. subst tt. by destruct o; simpl.
  Qed.

  (** For a justified node: its children are the trace of its rule's body. *)
  Lemma justified_children u : justified u -> exists body,
    g (fn (t_label u)) = Some body /\
    trace g s body (t_start u) (outcome (t_ok u) (t_end u)) (t_children u).
  Proof.
    intros [H _]. inversion H as [| | | | | | | | | | | | | | | | | | | |l A body i o F Hb Ht]; subst.
    exists body. split; [done|]. destruct u as [lu iu ju bu Fu]; simpl in *.
    destruct bu; simpl in *; simplify_eq; done.
  Qed.

  Lemma justified_child_start u c : justified u -> c ∈ t_children u -> t_start u <= t_start c.
  Proof. intros (body & Hb & Ht)%justified_children Hc. by eapply trace_starts. Qed.

  Lemma justified_span u : justified u -> t_start u <= len -> t_start u <= t_end u <= len.
  Proof.
    intros [H Hf] Hi. destruct (t_ok u) eqn:E.
    - apply trace_peg in H. simpl in H. apply peg_bounds in H. unfold len in *. lia.
    - rewrite Hf by done. lia.
  Qed.

  Lemma trace_subtree_bounds e i o F : trace g s e i o F -> plabels_ok fn e -> i <= len ->
    forall t u, t ∈ F -> subtree u t -> i <= t_start u /\ t_start u <= t_end u <= len.
  Proof.
    intros Htr Hl Hi t u Ht Hsub.
    assert (Hj : forall v, subtree v t -> justified v) by (intros; by eapply trace_justified).
    assert (H0 : i <= t_start t <= len).
    { split; [by eapply trace_starts|by eapply trace_pos_bound]. }
    clear Htr Ht Hi.
    induction Hsub as [|l i' j' b' F' w Hw Hsub IH].
    - pose proof (justified_span u (Hj u ltac:(constructor)) ltac:(lia)). lia.
    - set (v := TNode l i' j' b' F') in *.
      assert (Hjv : justified v) by (apply Hj; constructor).
      pose proof (justified_child_start v w Hjv Hw) as Hc.
      destruct (justified_children v Hjv) as (body & Hb & Htb).
      assert (Hwl : t_start w <= len) by (eapply trace_pos_bound; [exact Htb|lia|exact Hw]).
      destruct IH as [IH1 IH2].
      + intros x Hx. apply Hj. by econstructor.
      + lia.
      + lia.
  Qed.
End trees.

(** ** ASCII text *)
Definition is_ascii (s : list N) : Prop := Forall (fun c => c < 128) s.
Lemma ascii_boundary s i : is_ascii s -> i <= N.of_nat (length s) -> is_char_boundary s i = true.
Proof.
  intros Ha Hi. unfold is_char_boundary. destruct (N.eqb_spec i 0); [done|].
  destruct (s !! N.to_nat i) as [c|] eqn:E.
  - assert (c < 128). { eapply Forall_lookup_1 in E; [|exact Ha]. done. }
    destruct (N.leb_spec 128 c); [lia|done].
  - apply lookup_ge_None in E. apply N.eqb_eq. lia.
Qed.
Lemma ascii_slice s a b : is_ascii s -> a <= b <= N.of_nat (length s) ->
  slice_str s a b = Ok (take (N.to_nat (b - a)) (drop (N.to_nat a) s)).
Proof.
  intros Ha [Hab Hb]. unfold slice_str.
  rewrite !ascii_boundary by (try done; lia).
  rewrite (proj2 (N.leb_le _ _) Hab), (proj2 (N.leb_le _ _) Hb). done.
Qed.
