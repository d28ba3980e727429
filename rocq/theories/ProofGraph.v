(** The fixpoint loops of the cycle detector on abstract graphs. *)
From Verif Require Import CycleDetector.
From stdpp Require Import relations gmap.


Lemma subseteq_size_eq (X Y : name_set) : X ⊆ Y -> (size Y <= size X)%nat -> X = Y.
Proof.
  intros H Hs. destruct (decide (X = Y)) as [|Hne]; [done|]. exfalso.
  assert (HXY : X ⊂ Y). { split; [done|]. intros H'. apply Hne. apply leibniz_equiv. intros x. split; [apply H|apply H']. }
  apply subset_size in HXY. lia.
Qed.

(** ** Marking *)
Section marks.
  Context (m : name_map name_set) (M0 : name -> Prop).
  Inductive marks : name -> Prop :=
    | mk_0 n : M0 n -> marks n
    | mk_1 n s : m !! n = Some s -> (forall k, k ∈ s -> marks k) -> marks n.
End marks.

Lemma mark_pass_sub es M : M ⊆ mark_pass es M.
Proof.
  unfold mark_pass. revert M. induction es as [|[n s] es IH]; intros M; simpl; [done|].
  etransitivity; [|apply IH]. case_bool_decide; set_solver.
Qed.
Lemma mark_pass_cons n s es M :
  mark_pass ((n, s) :: es) M = mark_pass es (if bool_decide (s ⊆ M) then {[n]} ∪ M else M).
Proof. done. Qed.
Lemma mark_pass_sound m (M0 : name -> Prop) es : (forall n s, (n, s) ∈ es -> m !! n = Some s) -> forall M,
  (forall n, n ∈ M -> marks m M0 n) -> forall n, n ∈ mark_pass es M -> marks m M0 n.
Proof.
  induction es as [|[n s] es IH]; intros Hes M HM k Hk; [by apply HM|]. rewrite mark_pass_cons in Hk.
  eapply IH; [intros; apply Hes; by right| |exact Hk]. intros x Hx. case_bool_decide as Hs; [|by apply HM].
  apply elem_of_union in Hx as [->%elem_of_singleton|Hx]; [|by apply HM].
  apply (mk_1 _ _ _ s); [apply Hes; by left|]. intros y Hy. apply HM. set_solver.
Qed.
Lemma mark_pass_closed es M : mark_pass es M = M -> forall n s, (n, s) ∈ es -> s ⊆ M -> n ∈ M.
Proof.
  revert M. induction es as [|[n s] es IH]; intros M Heq n' s' Hin Hs; [by apply elem_of_nil in Hin|].
  rewrite mark_pass_cons in Heq. case_bool_decide as Hb.
  - assert (Hn : n ∈ M). { rewrite <- Heq. apply mark_pass_sub. set_solver. }
    assert ({[n]} ∪ M = M) as E by set_solver. rewrite E in Heq.
    apply elem_of_cons in Hin as [[= -> ->]|Hin]; [done|]. by eapply IH.
  - apply elem_of_cons in Hin as [[= -> ->]|Hin]; [done|]. by eapply IH.
Qed.
Lemma mark_loop_spec ord m : (forall i, is_perm (ord i)) -> forall fuel i M M',
  mark_loop fuel ord i m M = Ok M' -> forall n, n ∈ M' <-> marks m (fun n => n ∈ M) n.
Proof.
  intros Hord. 
  assert (Hes : forall i n s, (n, s) ∈ ord i name_set (map_to_list m) -> m !! n = Some s).
  { intros i n s H. rewrite (Hord i _ _) in H. by apply elem_of_map_to_list. }
  assert (H : forall fuel i M M', mark_loop fuel ord i m M = Ok M' -> M ⊆ M' /\
    (forall n, n ∈ M' -> marks m (fun n => n ∈ M) n) /\ (forall n s, m !! n = Some s -> s ⊆ M' -> n ∈ M')).
  { induction fuel as [|fuel IH]; intros i M M' H; [done|]. cbn [mark_loop] in H.
    set (M1 := mark_pass (ord i name_set (map_to_list m)) M) in *.
    assert (H1 : forall n, n ∈ M1 -> marks m (fun n => n ∈ M) n).
    { apply mark_pass_sound; [apply Hes|]. intros n Hn. by apply mk_0. }
    assert (Hsub : M ⊆ M1) by apply mark_pass_sub.
    destruct (Nat.eqb_spec (size M1) (size M)) as [Esz|Esz].
    - injection H as <-. assert (M1 = M) as E.
      { symmetry. apply subseteq_size_eq; [done|lia]. }
      split; [done|]. split; [done|]. intros n s Hn Hs. rewrite E in *.
      eapply mark_pass_closed; [exact E| |exact Hs]. rewrite (Hord i _ _). by apply elem_of_map_to_list.
    - destruct (IH _ _ _ H) as (H2 & H3 & H4). split; [set_solver|]. split; [|done].
      intros n Hn. apply H3 in Hn. clear -Hn H1. induction Hn as [n Hn|n s Hs _ IHn]; [by apply H1|]. by eapply mk_1. }
  intros fuel i M M' HM n. destruct (H _ _ _ _ HM) as (H1 & H2 & H3). split; [apply H2|].
  induction 1 as [n Hn|n s Hs _ IH]; [by apply H1|]. eapply H3; [done|]. intros k Hk. by apply IH.
Qed.
Lemma mark_loop_total ord m : (forall i, is_perm (ord i)) -> forall fuel i M,
  (size (dom m ∖ M) < fuel)%nat -> exists M', mark_loop fuel ord i m M = Ok M'.
Proof.
  intros Hord. induction fuel as [|fuel IH]; intros i M Hf; [lia|]. cbn [mark_loop].
  set (M1 := mark_pass (ord i name_set (map_to_list m)) M) in *.
  assert (Hsub : M ⊆ M1) by apply mark_pass_sub.
  destruct (Nat.eqb_spec (size M1) (size M)) as [Esz|Esz]; [by eexists|].
  apply IH. enough (size (dom m ∖ M1) < size (dom m ∖ M))%nat by lia.
  assert (HM1 : M1 ⊆ M ∪ dom m).
  { intros n Hn. assert (H : marks m (fun n => n ∈ M) n).
    { eapply (mark_pass_sound m); [|intros; by apply mk_0|exact Hn]. intros k s Hk. rewrite (Hord i _ _) in Hk. by apply elem_of_map_to_list. }
    destruct H as [n Hn'|n s Hs _]; [set_solver|]. apply elem_of_union_r. by apply elem_of_dom_2 in Hs. }
  destruct (decide (M1 = M)) as [E|Hne]; [by rewrite E in Esz|].
  apply subset_size. split; [set_solver|]. intros Hs. apply Hne. apply leibniz_equiv. intros n. split; [|set_solver].
  intros Hn. destruct (decide (n ∈ M)); [done|]. set_solver.
Qed.
Lemma mark_loop_mono ord m : forall fuel i M r, mark_loop fuel ord i m M = Ok r -> forall fuel', (fuel <= fuel')%nat -> mark_loop fuel' ord i m M = Ok r.
Proof.
  induction fuel as [|fuel IH]; intros i M r H fuel' Hf; [done|]. destruct fuel' as [|fuel']; [lia|]. cbn [mark_loop] in *.
  case_match; [done|]. apply IH; [done|lia].
Qed.

(** ** Involved sets *)
Lemma involved_fold (M : name_set) (es : list (name * name_set)) : NoDup (es.*1) -> forall acc, (forall n, n ∈ es.*1 -> acc !! n = None) -> forall n,
  fold_left (fun acc '(n, refs) => involved_entry M n refs acc) es acc !! n =
    match list_find (fun x => x.1 = n) es with
    | Some (_, (_, refs)) => if bool_decide (refs ∖ M = ∅) then None else Some ({[n]} ∪ refs ∖ M)
    | None => acc !! n
    end.
Proof.
  induction es as [|[k s] es IH]; intros Hnd acc Hacc n; [done|]. simpl in Hnd. apply NoDup_cons in Hnd as [Hk Hnd].
  cbn [fold_left]. rewrite IH; [|done|].
  - cbn [list_find]. destruct (decide (k = n)) as [->|Hkn].
    + destruct (list_find _ es) as [[j [x refs]]|] eqn:E.
      { apply list_find_Some in E as (E & Hx & _). simpl in Hx. subst x. exfalso. apply Hk.
        apply elem_of_list_fmap. exists (n, refs). split; [done|]. by eapply elem_of_list_lookup_2. }
      simpl. rewrite (decide_True_pi eq_refl). simpl. unfold involved_entry. destruct (bool_decide (s ∖ M = ∅)) eqn:Hb; [apply Hacc; simpl; by left|]. by rewrite lookup_insert.
    + simpl. rewrite decide_False by done. destruct (list_find _ es) as [[j [x refs]]|] eqn:E; simpl; [done|].
      unfold involved_entry. case_bool_decide; [done|]. by rewrite lookup_insert_ne.
  - intros x Hx. unfold involved_entry. case_bool_decide; [apply Hacc; by right|].
    rewrite lookup_insert_ne; [apply Hacc; by right|]. intros ->. done.
Qed.
Lemma create_involved_spec (ho : hash_orders) (M : name_set) (left_ : name_map name_set) (n : name) : is_perm (ho_involved ho) ->
  create_involved_sets ho M left_ !! n =
    match left_ !! n with
    | Some refs => if bool_decide (refs ∖ M = ∅) then None else Some ({[n]} ∪ refs ∖ M)
    | None => None
    end.
Proof.
  intros Hp. unfold create_involved_sets. set (es := ho_involved ho name_set (map_to_list left_)).
  assert (Hes : es ≡ₚ map_to_list left_) by apply Hp.
  rewrite involved_fold.
  - destruct (list_find _ es) as [[j [x refs]]|] eqn:E.
    + apply list_find_Some in E as (E & Hx & _). simpl in Hx. subst x. apply elem_of_list_lookup_2 in E. rewrite Hes in E.
      apply elem_of_map_to_list in E. by rewrite E.
    + destruct (left_ !! n) as [refs|] eqn:El; [|by rewrite lookup_empty]. exfalso.
      apply list_find_None in E. rewrite list.Forall_forall in E. apply (E (n, refs)); [|done].
      rewrite Hes. by apply elem_of_map_to_list.
  - rewrite Hes. apply NoDup_fst_map_to_list.
  - intros k _. apply lookup_empty.
Qed.

(** ** Merging *)
Section merge.
  Context (inv : name_map name_set).
  Lemma merge_set_spec s :
    (exists s', merge_set inv s = Ok s' /\ (forall m, m ∈ s -> is_Some (inv !! m)) /\
      forall k, k ∈ s' <-> k ∈ s \/ exists m S, m ∈ s /\ inv !! m = Some S /\ k ∈ S) \/
    (merge_set inv s = Panic PExplicit /\ exists m, m ∈ s /\ inv !! m = None).
  Proof.
    unfold merge_set.
    assert (H : forall l, (exists s', foldr (fun m acc => let! acc := acc in
           match inv !! m with Some sm => Ok (sm ∪ acc) | None => Panic PExplicit end) (Ok s) l = Ok s' /\ (forall m, m ∈ l -> is_Some (inv !! m)) /\
      forall k, k ∈ s' <-> k ∈ s \/ exists m S, m ∈ l /\ inv !! m = Some S /\ k ∈ S) \/
      (foldr (fun m acc => let! acc := acc in
           match inv !! m with Some sm => Ok (sm ∪ acc) | None => Panic PExplicit end) (Ok s) l = Panic PExplicit /\ exists m, m ∈ l /\ inv !! m = None)).
    { induction l as [|m l [(s' & Hf & H1 & H2)|(Hf & m' & H1 & H2)]]; cbn [foldr]; try rewrite Hf; cbn [rbind].
      - left. exists s. split; [done|]. split; [intros m Hm; by apply elem_of_nil in Hm|].
        intros k. split; [by left|]. intros [?|(m & S & Hm & _)]; [done|by apply elem_of_nil in Hm].
      - destruct (inv !! m) as [sm|] eqn:E.
        + left. exists (sm ∪ s'). split; [done|]. split.
          { intros x [->|Hx]%elem_of_cons; [by rewrite E|by apply H1]. }
          intros k. rewrite elem_of_union, H2. split.
          * intros [Hk|[Hk|(x & S & Hx & HS & Hk)]]; [|by left|].
            -- right. exists m, sm. split; [by left|done].
            -- right. exists x, S. split; [by right|done].
          * intros [Hk|(x & S & [->|Hx]%elem_of_cons & HS & Hk)]; [by right; left| |].
            -- left. congruence.
            -- right. right. by exists x, S.
        + right. split; [done|]. exists m. split; [by left|done].
      - right. split; [done|]. exists m'. split; [by right|done]. }
    destruct (H (elements s)) as [(s' & H1 & H2 & H3)|(H1 & m & H2 & H3)].
    - left. exists s'. split; [done|]. split; [intros m Hm; by apply H2, elem_of_elements|].
      intros k. rewrite H3. setoid_rewrite elem_of_elements. done.
    - right. split; [done|]. exists m. split; [by apply elem_of_elements|done].
  Qed.

  Definition merged (S S' : name_set) : Prop :=
    forall k, k ∈ S' <-> k ∈ S \/ exists m Sm, m ∈ S /\ inv !! m = Some Sm /\ k ∈ Sm.
  Lemma merge_entries_spec es : NoDup (es.*1) -> forall acc,
    (exists acc', merge_entries inv es acc = Ok acc' /\
      (forall n S, (n, S) ∈ es -> (forall m, m ∈ S -> is_Some (inv !! m)) /\ exists S', acc' !! n = Some S' /\ merged S S') /\
      (forall n, n ∉ es.*1 -> acc' !! n = acc !! n)) \/
    (merge_entries inv es acc = Panic PExplicit /\ exists n S m, (n, S) ∈ es /\ m ∈ S /\ inv !! m = None).
  Proof.
    induction es as [|[n S] es IH]; intros Hnd acc.
    - left. exists acc. split; [done|]. split; [|done]. intros n S H. by apply elem_of_nil in H.
    - simpl in Hnd. apply NoDup_cons in Hnd as [Hn Hnd]. cbn [merge_entries].
      destruct (merge_set_spec S) as [(S' & -> & H1 & H2)|(-> & m & H1 & H2)]; cbn [rbind].
      + destruct (IH Hnd (<[n:=S']> acc)) as [(acc' & -> & H3 & H4)|(-> & k & T & m & H3 & H4)].
        * left. exists acc'. split; [done|]. split.
          -- intros k T [[= -> ->]|Hk]%elem_of_cons; [|by apply H3]. split; [done|].
             exists S'. split; [|done]. rewrite H4 by done. by rewrite lookup_insert.
          -- intros k Hk. simpl in Hk. apply not_elem_of_cons in Hk as [Hk1 Hk2]. rewrite H4 by done.
             by rewrite lookup_insert_ne.
        * right. split; [done|]. exists k, T, m. split; [by right|done].
      + right. split; [done|]. exists n, S, m. split; [by left|done].
  Qed.
  Lemma merge_dependent_spec :
    (exists inv', merge_dependent_sets inv = Ok inv' /\
      (forall n S, inv !! n = Some S -> (forall m, m ∈ S -> is_Some (inv !! m)) /\ exists S', inv' !! n = Some S' /\ merged S S') /\
      (forall n, inv !! n = None -> inv' !! n = None)) \/
    (merge_dependent_sets inv = Panic PExplicit /\ exists n S m, inv !! n = Some S /\ m ∈ S /\ inv !! m = None).
  Proof.
    unfold merge_dependent_sets. destruct (merge_entries_spec (map_to_list inv) (NoDup_fst_map_to_list inv) inv)
      as [(inv' & -> & H1 & H2)|(-> & n & S & m & H1 & H2)].
    - left. exists inv'. split; [done|]. split.
      + intros n S HS. apply H1. by apply elem_of_map_to_list.
      + intros n Hn. rewrite H2; [done|]. intros ([k S] & -> & Hin)%elem_of_list_fmap.
        apply elem_of_map_to_list in Hin. simpl in Hn. congruence.
    - right. split; [done|]. exists n, S, m. split; [by apply elem_of_map_to_list|done].
  Qed.
End merge.

Definition edge (inv : name_map name_set) (a b : name) : Prop := exists S, inv !! a = Some S /\ b ∈ S.
(** Every set contains its owner. *)
Definition owned (inv : name_map name_set) : Prop := forall n S, inv !! n = Some S -> n ∈ S.
Definition no_dangling (inv : name_map name_set) : Prop := forall n S m, inv !! n = Some S -> m ∈ S -> is_Some (inv !! m).

Lemma sum_sizes (inv : name_map name_set) (inv' : name_map name_set) :
  dom inv = dom inv' -> (forall n S S', inv !! n = Some S -> inv' !! n = Some S' -> S ⊆ S') ->
  (involved_rule_count inv <= involved_rule_count inv')%nat /\
  (involved_rule_count inv = involved_rule_count inv' -> inv = inv').
Proof.
  unfold involved_rule_count. revert inv'. induction inv as [|n S inv Hn IH] using map_ind; intros inv' Hd Hsub.
  - rewrite dom_empty_L in Hd. symmetry in Hd. apply dom_empty_inv_L in Hd as ->. done.
  - assert (Hn' : is_Some (inv' !! n)). { apply elem_of_dom. rewrite <- Hd, dom_insert_L. set_solver. }
    destruct Hn' as [S' HS']. rewrite <- (insert_delete _ _ _ HS') in *.
    assert (Hn' : delete n inv' !! n = None) by apply lookup_delete. clear HS'. revert Hd Hsub Hn'. generalize (delete n inv') as inv2. intros inv2 Hd Hsub Hn'.
    rewrite !dom_insert_L in Hd. rewrite !map_to_list_insert by done. cbn [map sum_list fmap list_fmap].
    assert (Hd' : dom inv = dom inv2).
    { apply leibniz_equiv. intros x. pose proof (elem_of_dom inv n) as Hx. pose proof (elem_of_dom inv2 n) as Hy.
      rewrite Hn in Hx. rewrite Hn' in Hy. assert (n ∉ dom inv) by (rewrite Hx; by intros [??]). assert (n ∉ dom inv2) by (rewrite Hy; by intros [??]).
      clear -Hd H H0. split; intros; set_solver. }
    destruct (IH inv2 Hd') as [IH1 IH2].
    { intros k T T' HT HT'. apply (Hsub k); (rewrite lookup_insert_ne; [done|]); intros ->; congruence. }
    assert (HS : S ⊆ S') by (apply (Hsub n); by rewrite lookup_insert).
    assert (Hsz : (size S <= size S')%nat) by (by apply subseteq_size).
    simpl. split; [lia|]. intros E. assert (S = S') as <-. { apply subseteq_size_eq; [done|lia]. }
    rewrite (IH2 ltac:(lia)). done.
Qed.
Lemma merge_loop_panic fuel inv : ~ no_dangling inv -> merge_loop (S fuel) inv = Panic PExplicit.
Proof.
  intros Hnd. cbn [merge_loop]. destruct (merge_dependent_spec inv) as [(inv' & -> & H1 & H2)|(-> & _)]; [|done].
  exfalso. apply Hnd. intros n S m HS Hm. by apply (proj1 (H1 _ _ HS)).
Qed.
Lemma merge_loop_step inv : owned inv -> no_dangling inv -> exists inv', merge_dependent_sets inv = Ok inv' /\
  dom inv' = dom inv /\ owned inv' /\ no_dangling inv' /\
  (forall n S S', inv !! n = Some S -> inv' !! n = Some S' -> S ⊆ S') /\
  (forall a b, edge inv' a b -> rtc (edge inv) a b) /\
  (inv' = inv -> forall a b c, edge inv a b -> edge inv b c -> edge inv a c).
Proof.
  intros Ho Hnd. destruct (merge_dependent_spec inv) as [(inv' & Hm & H1 & H2)|(Hm & n & S & m & HS & HmS & Hnone)].
  2: { destruct (Hnd _ _ _ HS HmS). congruence. }
  exists inv'. split; [done|].
  assert (Hdom : forall n, is_Some (inv' !! n) <-> is_Some (inv !! n)).
  { intros n. destruct (inv !! n) as [S|] eqn:E.
    - destruct (H1 _ _ E) as (_ & S' & -> & _). done.
    - by rewrite (H2 _ E). }
  assert (Hmerge : forall n S', inv' !! n = Some S' -> exists S, inv !! n = Some S /\ merged inv S S').
  { intros n S' H'. destruct (inv !! n) as [S|] eqn:E; [|by rewrite (H2 _ E) in H'].
    destruct (H1 _ _ E) as (_ & S2 & H3 & H4). exists S. split; [done|]. assert (S2 = S') as -> by congruence. done. }
  split. { apply leibniz_equiv. intros n. rewrite !elem_of_dom. apply Hdom. }
  split. { intros n S' H'. destruct (Hmerge _ _ H') as (S & HS & HM). apply HM. left. by apply (Ho n). }
  split. { intros n S' m H' Hm'. apply Hdom. destruct (Hmerge _ _ H') as (S & HS & HM).
    destruct (proj1 (HM m) Hm') as [Hm2|(k & Sk & Hk & HSk & Hm2)]; [by eapply Hnd|by eapply Hnd]. }
  split. { intros n S S' HS HS'. destruct (Hmerge _ _ HS') as (S2 & HS2 & HM). assert (S2 = S) as -> by congruence.
    intros k Hk. apply HM. by left. }
  split. { intros a b (S' & HS' & Hb). destruct (Hmerge _ _ HS') as (S & HS & HM).
    destruct (proj1 (HM b) Hb) as [Hb2|(k & Sk & Hk & HSk & Hb2)].
    - apply rtc_once. by exists S.
    - eapply rtc_l; [by exists S|]. apply rtc_once. by exists Sk. }
  intros -> a b c (S & HS & Hb) (Sb & HSb & Hc). destruct (Hmerge _ _ HS) as (S2 & HS2 & HM).
  assert (S2 = S) as -> by congruence. exists S. split; [done|]. apply HM. right. by exists b, Sb.
Qed.
Lemma merge_loop_spec fuel : forall inv inv', owned inv -> no_dangling inv -> merge_loop fuel inv = Ok inv' ->
  dom inv' = dom inv /\ forall n S, inv' !! n = Some S -> forall m, m ∈ S <-> rtc (edge inv) n m.
Proof.
  induction fuel as [|fuel IH]; intros inv inv' Ho Hnd H; [done|]. cbn [merge_loop] in H.
  destruct (merge_loop_step inv Ho Hnd) as (inv1 & E & Hd & Ho1 & Hnd1 & Hsub & Hed & Hcl). rewrite E in H. cbn [rbind] in H.
  destruct (sum_sizes inv inv1 (eq_sym Hd) Hsub) as [Hle Heq].
  destruct (Nat.eqb_spec (involved_rule_count inv1) (involved_rule_count inv)) as [Ec|Ec].
  - injection H as <-. assert (inv1 = inv) as -> by (symmetry; apply Heq; lia). split; [done|]. specialize (Hcl eq_refl).
    intros n S HS m. split.
    + intros Hm. apply rtc_once. by exists S.
    + intros Hr. enough (Hm : edge inv n m) by (destruct Hm as (S2 & HS2 & Hm); assert (S2 = S) as -> by congruence; done).
      assert (Hself : edge inv n n) by (exists S; split; [done|by apply (Ho n)]).
      clear HS. induction Hr as [|a b c Hab Hbc IHr]; [done|].
      eapply Hcl; [exact Hab|]. apply IHr. destruct Hab as (S2 & HS2 & Hb). destruct (Hnd _ _ _ HS2 Hb) as [Sb HSb].
      exists Sb. split; [done|by apply (Ho b)].
  - destruct (IH _ _ Ho1 Hnd1 H) as [H1 H2]. split; [congruence|]. intros n S HS m. rewrite (H2 _ _ HS). split.
    + intros Hr. clear HS. induction Hr as [|x y z Hxy _ Hr]; [done|]. etransitivity; [by apply Hed|done].
    + assert (Hincl : forall a b, edge inv a b -> edge inv1 a b).
      { intros a b (Sa & HSa & Hb). assert (Hi : is_Some (inv1 !! a)). { apply elem_of_dom. rewrite Hd. by apply elem_of_dom_2 in HSa. }
        destruct Hi as [S1 HS1]. exists S1. split; [done|]. by apply (Hsub a _ _ HSa HS1). }
      intros Hr. clear HS. induction Hr as [|x y z Hxy _ Hr]; [done|]. eapply rtc_l; [by apply Hincl|done].
Qed.
Lemma merge_loop_mono fuel : forall inv r, merge_loop fuel inv = Ok r -> forall fuel', (fuel <= fuel')%nat -> merge_loop fuel' inv = Ok r.
Proof.
  induction fuel as [|fuel IH]; intros inv r H fuel' Hf; [done|]. destruct fuel' as [|fuel']; [lia|]. cbn [merge_loop] in *.
  destruct (merge_dependent_sets inv); cbn [rbind] in *; [|done|done]. case_match; [done|]. apply IH; [done|lia].
Qed.
Lemma count_bound (inv : name_map name_set) (D : name_set) : (forall n S, inv !! n = Some S -> S ⊆ D) ->
  (involved_rule_count inv <= size (dom inv) * size D)%nat.
Proof.
  unfold involved_rule_count. induction inv as [|n S inv Hn IH] using map_ind; intros H.
  - rewrite map_to_list_empty. simpl. lia.
  - rewrite map_to_list_insert by done. cbn [map sum_list fmap list_fmap]. rewrite dom_insert_L.
    rewrite size_union by (apply not_elem_of_dom in Hn; set_solver). rewrite size_singleton.
    assert (size S <= size D)%nat. { apply subseteq_size. apply (H n). by rewrite lookup_insert. }
    simpl. enough (sum_list (map (fun '(_, s) => size s) (map_to_list inv)) <= size (dom inv) * size D)%nat by lia.
    apply IH. intros k T HT. apply (H k). rewrite lookup_insert_ne; [done|]. intros ->. congruence.
Qed.
Lemma merge_loop_total fuel : forall inv, owned inv -> no_dangling inv ->
  (size (dom inv) * size (dom inv) - involved_rule_count inv < fuel)%nat -> exists inv', merge_loop fuel inv = Ok inv'.
Proof.
  induction fuel as [|fuel IH]; intros inv Ho Hnd Hf; [lia|]. cbn [merge_loop].
  destruct (merge_loop_step inv Ho Hnd) as (inv1 & E & Hd & Ho1 & Hnd1 & Hsub & Hed & Hcl). rewrite E. cbn [rbind].
  destruct (sum_sizes inv inv1 (eq_sym Hd) Hsub) as [Hle Heq].
  destruct (Nat.eqb_spec (involved_rule_count inv1) (involved_rule_count inv)) as [Ec|Ec]; [by eexists|].
  apply IH; [done|done|]. rewrite Hd.
  assert (Hb : (involved_rule_count inv1 <= size (dom inv1) * size (dom inv))%nat).
  { apply count_bound. intros n S HS m Hm. rewrite <- Hd. apply elem_of_dom. by eapply Hnd1. }
  rewrite Hd in Hb. lia.
Qed.
