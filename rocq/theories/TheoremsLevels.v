(** Theorems C62: left recursion on several levels. *)
From Verif Require Import SpecSafe SpecSession ProofBasics ProofPeg ProofSound ProofSafe ProofTree ProofTree2 ProofLR ProofLRTree ProofExact Programs Checks TheoremsKernel TheoremsDeriv TheoremsLRTree TheoremsExact TheoremsExamples TheoremsPackrat SpecLevels.
From Verif Require Import ProofCycle ProofCycleTree ProofLevels.
Local Open Scope N_scope.

Section entry.
  Context {U : Type} (pr : program U) (fn : N -> N) (plain : N -> bool) (Nr : N -> bool).
  Context (s : list N) (u0 : U) (Hs : N.of_nat (length s) < u32_modulus).
  Context (c : level) (ls : list level) (HO : levels_ok pr fn plain Nr (c :: ls)) (Hpp : plain_part pr fn plain Nr).
  Context (Hwf : program_wf pr fn) (Hnh : no_hooks pr).
  Notation g := (grammar_of pr).
  Notation src := (source_new s).
  Notation all := (fun _ : N => true).
  Notation prr := (pr' pr plain).

  Lemma LIs_fresh l (st : pstate U) : c_memo (cx_cache (st_ctx st)) = ∅ -> c_heads (cx_cache (st_ctx st)) = ∅ -> LIs pr fn plain s l st.
  Proof using.
    clear. intros HM HH. induction l as [|c l IH]; simpl.
    - intros r i b q k. by rewrite HM, lookup_empty.
    - split; [done|]. intros i. left. rewrite HH. split; [apply lookup_empty|]. intros r _. by rewrite HM, lookup_empty.
  Qed.
  Lemma C62_state r f fuel b q st' : pr_fn pr f = Some (lv_call c) -> fn r = f ->
    run_entry pr u0 fuel (EVar r f) s = Ok ((b, q), st') ->
    exists n, p_nodes (cx_pub (st_ctx st')) !! 0 = Some n /\ n_result n = true /\ 0 < p_len (cx_pub (st_ctx st')) /\
      exists y, levels_give g s fn plain 0 (c :: ls) y /\ outcome b q = t_end <$> y /\ (b = false -> q = 0) /\
        kxs (cx_pub (st_ctx st')) (n_children n) (match y with Some t => [TNode r 0 q true [t]] | None => [] end).
  Proof.
    intros Hf Hr Hev.
    assert (Hpf : plain f = false). { destruct (plain f) eqn:E; [|done]. by pose proof (pp_plain _ _ _ _ Hpp f _ E Hf). }
    revert Hev. unfold run_entry. destruct fuel as [|fuel]; [done|]. simpl. unfold var_name_kernel. intros Hev.
    refine (wp_Ok (fun _ => True) _ _ (fun r' st' => exists n, p_nodes (pub st') !! 0 = Some n /\ n_result n = true /\ 0 < p_len (pub st') /\
      exists y, levels_give g s fn plain 0 (c :: ls) y /\ outcome (fst r') (snd r') = t_end <$> y /\ (fst r' = false -> snd r' = 0) /\
        kxs (pub st') (n_children n) (match y with Some t => [TNode r 0 (snd r') true [t]] | None => [] end)) _ _ _ Hev). clear Hev.
    set (st0 := PState _ u0).
    pose proof (TInv_init prr s fn all Hs (pr_grammar pr) u0 : TInv prr s fn all st0) as I0.
    assert (Hroot : p_nodes (pub st0) !! 0 = Some (Node 0 (pr_grammar pr) 0 0 true [])) by reflexivity.
    apply wp_bind, W_get. unfold default_behaviour. simpl. unfold check. simpl. rewrite lookup_empty.
    apply st_reserve. intros st1 P1 C1. destruct (res_own prr s fn all Hs st0 st0 st1 r I0 (RS_refl s Hs st0) P1 C1) as (T1 & R1 & X1 & O1).
    set (k := p_len (pub st0)) in *. assert (Ek : k = 1) by reflexivity. apply wp_bind. rewrite Hf.
    assert (I1 : LInv pr fn plain s (LIs pr fn plain s ls) st1).
    { split; [done|]. by apply LIs_fresh; rewrite C1. }
    assert (K1 : kidsof 0 st1 k []). { split; [by eapply (own_open all)|]. destruct O1 as (_ & _ & Hn & _). eauto. }
    eapply wp_mono.
    { apply (grows_here pr fn plain Nr s Hs Hwf Hpp c ls HO (PT_levels pr fn plain Nr s Hs Hwf Hpp ls (proj2 HO)) 0 fuel k [] st1 None I1).
      - by rewrite C1.
      - intros r' Hr'. rewrite C1. simpl. by rewrite lookup_empty.
      - exact K1. }
    intros [b' q'] st2 (y & Hy & Hend & Hq & I2 & (F2 & S2 & _) & _ & _ & lk & _ & [_ (n2 & Hn2 & Hk2)] & Hnod). cbn [fst snd app] in *.
    destruct (own_R prr s fn all Hs st0 st1 st2 r k _ O1 T1 F2) as (n2' & O2). pose proof O2 as (_ & _ & Hn2' & Er & Hf2 & Horph).
    rewrite Hn2 in Hn2'. injection Hn2' as <-.
    apply st_cache; [done|]. intros st3 P3 C3. apply st_update. intros n4 st4 Hn4 P4 C4. rewrite P3, Hn2 in Hn4. injection Hn4 as <-. rewrite P3 in P4.
    destruct (kx_upd (pub st2) k n2 b' 0 q' Hn2 Hf2 Horph) as [KX KXS]. rewrite <- P4 in KX, KXS.
    assert (Hk4 : kxs (pub st4) [k] (match y with Some t => [TNode r 0 q' true [t]] | None => [] end)).
    { assert (Hnk : p_nodes (pub st4) !! k = Some (upd n2 b' 0 q')) by (rewrite P4; simpl; apply lookup_insert).
      pose proof (noded_kxs _ _ _ _ _ _ _ Hnod) as HK. apply KXS in HK; [|rewrite <- Hk2; by apply (Horph k n2)].
      destruct b', y as [t|]; cbn in Hend; try discriminate Hend.
      - apply kx_keep; [|constructor]. rewrite <- Er.
        change (kx (pub st4) k (TNode (n_rule (upd n2 true 0 q')) (n_start (upd n2 true 0 q')) (n_end (upd n2 true 0 q')) true [t])).
        apply kx_node; [done|done|by rewrite Ek|]. simpl. by rewrite Hk2.
      - eapply kx_skipk; [exact Hnk|done|constructor]. }
    assert (H4 : exists n4, p_nodes (pub st4) !! 0 = Some n4 /\ n_children n4 = [] /\ n_result n4 = true).
    { destruct (X1) as [_ X1']. destruct (X1' _ _ Hroot) as (n1 & l1 & Hn1 & _ & _ & E1 & _). assert (Hc1 : n_children n1 = []).
      { destruct R1 as [_ HS1]. destruct (HS1 _ _ Hroot) as (n1' & Hn1' & E'). rewrite Hn1 in Hn1'. injection Hn1' as <-. done. }
      destruct (S2 0 n1) as (n3 & Hn3 & E3); [by rewrite Ek|done|]. destruct F2 as ([_ X2] & _). destruct (X2 _ _ Hn1) as (n3' & l3 & Hn3' & _ & _ & E4 & _).
      rewrite Hn3 in Hn3'. injection Hn3' as <-. exists n3. split; [rewrite P4; simpl; rewrite lookup_insert_ne by (by rewrite Ek); done|]. split; [congruence|]. rewrite E4, E1. done. }
    destruct H4 as (n4 & Hn4 & Hc4 & Hr4).
    apply st_connect. intros n5 st5 Hn5 _ P5 C5. rewrite Hn4 in Hn5. injection Hn5 as <-. apply wp_ret.
    assert (X5 : ext (pub st4) (pub st5)).
    { rewrite P5. split; [simpl; lia|]. intros k' m Hm. simpl. destruct (decide (k' = 0)) as [->|Hk'].
      - rewrite lookup_insert. rewrite Hn4 in Hm. injection Hm as <-. eexists _, [k]. split; [done|]. simpl. split_and!; try done.
      - rewrite lookup_insert_ne by done. exists m, []. by rewrite app_nil_r. }
    eexists. split; [rewrite P5; simpl; apply lookup_insert|]. split; [done|]. split.
    { rewrite P5, P4. simpl. destruct F2 as ([L2 _] & _). destruct X1 as [L1 _]. pose proof (ti_root _ _ _ _ _ I0). lia. }
    exists y. split; [done|]. split; [done|]. split; [done|]. simpl. rewrite Hc4. by apply (kx_ext _ _ X5).
  Qed.

  (** What the nodes denote when the call is over. *)
  Lemma C62_raw r f fuel b q st : pr_fn pr f = Some (lv_call c) -> fn r = f ->
    run_entry pr u0 fuel (EVar r f) s = Ok ((b, q), st) ->
    exists l i j F y, denotes (cx_pub (st_ctx st)) (TNode l i j true F) /\ levels_give g s fn plain 0 (c :: ls) y /\ outcome b q = t_end <$> y /\ (b = false -> q = 0) /\
      prune_forest F = prune_forest (match y with Some t => [TNode r 0 q true [t]] | None => [] end).
  Proof using HO Hpp Hnh Hs Hwf.
    intros Hf Hr Ev. destruct (C62_state r f fuel b q st Hf Hr Ev) as (n & Hn & Hres & Hlen & y & Hy & He & Hq & HK).
    assert (Hhk : hooks_behave (N.of_nat (length s)) (memo_claim pr s fn) (eq PKeyOverflow) pr (source_new s)) by (by apply no_hooks_behave).
    assert (HS : session pr (expr_wf pr fn) s u0 st).
    { eapply session_call; [apply session_fresh| | |exact Ev]; [done|lia]. }
    destruct (C16_finite_trees pr fn s u0 Hs Hwf (eq PKeyOverflow) eq_refl Hhk st 0 HS Hlen) as [t' Ht'].
    inversion Ht' as [k m F HnO Hm HFo]; subst. rewrite Hn in Hm. injection Hm as <-. rewrite Hres in Ht'.
    destruct (kx_prune nothing (cx_pub (st_ctx st))) as [_ KP]. pose proof (KP _ _ HK _ HFo) as HP.
    eexists _, _, _, F, y. done.
  Qed.
  (** The tree [parse] returns through a rule that only names the first rule of
      the highest level (the examples' <Grammar>). *)
  Theorem C62_entry_tree r f fuel b0 q p' l i j b G : pr_fn pr f = Some (lv_call c) -> fn r = f ->
    parse_with pr u0 fuel (EVar r f) s = Ok (b0, q, p') -> denotes p' (TNode l i j b G) ->
    if b0 then exists t, levels_give g s fn plain 0 (c :: ls) (Some t) /\ t_end t = q /\ G = prune_forest [TNode r 0 q true [t]]
    else levels_give g s fn plain 0 (c :: ls) None /\ q = 0 /\ G = [].
  Proof using HO Hpp Hnh Hs Hwf.
    intros Hf Hr Hp Hd. unfold parse_with in Hp.
    destruct (run_entry pr u0 fuel (EVar r f) s) as [[[b1 q1] st]| |] eqn:Ev; cbn [rbind] in Hp; [|done|done].
    destruct (clear_false fuel (pr_grammar pr) (cx_pub (st_ctx st))) as [t| |] eqn:Ec; cbn [rbind] in Hp; [|done|done].
    injection Hp as -> -> ->.
    destruct (C62_raw r f fuel b0 q st Hf Hr Ev) as (l0 & i0 & j0 & F & y & Ht' & Hy & He & Hq & HP).
    pose proof (C17_any_answer _ _ _ _ _ _ _ _ Ht' Ec) as Hd'.
    destruct (unfolds_det nothing nothing p') as [Hdet _]. pose proof (Hdet _ _ Hd _ Hd') as E. injection E as -> -> -> -> ->.
    destruct b0, y as [t|]; cbn in He; try discriminate He.
    - injection He as He. exists t. split; [done|]. split; [done|]. by rewrite HP.
    - split; [done|]. split; [by apply Hq|]. by rewrite HP.
  Qed.

  (** The same when that rule is called directly. *)
  Lemma C62_call_state fuel b q st' : run_entry pr u0 fuel (lv_call c) s = Ok ((b, q), st') ->
    exists n, p_nodes (cx_pub (st_ctx st')) !! 0 = Some n /\ n_result n = true /\ 0 < p_len (cx_pub (st_ctx st')) /\
      exists y, levels_give g s fn plain 0 (c :: ls) y /\ outcome b q = t_end <$> y /\ (b = false -> q = 0) /\ kxs (cx_pub (st_ctx st')) (n_children n) (first_child y).
  Proof using HO Hpp Hs Hwf.
    intros Hev. revert Hev. unfold run_entry. set (st0 := PState _ u0). intros Hev.
    pose proof (TInv_init prr s fn all Hs (pr_grammar pr) u0 : TInv prr s fn all st0) as I0.
    assert (Hroot : p_nodes (pub st0) !! 0 = Some (Node 0 (pr_grammar pr) 0 0 true [])) by reflexivity.
    assert (H : wp (fun _ => True) (eval pr src fuel (lv_call c) 0 0) st0 (fun r st' => exists y, levels_give g s fn plain 0 (c :: ls) y /\
      outcome (fst r) (snd r) = end_of y /\ (fst r = false -> snd r = 0) /\ GPost pr fn plain (lv_inv c) s (low fn plain ls) (LIs pr fn plain s ls) (lv_first c) 0 None st0 0 [] r y st')).
    { apply (grows_here pr fn plain Nr s Hs Hwf Hpp c ls HO (PT_levels pr fn plain Nr s Hs Hwf Hpp ls (proj2 HO)) 0 fuel 0 [] st0 None).
      - split; [done|]. by apply LIs_fresh.
      - done.
      - intros r _. simpl. by rewrite lookup_empty.
      - split; [|by eexists]. eexists. split; [exact Hroot|]. split; [done|]. by intros _ cc m ?%elem_of_nil. }
    destruct (wp_Ok _ _ _ _ _ _ H Hev) as (y & Hy & He & Hq & I' & (F' & _) & _ & _ & lk & _ & [_ (n & Hn & Hk)] & Hnod). cbn [fst snd app] in *.
    destruct F' as ([L' X'] & _). destruct (X' _ _ Hroot) as (n' & l' & Hn' & _ & _ & E' & _). rewrite Hn in Hn'. injection Hn' as <-.
    exists n. split; [done|]. split; [by rewrite E'|]. split; [pose proof (ti_root _ _ _ _ _ I0); lia|]. exists y. split; [done|]. split; [done|]. split; [done|].
    rewrite Hk. by eapply noded_kxs.
  Qed.
  Theorem C62_call_tree fuel b0 q p' l i j b G :
    parse_with pr u0 fuel (lv_call c) s = Ok (b0, q, p') -> denotes p' (TNode l i j b G) ->
    if b0 then exists t, levels_give g s fn plain 0 (c :: ls) (Some t) /\ t_end t = q /\ G = prune_forest [t]
    else levels_give g s fn plain 0 (c :: ls) None /\ q = 0 /\ G = [].
  Proof using HO Hpp Hnh Hs Hwf.
    intros Hp Hd. unfold parse_with in Hp. set (entry := lv_call c) in *.
    destruct (run_entry pr u0 fuel entry s) as [[[b1 q1] st]| |] eqn:Ev; cbn [rbind] in Hp; [|done|done].
    destruct (clear_false fuel (pr_grammar pr) (cx_pub (st_ctx st))) as [t| |] eqn:Ec; cbn [rbind] in Hp; [|done|done].
    injection Hp as -> -> ->.
    destruct (C62_call_state fuel b0 q st Ev) as (n & Hn & Hres & Hlen & y & Hy & He & Hq & HK).
    assert (Hhk : hooks_behave (N.of_nat (length s)) (memo_claim pr s fn) (eq PKeyOverflow) pr (source_new s)) by (by apply no_hooks_behave).
    assert (Hwe : expr_wf pr fn entry).
    { pose proof (lo_linked _ _ _ _ _ _ (proj1 HO)) as [(H1 & _ & (body & Hb & _) & _) _]. split; [done|]. by eexists. }
    assert (HS : session pr (expr_wf pr fn) s u0 st).
    { eapply session_call; [apply session_fresh|exact Hwe| |exact Ev]. lia. }
    destruct (C16_finite_trees pr fn s u0 Hs Hwf (eq PKeyOverflow) eq_refl Hhk st 0 HS Hlen) as [t' Ht'].
    inversion Ht' as [k m F HnO Hm HFo]; subst. rewrite Hn in Hm. injection Hm as <-. rewrite Hres in Ht'.
    destruct (kx_prune nothing (cx_pub (st_ctx st))) as [_ KP]. pose proof (KP _ _ HK _ HFo) as HP.
    pose proof (C17_any_answer _ _ _ _ _ _ _ _ Ht' Ec) as Hd'.
    destruct (unfolds_det nothing nothing p') as [Hdet _]. pose proof (Hdet _ _ Hd _ Hd') as E. injection E as -> -> -> -> ->.
    destruct b0, y as [t|]; cbn in He; try discriminate He.
    - injection He as He. exists t. split; [done|]. split; [done|]. by rewrite HP.
    - split; [done|]. split; [by apply Hq|]. by rewrite HP.
  Qed.
End entry.

(** ** The specification determines the answer *)
Section unique.
  Context (runs : expr -> N -> answer -> Prop) (p : N) (Hdet : forall e i o1 o2, runs e i o1 -> runs e i o2 -> o1 = o2).
  Lemma tail_det t q o1 o2 : tail_runs runs t q o1 -> tail_runs runs t q o2 -> o1 = o2.
  Proof using Hdet. destruct t; simpl; [by apply Hdet|congruence]. Qed.
  Lemma tries_det x l o1 o2 : tries runs p x l o1 -> tries runs p x l o2 -> o1 = o2.
  Proof using Hdet.
    intros H. revert o2. induction H as [|n t l j D Hx Ht|t l o Ht _ IH|e l j D He|e l o He _ IH]; intros o2 H2; inversion H2; subst; try done.
    - match goal with H : Some _ = Some _ |- _ => injection H as -> end. by eapply tail_det.
    - match goal with H : tail_runs _ _ _ None |- _ => pose proof (tail_det _ _ _ _ Ht H) end. done.
    - match goal with H : tail_runs _ _ _ (Some _) |- _ => pose proof (tail_det _ _ _ _ Ht H) end. done.
    - by apply IH.
    - by eapply Hdet.
    - match goal with H : runs _ _ None |- _ => pose proof (Hdet _ _ _ _ He H) end. done.
    - match goal with H : runs _ _ (Some _) |- _ => pose proof (Hdet _ _ _ _ He H) end. done.
    - by apply IH.
  Qed.
  Lemma passes_det ms x y1 y2 : passes runs p ms x y1 -> passes runs p ms x y2 -> y1 = y2.
  Proof using Hdet.
    revert y1 y2. induction ms as [|m ms IH]; simpl; [congruence|]. intros y1 y2 (z1 & o1 & H1 & H2 & ->) (z2 & o2 & H3 & H4 & ->).
    rewrite (IH _ _ H1 H3) in H2 |- *. by rewrite (tries_det _ _ _ _ H2 H4).
  Qed.
  Lemma grows_det ms x z1 z2 : grows runs p ms x z1 -> grows runs p ms x z2 -> z1 = z2.
  Proof using Hdet.
    intros H. revert z2. induction H as [x y Hp Hs|x y z Hp Hlt _ IH]; intros z2 H2; inversion H2 as [x' y' Hp' Hs'|x' y' z' Hp' Hlt' Hg]; subst; try done;
      pose proof (passes_det _ _ _ _ Hp Hp') as E; subst; try (injection E as ->).
    - lia.
    - lia.
    - by apply IH.
  Qed.
  Lemma cycle_det ms y1 y2 : cycle_gives runs p ms y1 -> cycle_gives runs p ms y2 -> y1 = y2.
  Proof using Hdet.
    intros (m & rest & o & -> & H1 & H2) (m' & rest' & o' & [= <- <-] & H3 & H4). rewrite <- (tries_det _ _ _ _ H1 H3) in H4.
    destruct (node_of p (m_label m) None o) as [t|]; [|congruence]. destruct (t_end t <=? p); [congruence|].
    destruct H2 as (z1 & G1 & ->), H4 as (z2 & G2 & ->). f_equal. by eapply grows_det.
  Qed.
End unique.
Section unique_levels.
  Context {U : Type} (pr : program U) (fn : N -> N) (plain : N -> bool) (Nr : N -> bool) (s : list N).
  Notation g := (grammar_of pr).
  Notation runs := (SpecLevels.runs g s fn plain).
  Definition splits (run : expr -> N -> answer -> Prop) : Prop :=
    (forall a b i o, run (ESeq a b) i o -> (exists j k D1 D2, run a i (Some (j, D1)) /\ run b j (Some (k, D2)) /\ o = Some (k, D1 ++ D2)) \/
      (run a i None /\ o = None) \/ (exists j D, run a i (Some (j, D)) /\ run b j None /\ o = None)) /\
    (forall a b i o, run (EChoice a b) i o -> (exists j D, run a i (Some (j, D)) /\ o = Some (j, D)) \/ (run a i None /\ run b i o)) /\
    (forall a i o, run (ESub a) i o -> run a i o).
  Lemma peg_deriv e i j : peg g s e i (Some j) -> exists D, deriv g s e i j D.
  Proof using.
    intros H. remember (Some j) as o eqn:Eo. revert j Eo. induction H; intros j' [= ]; subst; repeat match goal with IH : forall j, Some ?x = Some j -> _ |- _ => destruct (IH _ eq_refl) as [? ?]; clear IH end;
      try (eexists; econstructor; eassumption); try (eexists; econstructor; (eassumption || done)).
    all: try (destruct l as [r|]; eexists; econstructor; eassumption).
  Qed.
  Lemma splits_plain : splits (runs_plain g s fn plain).
  Proof using.
    split; [|split].
    - intros a b i o [[Pa Pb] H]. destruct o as [[k D]|]; cbn [pexp_of] in H.
      + inversion H; subst. left. eexists _, _, _, _. split; [split; [done|eassumption]|]. split; [split; [done|eassumption]|done].
      + inversion H; subst.
        * right. right. match goal with H : peg _ _ (pexp_of a) i (Some _) |- _ => apply peg_deriv in H as [D HD] end. eexists _, D. split; [split; [done|exact HD]|]. split; [split; done|done].
        * right. left. split; [split; done|done].
    - intros a b i o [[Pa Pb] H]. destruct o as [[k D]|]; cbn [pexp_of] in H; inversion H; subst.
      + left. eexists _, _. split; [split; [done|eassumption]|done].
      + right. split; [split; done|split; done].
      + right. split; [split; done|split; done].
    - intros a i o [Pa H]. by split.
  Qed.
  Lemma splits_runs ls : splits (runs ls).
  Proof using.
    induction ls as [|c ls [IH1 [IH2 IH3]]]; [by apply splits_plain|]. split; [|split].
    - intros a b i o H. inversion H as [e i' o' Hb| | | | | | |]; subst; [|by left; eexists _, _, _, _|by right; left|by right; right; eexists _, _].
      apply IH1 in Hb as [(j & k & D1 & D2 & H1 & H2 & ->)|[[H1 ->]|(j & D & H1 & H2 & ->)]].
      + left. exists j, k, D1, D2. split_and!; [by apply ra_below|by apply ra_below|done].
      + right. left. split; [by apply ra_below|done].
      + right. right. exists j, D. split_and!; [by apply ra_below|by apply ra_below|done].
    - intros a b i o H. inversion H as [e i' o' Hb| | | | | | |]; subst; [|by left; eexists _, _|by right].
      apply IH2 in Hb as [(j & D & H1 & ->)|[H1 H2]].
      + left. exists j, D. split; [by apply ra_below|done].
      + right. split; by apply ra_below.
    - intros a i o H. inversion H as [e i' o' Hb| | | | | | |]; subst; [|done]. apply ra_below. by apply IH3.
  Qed.
  Lemma not_below c ls i o : (forall c', c' ∈ ls -> lv_call c' <> lv_call c) -> ~ runs ls (lv_call c) i o.
  Proof using.
    induction ls as [|c' ls IH]; intros Hne H; [by destruct H as [H _]|]. inversion H; subst.
    - eapply IH; [|eassumption]. intros c2 H2. apply Hne. by right.
    - apply (Hne c'); [by left|]. unfold lv_call. congruence.
  Qed.
  Lemma runs_det ls : levels_ok pr fn plain Nr ls -> forall e i o1 o2, runs ls e i o1 -> runs ls e i o2 -> o1 = o2.
  Proof using.
    induction ls as [|c ls IH]; intros HO.
    - intros e i o1 o2 [_ H1] [_ H2]. destruct o1 as [[j1 D1]|], o2 as [[j2 D2]|]; [..|done].
      + by destruct (deriv_det _ _ _ _ _ _ H1 _ _ H2) as [-> ->].
      + apply deriv_peg in H1. pose proof (peg_det _ _ _ _ _ _ H1 H2). done.
      + apply deriv_peg in H2. pose proof (peg_det _ _ _ _ _ _ H1 H2). done.
    - destruct HO as [Hc HO]. specialize (IH HO). destruct (splits_runs (c :: ls)) as (S1 & S2 & S3).
      assert (Hnb : forall i o, ~ runs ls (lv_call c) i o).
      { intros i o. apply not_below. intros c' Hc' E. injection E as E _ _. pose proof (label0_inv _ _ _ _ _ _ Hc) as Hl.
        eapply (lo_disjoint _ _ _ _ _ _ Hc); [exact Hc'| |exact Hl]. by rewrite E. }
      assert (Hleaf : forall e i o1 o2, runs ls e i o1 -> runs (c :: ls) e i o2 -> (match e with ESeq _ _ | EChoice _ _ | ESub _ => False | _ => True end) -> o1 = o2).
      { intros e i o1 o2 H1 H2 He. inversion H2; subst; try done; [by eapply IH|]. by apply Hnb in H1. }
      induction e; intros i o1 o2 H1 H2; try (inversion H1; subst; by eapply Hleaf).
      + apply S1 in H1 as [(j & k & D1 & D2 & A1 & A2 & ->)|[[A1 ->]|(j & D & A1 & A2 & ->)]]; apply S1 in H2 as [(j' & k' & D1' & D2' & B1 & B2 & ->)|[[B1 ->]|(j' & D' & B1 & B2 & ->)]]; try done;
          pose proof (IHe1 _ _ _ A1 B1) as E; try discriminate E; injection E as -> ->; pose proof (IHe2 _ _ _ A2 B2) as E; try discriminate E. by injection E as -> ->.
      + apply S2 in H1 as [(j & D & A1 & ->)|[A1 A2]]; apply S2 in H2 as [(j' & D' & B1 & ->)|[B1 B2]]; pose proof (IHe1 _ _ _ A1 B1) as E; try discriminate E; [done|by eapply IHe2].
      + apply S3 in H1. apply S3 in H2. by eapply IHe.
      + inversion H1; subst; [by eapply Hleaf|]. inversion H2; subst; [exfalso; by eapply Hnb|]. f_equal. eapply cycle_det; [exact IH|..]; eassumption.
  Qed.
  (** The tree of the highest level is unique. *)
  Theorem C62_unique c ls i y1 y2 : levels_ok pr fn plain Nr (c :: ls) -> levels_give g s fn plain i (c :: ls) y1 -> levels_give g s fn plain i (c :: ls) y2 -> y1 = y2.
  Proof using. intros [_ HO]. apply cycle_det. by apply runs_det. Qed.
End unique_levels.
