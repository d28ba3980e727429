(** Theorems C61: the tree of left recursion round a cycle of rules. *)
From Verif Require Import SpecSafe SpecSession ProofBasics ProofPeg ProofSound ProofSafe ProofTree ProofTree2 ProofLR ProofLRTree ProofExact Programs Checks TheoremsKernel TheoremsDeriv TheoremsLRTree TheoremsExact TheoremsExamples TheoremsPackrat SpecCycleTree.
From Verif Require Import ProofCycle ProofCycleTree TheoremsCycle.
Local Open Scope N_scope.

Section entry.
  Context {U : Type} (pr : program U) (fn : N -> N) (plain : N -> bool) (Nr : N -> bool) (inv : list N).
  Context (s : list N) (u0 : U) (Hs : N.of_nat (length s) < u32_modulus).
  Context (m0 : member) (rest : list member) (HC : left_cycle pr fn plain inv m0 rest).
  Context (Hwf : program_wf pr fn) (Hnh : no_hooks pr) (Hcc : clean_cycle pr plain Nr (m0 :: rest)).
  Notation g := (grammar_of pr).
  Notation src := (source_new s).
  Notation all := (fun _ : N => true).
  Notation prr := (pr' pr plain).

  Lemma C61_state r f fuel b q st' : pr_fn pr f = Some (ELR inv (m_label m0) (m_fn m0)) -> fn r = f ->
    run_entry pr u0 fuel (EVar r f) s = Ok ((b, q), st') ->
    exists n, p_nodes (cx_pub (st_ctx st')) !! 0 = Some n /\ n_result n = true /\ 0 < p_len (cx_pub (st_ctx st')) /\
      exists y, cycle_tree g s 0 (m0 :: rest) y /\ outcome b q = t_end <$> y /\ (b = false -> q = 0) /\
        kxs (cx_pub (st_ctx st')) (n_children n) (match y with Some t => [TNode r 0 q true [t]] | None => [] end).
  Proof.
    intros Hf Hr Hev. pose proof (lc_linked _ _ _ _ _ _ HC) as [(_ & _ & (body & Hb & Halts) & _) _].
    assert (Hpf : plain f = false). { destruct (plain f) eqn:E; [|done]. by pose proof (lc_plain _ _ _ _ _ _ HC f _ E Hf). }
    revert Hev. unfold run_entry. destruct fuel as [|fuel]; [done|]. simpl. unfold var_name_kernel. intros Hev.
    refine (wp_Ok (fun _ => True) _ _ (fun r' st' => exists n, p_nodes (pub st') !! 0 = Some n /\ n_result n = true /\ 0 < p_len (pub st') /\
      exists y, cycle_tree g s 0 (m0 :: rest) y /\ outcome (fst r') (snd r') = t_end <$> y /\ (fst r' = false -> snd r' = 0) /\
        kxs (pub st') (n_children n) (match y with Some t => [TNode r 0 (snd r') true [t]] | None => [] end)) _ _ _ Hev). clear Hev.
    set (st0 := PState _ u0).
    pose proof (TInv_init prr s fn all Hs (pr_grammar pr) u0 : TInv prr s fn all st0) as I0.
    assert (Hroot : p_nodes (pub st0) !! 0 = Some (Node 0 (pr_grammar pr) 0 0 true [])) by reflexivity.
    apply wp_bind, W_get. unfold default_behaviour. simpl. unfold check. simpl. rewrite lookup_empty.
    apply st_reserve. intros st1 P1 C1. destruct (res_own prr s fn all Hs st0 st0 st1 r I0 (RS_refl s Hs st0) P1 C1) as (T1 & R1 & X1 & O1).
    set (k := p_len (pub st0)) in *. assert (Ek : k = 1) by reflexivity. apply wp_bind. rewrite Hf.
    assert (I1 : Inv pr fn plain s st1).
    { split; [done|]. intros r' i b' q' k'. rewrite C1. simpl. by rewrite lookup_empty. }
    assert (K1 : kidsof 0 st1 k []). { split; [by eapply (own_open all)|]. destruct O1 as (_ & _ & Hn & _). eauto. }
    eapply wp_mono.
    { apply (call_cycle_T pr fn plain Nr inv s Hs m0 rest HC 0 Hwf Hcc body Hb fuel k [] st1 I1).
      - by rewrite C1.
      - intros r' Hr'. rewrite C1. simpl. by rewrite lookup_empty.
      - exact K1. }
    intros [b' q'] st2 (y & Hy & Hend & Hq & I2 & [F2 S2] & lk & [_ (n2 & Hn2 & Hk2)] & Hnod). cbn [fst snd app] in *.
    destruct (own_R prr s fn all Hs st0 st1 st2 r k _ O1 T1 F2) as (n2' & O2). pose proof O2 as (_ & _ & Hn2' & Er & Hf2 & Horph).
    rewrite Hn2 in Hn2'. injection Hn2' as <-.
    apply st_cache; [done|]. intros st3 P3 C3. apply st_update. intros n4 st4 Hn4 P4 C4. rewrite P3, Hn2 in Hn4. injection Hn4 as <-. rewrite P3 in P4.
    destruct (kx_upd (pub st2) k n2 b' 0 q' Hn2 Hf2 Horph) as [KX KXS]. rewrite <- P4 in KX, KXS.
    assert (Hk4 : kxs (pub st4) [k] (match y with Some t => [TNode r 0 q' true [t]] | None => [] end)).
    { assert (Hnk : p_nodes (pub st4) !! k = Some (upd n2 b' 0 q')) by (rewrite P4; simpl; apply lookup_insert).
      pose proof (noded_kxs _ _ _ _ _ _ _ Hnod) as HK. apply KXS in HK; [|rewrite <- Hk2; by apply (Horph k n2)].
      destruct b', y as [t|]; cbn in Hend; try discriminate Hend.
      - apply kx_keep; [|constructor]. rewrite <- Er.
        change (kx (pub st4) k (TNode (n_rule (upd n2 true 0 q')) (n_start (upd n2 true 0 q')) (n_end (upd n2 true 0 q')) true [t])).
        apply kx_node; [done|done|by rewrite Ek|]. simpl. by rewrite Hk2.
      - eapply kx_skipk; [exact Hnk|done|constructor]. }
    assert (H4 : exists n4, p_nodes (pub st4) !! 0 = Some n4 /\ n_children n4 = [] /\ n_result n4 = true).
    { destruct (X1) as [_ X1']. destruct (X1' _ _ Hroot) as (n1 & l1 & Hn1 & _ & _ & E1 & _). assert (Hc1 : n_children n1 = []).
      { destruct R1 as [_ HS1]. destruct (HS1 _ _ Hroot) as (n1' & Hn1' & E'). rewrite Hn1 in Hn1'. injection Hn1' as <-. done. }
      destruct (S2 0 n1) as (n3 & Hn3 & E3); [by rewrite Ek|done|]. destruct F2 as ([_ X2] & _). destruct (X2 _ _ Hn1) as (n3' & l3 & Hn3' & _ & _ & E4 & _).
      rewrite Hn3 in Hn3'. injection Hn3' as <-. exists n3. split; [rewrite P4; simpl; rewrite lookup_insert_ne by (by rewrite Ek); done|]. split; [congruence|]. rewrite E4, E1. done. }
    destruct H4 as (n4 & Hn4 & Hc4 & Hr4).
    apply st_connect. intros n5 st5 Hn5 _ P5 C5. rewrite Hn4 in Hn5. injection Hn5 as <-. apply wp_ret.
    assert (X5 : ext (pub st4) (pub st5)).
    { rewrite P5. split; [simpl; lia|]. intros k' m Hm. simpl. destruct (decide (k' = 0)) as [->|Hk'].
      - rewrite lookup_insert. rewrite Hn4 in Hm. injection Hm as <-. eexists _, [k]. split; [done|]. simpl. split_and!; try done.
      - rewrite lookup_insert_ne by done. exists m, []. by rewrite app_nil_r. }
    eexists. split; [rewrite P5; simpl; apply lookup_insert|]. split; [done|]. split.
    { rewrite P5, P4. simpl. destruct F2 as ([L2 _] & _). destruct X1 as [L1 _]. pose proof (ti_root _ _ _ _ _ I0). lia. }
    exists y. split; [done|]. split; [done|]. split; [done|]. simpl. rewrite Hc4. by apply (kx_ext _ _ X5).
  Qed.

  (** What the nodes denote when the call is over. *)
  Lemma C61_raw r f fuel b q st : pr_fn pr f = Some (ELR inv (m_label m0) (m_fn m0)) -> fn r = f ->
    run_entry pr u0 fuel (EVar r f) s = Ok ((b, q), st) ->
    exists l i j F y, denotes (cx_pub (st_ctx st)) (TNode l i j true F) /\ cycle_tree g s 0 (m0 :: rest) y /\ outcome b q = t_end <$> y /\ (b = false -> q = 0) /\
      prune_forest F = prune_forest (match y with Some t => [TNode r 0 q true [t]] | None => [] end).
  Proof using HC Hcc Hnh Hs Hwf.
    intros Hf Hr Ev. destruct (C61_state r f fuel b q st Hf Hr Ev) as (n & Hn & Hres & Hlen & y & Hy & He & Hq & HK).
    assert (Hhk : hooks_behave (N.of_nat (length s)) (memo_claim pr s fn) (eq PKeyOverflow) pr (source_new s)) by (by apply no_hooks_behave).
    assert (HS : session pr (expr_wf pr fn) s u0 st).
    { eapply session_call; [apply session_fresh| | |exact Ev]; [done|lia]. }
    destruct (C16_finite_trees pr fn s u0 Hs Hwf (eq PKeyOverflow) eq_refl Hhk st 0 HS Hlen) as [t' Ht'].
    inversion Ht' as [k m F HnO Hm HFo]; subst. rewrite Hn in Hm. injection Hm as <-. rewrite Hres in Ht'.
    destruct (kx_prune nothing (cx_pub (st_ctx st))) as [_ KP]. pose proof (KP _ _ HK _ HFo) as HP.
    eexists _, _, _, F, y. done.
  Qed.
  (** The tree [parse] returns through a rule that only names the first rule of
      the cycle (the examples' <Grammar>): below the root there is the node of
      that rule, below it the tree that the rounds build, and nothing else; only
      the applications of rules to the empty string are left out. *)
  Theorem C61_entry_tree r f fuel b0 q p' l i j b G : pr_fn pr f = Some (ELR inv (m_label m0) (m_fn m0)) -> fn r = f ->
    parse_with pr u0 fuel (EVar r f) s = Ok (b0, q, p') -> denotes p' (TNode l i j b G) ->
    if b0 then exists t, cycle_tree g s 0 (m0 :: rest) (Some t) /\ t_end t = q /\ G = prune_forest [TNode r 0 q true [t]]
    else cycle_tree g s 0 (m0 :: rest) None /\ q = 0 /\ G = [].
  Proof using HC Hcc Hnh Hs Hwf.
    intros Hf Hr Hp Hd. unfold parse_with in Hp.
    destruct (run_entry pr u0 fuel (EVar r f) s) as [[[b1 q1] st]| |] eqn:Ev; cbn [rbind] in Hp; [|done|done].
    destruct (clear_false fuel (pr_grammar pr) (cx_pub (st_ctx st))) as [t| |] eqn:Ec; cbn [rbind] in Hp; [|done|done].
    injection Hp as -> -> ->.
    destruct (C61_raw r f fuel b0 q st Hf Hr Ev) as (l0 & i0 & j0 & F & y & Ht' & Hy & He & Hq & HP).
    pose proof (C17_any_answer _ _ _ _ _ _ _ _ Ht' Ec) as Hd'.
    destruct (unfolds_det nothing nothing p') as [Hdet _]. pose proof (Hdet _ _ Hd _ Hd') as E. injection E as -> -> -> -> ->.
    destruct b0, y as [t|]; cbn in He; try discriminate He.
    - injection He as He. exists t. split; [done|]. split; [done|]. by rewrite HP.
    - split; [done|]. split; [by apply Hq|]. by rewrite HP.
  Qed.

  (** The same when the first rule of the cycle is called directly, as the tests
      of the examples do. *)
  Lemma C61_call_state fuel b q st' : run_entry pr u0 fuel (ELR inv (m_label m0) (m_fn m0)) s = Ok ((b, q), st') ->
    exists n, p_nodes (cx_pub (st_ctx st')) !! 0 = Some n /\ n_result n = true /\ 0 < p_len (cx_pub (st_ctx st')) /\
      exists y, cycle_tree g s 0 (m0 :: rest) y /\ outcome b q = t_end <$> y /\ (b = false -> q = 0) /\ kxs (cx_pub (st_ctx st')) (n_children n) (first_child y).
  Proof using HC Hcc Hs Hwf.
    intros Hev. pose proof (lc_linked _ _ _ _ _ _ HC) as [(_ & _ & (body & Hb & Halts) & _) _]. revert Hev. unfold run_entry. set (st0 := PState _ u0). intros Hev.
    pose proof (TInv_init prr s fn all Hs (pr_grammar pr) u0 : TInv prr s fn all st0) as I0.
    assert (Hroot : p_nodes (pub st0) !! 0 = Some (Node 0 (pr_grammar pr) 0 0 true [])) by reflexivity.
    assert (H : wp (fun _ => True) (eval pr src fuel (ELR inv (m_label m0) (m_fn m0)) 0 0) st0 (fun r st' => exists y, cycle_tree g s 0 (m0 :: rest) y /\
      outcome (fst r) (snd r) = end_of y /\ (fst r = false -> snd r = 0) /\ GPost pr fn plain s m0 0 st0 0 [] r y st')).
    { apply (call_cycle_T pr fn plain Nr inv s Hs m0 rest HC 0 Hwf Hcc body Hb fuel 0 [] st0).
      - split; [done|]. intros r i b' q' k'. simpl. by rewrite lookup_empty.
      - done.
      - intros r _. simpl. by rewrite lookup_empty.
      - split; [|by eexists]. eexists. split; [exact Hroot|]. split; [done|]. by intros _ c m ?%elem_of_nil. }
    destruct (wp_Ok _ _ _ _ _ _ H Hev) as (y & Hy & He & Hq & I' & [F' _] & lk & [_ (n & Hn & Hk)] & Hnod). cbn [fst snd app] in *.
    destruct F' as ([L' X'] & _). destruct (X' _ _ Hroot) as (n' & l' & Hn' & _ & _ & E' & _). rewrite Hn in Hn'. injection Hn' as <-.
    exists n. split; [done|]. split; [by rewrite E'|]. split; [pose proof (ti_root _ _ _ _ _ I0); lia|]. exists y. split; [done|]. split; [done|]. split; [done|].
    rewrite Hk. by eapply noded_kxs.
  Qed.
  Theorem C61_call_tree fuel b0 q p' l i j b G :
    parse_with pr u0 fuel (ELR inv (m_label m0) (m_fn m0)) s = Ok (b0, q, p') -> denotes p' (TNode l i j b G) ->
    if b0 then exists t, cycle_tree g s 0 (m0 :: rest) (Some t) /\ t_end t = q /\ G = prune_forest [t]
    else cycle_tree g s 0 (m0 :: rest) None /\ q = 0 /\ G = [].
  Proof using HC Hcc Hnh Hs Hwf.
    intros Hp Hd. unfold parse_with in Hp. set (entry := ELR inv (m_label m0) (m_fn m0)) in *.
    destruct (run_entry pr u0 fuel entry s) as [[[b1 q1] st]| |] eqn:Ev; cbn [rbind] in Hp; [|done|done].
    destruct (clear_false fuel (pr_grammar pr) (cx_pub (st_ctx st))) as [t| |] eqn:Ec; cbn [rbind] in Hp; [|done|done].
    injection Hp as -> -> ->.
    destruct (C61_call_state fuel b0 q st Ev) as (n & Hn & Hres & Hlen & y & Hy & He & Hq & HK).
    assert (Hhk : hooks_behave (N.of_nat (length s)) (memo_claim pr s fn) (eq PKeyOverflow) pr (source_new s)) by (by apply no_hooks_behave).
    assert (Hwe : expr_wf pr fn entry).
    { pose proof (lc_linked _ _ _ _ _ _ HC) as [(H1 & _ & (body & Hb & _) & _) _]. split; [done|]. by eexists. }
    assert (HS : session pr (expr_wf pr fn) s u0 st).
    { eapply session_call; [apply session_fresh|exact Hwe| |exact Ev]. lia. }
    destruct (C16_finite_trees pr fn s u0 Hs Hwf (eq PKeyOverflow) eq_refl Hhk st 0 HS Hlen) as [t' Ht'].
    inversion Ht' as [k m F HnO Hm HFo]; subst. rewrite Hn in Hm. injection Hm as <-. rewrite Hres in Ht'.
    destruct (kx_prune nothing (cx_pub (st_ctx st))) as [_ KP]. pose proof (KP _ _ HK _ HFo) as HP.
    pose proof (C17_any_answer _ _ _ _ _ _ _ _ Ht' Ec) as Hd'.
    destruct (unfolds_det nothing nothing p') as [Hdet _]. pose proof (Hdet _ _ Hd _ Hd') as E. injection E as -> -> -> -> ->.
    destruct b0, y as [t|]; cbn in He; try discriminate He.
    - injection He as He. exists t. split; [done|]. split; [done|]. by rewrite HP.
    - split; [done|]. split; [by apply Hq|]. by rewrite HP.
  Qed.
End entry.

(** ** The rounds and their trees *)
Section trees.
  Context (g : pgrammar) (s : list N) (p : N).
  Lemma tail_peg t q j D : tail_builds g s t q j D -> tail_means g s t q (Some j).
  Proof. destruct t as [t|]; simpl; [apply deriv_peg|]. by intros [-> _]. Qed.
  Lemma builds_picks x l o : builds g s p x l o -> picks g s p (t_end <$> x) l (fst <$> o).
  Proof.
    induction 1 as [|n t l j D -> Ht|t l o Ht _ IH|e l j D He|e l o He _ IH]; simpl.
    - constructor.
    - eapply picks_follow; [done|]. by eapply tail_peg.
    - apply picks_follow_next; [|done]. by destruct x.
    - apply picks_seed. by eapply deriv_peg.
    - by apply picks_seed_next.
  Qed.
  Lemma node_of_end r x o : t_end <$> node_of p r x o = fst <$> o.
  Proof. by destruct o as [[j D]|]. Qed.
  Lemma through_tree_means ms x y : through_tree g s p ms x y -> through g s p (map m_alts ms) (t_end <$> x) (t_end <$> y).
  Proof.
    revert y. induction ms as [|m ms IH]; simpl; intros y; [by intros ->|]. intros (z & o & H1 & H2 & ->). exists (t_end <$> z). split; [by apply IH|].
    rewrite node_of_end. by apply builds_picks.
  Qed.
  Lemma rounds_tree_means ms x z : rounds_tree g s p ms x z -> rounds g s p (map m_alts ms) (t_end x) (t_end z).
  Proof.
    induction 1 as [x y Hy Hle|x y z Hy Hlt _ IH].
    - eapply rounds_stop; [by apply (through_tree_means _ _ _ Hy)|]. by destruct y.
    - eapply rounds_more; [by apply (through_tree_means _ _ _ Hy)|done|done].
  Qed.
  (** The tree matches what C57 says. *)
  Theorem C61_matches ms y : cycle_tree g s p ms y -> cycle_means g s p (map m_alts ms) (t_end <$> y).
  Proof.
    intros (m & rest & o & -> & H1 & H2). exists (m_alts m), (map m_alts rest), (fst <$> o). split; [done|]. split; [by apply (builds_picks None)|].
    destruct o as [[j D]|]; simpl in *; [|by subst y]. destruct (j <=? p); [by subst y|]. destruct H2 as (z & Hz & ->). exists (t_end z). split; [|done].
    by apply rounds_tree_means in Hz.
  Qed.

  (** There is only one such tree. *)
  Lemma tail_builds_det t q j D j' D' : tail_builds g s t q j D -> tail_builds g s t q j' D' -> j = j' /\ D = D'.
  Proof. destruct t as [t|]; simpl; [intros H1 H2; by destruct (deriv_det _ _ _ _ _ _ H1 _ _ H2)|]. by intros [-> ->] [-> ->]. Qed.
  Lemma builds_det x l o o' : builds g s p x l o -> builds g s p x l o' -> o = o'.
  Proof.
    intros H. revert o'. induction H as [|n t l j D Hx Ht|t l o Ht _ IH|e l j D He|e l o He _ IH]; intros o'; inversion 1; subst; try done; try (by auto).
    - match goal with H : Some _ = Some _ |- _ => injection H as -> end. match goal with H : tail_builds _ _ _ _ _ _ |- _ => by destruct (tail_builds_det _ _ _ _ _ _ Ht H) as [-> ->] end.
    - apply tail_peg in Ht. match goal with H : tail_means _ _ _ _ None |- _ => pose proof (tail_det _ _ _ _ _ _ Ht H) end. done.
    - match goal with H : tail_builds _ _ _ _ _ _ |- _ => apply tail_peg in H; pose proof (tail_det _ _ _ _ _ _ Ht H) end. done.
    - match goal with H : deriv _ _ _ _ _ _ |- _ => by destruct (deriv_det _ _ _ _ _ _ He _ _ H) as [-> ->] end.
    - apply deriv_peg in He. match goal with H : peg _ _ _ _ None |- _ => pose proof (peg_det _ _ _ _ _ _ He H) end. done.
    - match goal with H : deriv _ _ _ _ _ _ |- _ => apply deriv_peg in H; pose proof (peg_det _ _ _ _ _ _ He H) end. done.
  Qed.
  Lemma through_tree_det ms x y y' : through_tree g s p ms x y -> through_tree g s p ms x y' -> y = y'.
  Proof.
    revert y y'. induction ms as [|m ms IH]; simpl; [congruence|]. intros y y' (z & o & H1 & H2 & ->) (z' & o' & H3 & H4 & ->). rewrite (IH _ _ H3 H1) in H4 |- *.
    by rewrite (builds_det _ _ _ _ H2 H4).
  Qed.
  Lemma rounds_tree_det ms x z z' : rounds_tree g s p ms x z -> rounds_tree g s p ms x z' -> z = z'.
  Proof.
    intros H. revert z'. induction H as [x y Hy Hle|x y z Hy Hlt _ IH]; intros z'; inversion 1 as [x2 y2 Hy2 Hle2|x2 y2 z2 Hy2 Hlt2 Hr2]; subst.
    - done.
    - rewrite (through_tree_det _ _ _ _ Hy Hy2) in Hle. lia.
    - rewrite (through_tree_det _ _ _ _ Hy2 Hy) in Hle2. lia.
    - apply IH. pose proof (through_tree_det _ _ _ _ Hy Hy2) as [= ->]. done.
  Qed.
  Theorem C61_unique ms y y' : cycle_tree g s p ms y -> cycle_tree g s p ms y' -> y = y'.
  Proof.
    intros (m & l & o & -> & H1 & H2) (m' & l' & o' & [= <- <-] & H3 & H4). rewrite (builds_det _ _ _ _ H3 H1) in H4. clear H1 H3.
    destruct (node_of p (m_label m) None o) as [t|]; [|congruence]. destruct (t_end t <=? p); [congruence|].
    destruct H2 as (z & H2 & ->), H4 as (z' & H4 & ->). by rewrite (rounds_tree_det _ _ _ _ H2 H4).
  Qed.

  (** An alternative is taken: a tail, or the same seed as in any other round. *)
  Lemma builds_some x l j D : builds g s p x l (Some (j, D)) ->
    (exists n t, x = Some n /\ Follow t ∈ l /\ tail_builds g s t (t_end n) j D) \/ (exists e, Seed e ∈ l /\ deriv g s (pexp_of e) p j D /\ builds g s p None l (Some (j, D))).
  Proof.
    remember (Some (j, D)) as o eqn:Eo. induction 1 as [|n t l j' D' Hx Ht|t l o Ht _ IH|e l j' D' He|e l o He _ IH]; try discriminate Eo.
    - injection Eo as -> ->. left. exists n, t. split; [done|]. split; [by left|done].
    - destruct (IH Eo) as [(n & t' & H1 & H2 & H3)|(e & H1 & H2 & H3)]; [left|right].
      + exists n, t'. split; [done|]. split; [by right|done].
      + exists e. split; [by right|]. split; [done|]. by apply builds_follow_next.
    - injection Eo as -> ->. right. exists e. split; [by left|]. split; [done|]. by apply builds_seed.
    - destruct (IH Eo) as [(n & t' & H1 & H2 & H3)|(e' & H1 & H2 & H3)]; [left|right].
      + exists n, t'. split; [done|]. split; [by right|done].
      + exists e'. split; [by right|]. split; [done|]. by apply builds_seed_next.
  Qed.
  Lemma through_wrapped ms x z : (forall m e, m ∈ ms -> Seed e ∈ m_alts m -> peg g s (pexp_of e) p None) ->
    through_tree g s p ms (Some x) (Some z) -> wrapped g s p ms x z.
  Proof.
    revert z. induction ms as [|m ms IH]; simpl; intros z Hf; [congruence|]. intros (y & o & H1 & H2 & H3). destruct o as [[j D]|]; [|done]. injection H3 as ->.
    destruct (builds_some _ _ _ _ H2) as [(n & t & -> & H4 & H5)|(e & H4 & H5 & _)].
    - exists n, t, j, D. split; [apply IH; [|done]|done]. intros m' e Hm'. apply Hf. by right.
    - apply deriv_peg in H5. pose proof (peg_det _ _ _ _ _ _ H5 (Hf m e ltac:(by left) H4)). done.
  Qed.
  (** When the other rules' own seeds do not match, the tree is left-nested;
      so it always is for a rule that calls itself. *)
  Theorem C61_left_nested m0 rest t : (forall m e, m ∈ rest -> Seed e ∈ m_alts m -> peg g s (pexp_of e) p None) ->
    cycle_tree g s p (m0 :: rest) (Some t) -> left_nested g s p m0 rest t.
  Proof.
    intros Hf (m & l & o & [= <- <-] & H1 & H2). destruct o as [[j0 D0]|]; [|done]. simpl in H2. destruct (N.leb_spec j0 p) as [|Hlt]; [done|].
    destruct H2 as (z & H2 & [= <-]). destruct (builds_some _ _ _ _ H1) as [(n & t' & ? & _)|(e & He1 & He2 & _)]; [done|].
    assert (Hn : left_nested g s p m0 rest (TNode (m_label m0) p j0 true D0)) by (by eapply nested_seed).
    assert (Hle : j0 <= t_end (TNode (m_label m0) p j0 true D0)) by (simpl; lia). simpl in H2.
    revert Hn Hle. induction H2 as [x y Hy _|x y z Hy Hxy _ IH]; intros Hn Hle; [done|].
    destruct Hy as (u & o & Hu & Ho & Ey). destruct o as [[j D]|]; [|done]. injection Ey as ->. simpl in Hxy.
    destruct (builds_some _ _ _ _ Ho) as [(n & t' & -> & H4 & H5)|(e' & H4 & H5 & H6)].
    - apply IH; [|simpl; lia]. eapply nested_more; [exact Hn| |exact Hxy]. exists n, t', j, D. split; [by apply through_wrapped|done].
    - pose proof (builds_det _ _ _ _ H1 H6) as [= <- <-]. lia.
  Qed.
  Corollary C61_direct m t : cycle_tree g s p [m] (Some t) -> left_nested g s p m [] t.
  Proof. apply C61_left_nested. by intros m' e ?%elem_of_nil. Qed.
End trees.
