(** Packrat completeness and the node bound: whenever the memo-free semantics
    has an answer, the parser terminates with it and without panic, and each
    rule body runs at most once per position. *)
From Verif Require Export ProofSound ProofFuel.

(** Set of all (rule, position) pairs. *)
Definition all_keys (R : gset N) (len : N) : gset (N * N) :=
  list_to_set ('(r, i) ← list_prod (elements R) (N.of_nat <$> seq 0 (S (N.to_nat len))); [(r, i)]).

Lemma elem_of_all_keys R len r i : (r, i) ∈ all_keys R len <-> r ∈ R /\ i <= len.
Proof.
  unfold all_keys. rewrite elem_of_list_to_set, elem_of_list_bind. split.
  - intros ([r' i'] & H & Hp). apply elem_of_list_singleton in H. simplify_eq.
    apply elem_of_list_In, in_prod_iff in Hp as [H1 H2].
    apply elem_of_list_In, elem_of_elements in H1. apply elem_of_list_In, elem_of_list_fmap in H2 as (x & -> & Hx).
    apply elem_of_seq in Hx. split; [done|lia].
  - intros [Hr Hi]. exists (r, i). split; [by apply elem_of_list_singleton|].
    apply elem_of_list_In, in_prod_iff. rewrite <-!elem_of_list_In. split; [by apply elem_of_elements|].
    apply elem_of_list_fmap. exists (N.to_nat i). split; [lia|]. apply elem_of_seq. lia.
Qed.

Lemma size_all_keys R len : N.of_nat (size (all_keys R len)) <= N.of_nat (size R) * (len + 1).
Proof.
  unfold all_keys.
  assert (H : forall l : list (N * N), (size (list_to_set l : gset (N * N)) <= length l)%nat).
  { induction l as [|x l IH].
    { change (size (∅ : gset (N * N)) <= 0)%nat. by rewrite size_empty. }
    change (size ({[x]} ∪ list_to_set l : gset (N * N)) <= S (length l))%nat.
    rewrite size_union_alt.
    rewrite size_singleton.
    assert (size (list_to_set l ∖ {[x]} : gset (N*N)) <= size (list_to_set l : gset (N*N)))%nat; [|lia].
    apply subseteq_size. set_solver. }
  pose proof (H ('(r, i) ← list_prod (elements R) (N.of_nat <$> seq 0 (S (N.to_nat len))); [(r, i)])) as Hle.
  revert Hle.
  assert (Hb : forall l : list (N * N), length ('(r, i) ← l; [(r, i)]) = length l).
  { induction l as [|[??] l IH]; simpl; [done|]. by f_equal. }
  rewrite Hb, prod_length, fmap_length, seq_length.
  change (length (elements R)) with (size R). intros Hle.
  set (a := size (list_to_set _)) in *. clearbody a. nia.
Qed.

Lemma least_nat (P : nat -> bool) n : P n = true ->
  exists k, (k <= n)%nat /\ P k = true /\ forall j, (j < k)%nat -> P j = false.
Proof.
  induction n as [n IH] using lt_wf_ind. intros Hn.
  destruct (decide (Exists (fun j => P j = true) (seq 0 n))) as [He|He].
  - apply Exists_exists in He as (j & Hj%elem_of_list_In & HPj). apply elem_of_seq in Hj.
    destruct (IH j) as (k & Hk & HPk & Hmin); [lia|done|]. exists k. split; [lia|done].
  - exists n. split; [done|]. split; [done|]. intros j Hj. destruct (P j) eqn:E; [|done].
    destruct He. apply Exists_exists. exists j. split; [apply elem_of_list_In, elem_of_seq; lia|done].
Qed.

Section complete.
  Context {U : Type} (pr : program U) (s : list N) (fn : N -> N).
  Context (Hs : N.of_nat (length s) < u32_modulus).
  Context (Hpr : program_ok pr fn).
  Context (R : gset N) (HR : labels_in pr R).
  Let len := N.of_nat (length s).
  Context (Hbound : 1 + N.of_nat (size R) * (len + 1) <= u32_modulus).
  Let g := grammar_of pr.
  Let src := source_new s.
  Notation Inv := (Inv pr s fn).
  Notation Post := (Post pr s fn).

  Notation memo st := (c_memo (cx_cache (st_ctx st))).

  (** Counting: nodes = root + memo entries + calls in progress. *)
  Record CInv (S : list (N * N)) (st : pstate U) : Prop := mkCInv {
    ci_nodup : NoDup S;
    ci_disj : forall key, key ∈ S -> memo st !! key = None;
    ci_len : p_len (pub st) = 1 + N.of_nat (size (memo st)) + N.of_nat (length S);
    ci_memo : forall r i, is_Some (memo st !! (r, i)) -> r ∈ R /\ i <= len;
    ci_stack : forall r i, (r, i) ∈ S -> r ∈ R /\ i <= len;
  }.

  Lemma CInv_bound S st : CInv S st -> p_len (pub st) <= 1 + N.of_nat (size R) * (len + 1).
  Proof.
    intros [Hnd Hd Hl Hm Hst]. rewrite Hl.
    assert (Hsub : dom (memo st) ∪ list_to_set S ⊆ all_keys R len).
    { intros [r i] Hri. apply elem_of_all_keys. apply elem_of_union in Hri as [H|H].
      - apply Hm. by apply elem_of_dom in H.
      - apply Hst. by apply elem_of_list_to_set in H. }
    apply subseteq_size in Hsub. rewrite size_union in Hsub.
    - rewrite size_list_to_set in Hsub by done. rewrite size_dom in Hsub.
      pose proof (size_all_keys R len). lia.
    - intros key Hk1 Hk2. apply elem_of_dom in Hk1. apply elem_of_list_to_set in Hk2.
      rewrite Hd in Hk1 by done. destruct Hk1. done.
  Qed.

  Lemma CInv_fresh S st r i : CInv S st -> memo st !! (r, i) = None -> (r, i) ∉ S -> r ∈ R -> i <= len ->
    p_len (pub st) < u32_modulus.
  Proof.
    intros [Hnd Hd Hl Hm Hst] Hn HnS Hr Hi. rewrite Hl.
    assert (Hsub : dom (memo st) ∪ list_to_set ((r, i) :: S) ⊆ all_keys R len).
    { intros [r' i'] Hri. apply elem_of_all_keys. apply elem_of_union in Hri as [H|H].
      - apply Hm. by apply elem_of_dom in H.
      - apply elem_of_list_to_set, elem_of_cons in H as [H|H]; [by simplify_eq|by apply Hst]. }
    apply subseteq_size in Hsub. rewrite size_union in Hsub.
    - rewrite size_list_to_set in Hsub by (by constructor). rewrite size_dom in Hsub.
      cbn [length] in Hsub. pose proof (size_all_keys R len). lia.
    - intros key Hk1 Hk2. apply elem_of_dom in Hk1. apply elem_of_list_to_set, elem_of_cons in Hk2 as [->|Hk2].
      + rewrite Hn in Hk1. destruct Hk1. done.
      + rewrite Hd in Hk1 by done. destruct Hk1. done.
  Qed.

  Lemma default_exec O st parent pos r body fe b q st2 :
    Inv O st -> O parent -> p_len (pub st) < u32_modulus ->
    let k := p_len (pub st) in
    let st1 := PState (with_pub (st_ctx st)
                 (Publisher (<[k := Node k r 0 0 false []]> (p_nodes (pub st))) (k + 1))) (st_user st) in
    fe k pos st1 = Ok ((b, q), st2) ->
    Post body (fun x => O x \/ x = k) k pos st1 (b, q) st2 ->
    exists st', default_behaviour fe r parent pos st = Ok ((b, q), st') /\
      memo st' = <[(r, pos) := (b, q, k)]> (memo st2) /\ p_len (pub st') = p_len (pub st2).
  Proof.
    intros HI HO Hlt k st1 Hfe (F & ks & Ht & Hfl & HI2 & Hg2 & Hu2 & Hr2).
    assert (Hk2 : p_nodes (pub st2) !! k = Some (Node k r 0 0 false ks)).
    { apply (gr_parent _ _ _ _ Hg2 (Node k r 0 0 false [])). simpl. by rewrite lookup_insert. }
    assert (Hparent : parent < p_len (pub st)) by (by apply (inv_open _ _ _ _ _ HI)).
    unfold default_behaviour, mbind'.
    unfold with_ctx at 1. unfold reserve_publisher_entry, add_node. fold k.
    assert (Hlt' : (k <? u32_modulus) = true) by (by apply N.ltb_lt).
    rewrite Hlt'. simpl. fold st1. rewrite Hfe. simpl.
    erewrite upd_ctx_eq by (apply update_entry_eq; simpl; exact Hk2). simpl.
    assert (Hp2 : parent < p_len (pub st2)).
    { apply gr_len in Hg2. simpl in Hg2. unfold k in *. lia. }
    assert (Hpk : parent <> k) by (unfold k; lia).
    apply (inv_wf _ _ _ _ _ HI2) in Hp2 as [n Hn].
    erewrite upd_ctx_eq; swap 1 2.
    { unfold ctx_connect, connect. rewrite (proj2 (N.eqb_neq _ _) Hpk). unfold get_node. simpl.
      rewrite lookup_insert_ne by done. rewrite Hn. simpl. reflexivity. }
    simpl. eexists. split; [reflexivity|]. done.
  Qed.

  Lemma run_outcome n e i o F : run g s n e i = Some (o, F) -> i <= len ->
    match o with Some j => i <= j <= len | None => True end.
  Proof.
    intros H%run_trace%trace_peg Hi. destruct o as [j|]; [|done].
    apply peg_bounds in H. unfold len in *. lia.
  Qed.

  Definition stack_ok (n : nat) (S : list (N * N)) : Prop :=
    forall r j, (r, j) ∈ S -> run g s n (PRef (Some r) (fn r)) j = None.
  Lemma stack_ok_le n m S : stack_ok n S -> (m <= n)%nat -> stack_ok m S.
  Proof.
    intros H Hm r j Hr. destruct (run g s m _ j) as [x|] eqn:E; [|done].
    apply (run_mono _ _ _ n) in E; [|done]. rewrite H in E; done.
  Qed.

  Definition completes (n : nat) (e : expr) : Prop :=
    forall i o F, run g s n (pexp_of e) i = Some (o, F) ->
    expr_ok pr fn e -> (forall r, r ∈ labels e -> r ∈ R) -> i <= len ->
    forall O st parent S, Inv O st -> O parent -> CInv S st -> stack_ok n S ->
    exists m r st', eval pr src m e parent i st = Ok (r, st') /\ CInv S st' /\
      Post (pexp_of e) O parent i st r st' /\ outcome (fst r) (snd r) = o.

  (** Soundness + determinism turn an [Ok] run into the expected outcome. *)
  Lemma finish n e i o F O st parent S m r st' :
    run g s n (pexp_of e) i = Some (o, F) -> expr_ok pr fn e -> Inv O st -> O parent ->
    eval pr src m e parent i st = Ok (r, st') -> CInv S st' ->
    exists m r st', eval pr src m e parent i st = Ok (r, st') /\ CInv S st' /\
      Post (pexp_of e) O parent i st r st' /\ outcome (fst r) (snd r) = o.
  Proof.
    intros Hrun He HI HO Hev HC. exists m, r, st'. split; [done|]. split; [done|].
    pose proof (wp_Ok _ _ _ _ _ _ (eval_sound pr s fn Hs Hpr m e He O st parent i HI HO) Hev) as HP.
    split; [done|]. destruct HP as (F' & ks & Ht & _). apply run_trace in Hrun.
    by destruct (trace_det _ _ _ _ _ _ _ _ Hrun Ht) as [-> _].
  Qed.

  (** Every plain program is monotone irrespective of its hooks; to use
      [eval_mono] hooks must be monotone. *)
  Context (Hh : hooks_mono pr).

  Lemma eval_up m m' e k p st r : eval pr src m e k p st = Ok r -> (m <= m')%nat ->
    eval pr src m' e k p st = Ok r.
  Proof. intros. by eapply eval_mono_Ok. Qed.

  Lemma loop_up f g' m m' (k p : N) (st : pstate U) r : p_le f g' -> (m <= m')%nat ->
    repeat_loop m f k p st = Ok r -> repeat_loop m' g' k p st = Ok r.
  Proof. intros Hp Hm H. eapply res_le_Ok; [by apply loop_mono|done]. Qed.

  Lemma star_step m (e : expr) k p st b q st1 :
    eval pr src (S m) e k p st = Ok ((b, q), st1) ->
    eval pr src (S (S m)) (EStar e) k p st =
      if b then repeat_loop m (eval pr src (S m) e) k q st1 else Ok ((true, p), st1).
  Proof.
    intros H. change (eval pr src (S (S m)) (EStar e) k p st) with
      (mbind' (eval pr src (S m) e k p)
         (fun '(valid, position) => if negb valid then mret (true, p)
            else repeat_loop m (eval pr src (S m) e) k position) st).
    unfold mbind'. rewrite H. by destruct b.
  Qed.

  Lemma complete n e : completes n e.
  Proof.
    revert e. induction n as [n IHn] using lt_wf_ind. destruct n as [|n]; [intros e i o F H; discriminate|].
    assert (IH : forall e, completes n e) by (intros; apply IHn; lia).
    induction e as [c|d|a b|e1 _ e2 _|e1 _ e2 _|e _|e _|e _|e _|e _|e IHe|r f|f|iv r f|h e _];
      intros i o F Hrun He HL Hi O st parent S HI HO HC HS; pose proof Hrun as Hrun0; simpl in Hrun0;
      assert (HSn : stack_ok n S) by (eapply stack_ok_le; [exact HS|lia]).
    - (* terminal *)
      pose proof (terminal_eq s Hs c parent i st) as E.
      change (terminal_kernel _ c parent i st) with (eval pr src 1 (ETerminal c) parent i st) in E.
      eapply finish; eauto.
    - (* string *)
      assert (E : eval pr src 1 (EString d) parent i st =
        Ok (if decide (occurs_at s i d) then (true, i + N.of_nat (length d)) else (false, i), st)).
      { simpl. unfold string_terminal_kernel. by apply string_loop_eq. }
      eapply finish; eauto.
    - (* range *)
      pose proof (range_eq s Hs a b parent i st) as E.
      change (ordered_choice_match_range_kernel _ a b parent i st) with (eval pr src 1 (ERange a b) parent i st) in E.
      eapply finish; eauto.
    - (* sequence *)
      simpl in He, HL. destruct He as [He1 He2].
      destruct (run g s n (pexp_of e1) i) as [[o1 F1]|] eqn:E1; [|discriminate].
      destruct (IH e1 i o1 F1 E1 He1 ltac:(set_solver) Hi O st parent S HI HO HC HSn)
        as (m1 & [b1 q1] & st1 & Hev1 & HC1 & HP1 & Ho1).
      destruct b1; simpl in Ho1; subst o1.
      + destruct (run g s n (pexp_of e2) q1) as [[o2 F2]|] eqn:E2; [|discriminate].
        pose proof (run_outcome _ _ _ _ _ E1 Hi) as Hb1; simpl in Hb1.
        destruct (IH e2 q1 o2 F2 E2 He2 ltac:(set_solver) ltac:(lia) O st1 parent S)
          as (m2 & [b2 q2] & st2 & Hev2 & HC2 & HP2 & Ho2); [by eapply Post_Inv|done|done|done|].
        assert (Hev : eval pr src (Datatypes.S (m1 `max` m2)) (ESeq e1 e2) parent i st =
                      Ok ((if b2 then (true, q2) else (false, i)), st2)).
        { simpl. unfold sequence_kernel, mbind'. rewrite (eval_up _ _ _ _ _ _ _ Hev1) by lia. simpl.
          rewrite (eval_up _ _ _ _ _ _ _ Hev2) by lia. simpl. by destruct b2. }
        eapply finish; eauto. by split.
      + assert (Hev : eval pr src (Datatypes.S m1) (ESeq e1 e2) parent i st = Ok ((false, i), st1)).
        { simpl. unfold sequence_kernel, mbind'. fold src. by rewrite Hev1. }
        eapply finish; eauto. by split.
    - (* choice *)
      simpl in He, HL. destruct He as [He1 He2].
      destruct (run g s n (pexp_of e1) i) as [[o1 F1]|] eqn:E1; [|discriminate].
      destruct (IH e1 i o1 F1 E1 He1 ltac:(set_solver) Hi O st parent S HI HO HC HSn)
        as (m1 & [b1 q1] & st1 & Hev1 & HC1 & HP1 & Ho1).
      destruct b1; simpl in Ho1; subst o1.
      + assert (Hev : eval pr src (Datatypes.S m1) (EChoice e1 e2) parent i st = Ok ((true, q1), st1)).
        { simpl. unfold ordered_choice_kernel, mbind'. fold src. by rewrite Hev1. }
        eapply finish; eauto. by split.
      + destruct (run g s n (pexp_of e2) i) as [[o2 F2]|] eqn:E2; [|discriminate].
        destruct (IH e2 i o2 F2 E2 He2 ltac:(set_solver) ltac:(lia) O st1 parent S)
          as (m2 & [b2 q2] & st2 & Hev2 & HC2 & HP2 & Ho2); [by eapply Post_Inv|done|done|done|].
        assert (Hev : eval pr src (Datatypes.S (m1 `max` m2)) (EChoice e1 e2) parent i st =
                      Ok ((if b2 then (true, q2) else (false, i)), st2)).
        { simpl. unfold ordered_choice_kernel, mbind'. rewrite (eval_up _ _ _ _ _ _ _ Hev1) by lia. simpl.
          rewrite (eval_up _ _ _ _ _ _ _ Hev2) by lia. simpl. by destruct b2. }
        eapply finish; eauto. by split.
    - (* and *)
      destruct (run g s n (pexp_of e) i) as [[o1 F1]|] eqn:E1; [|discriminate].
      destruct (IH e i o1 F1 E1 He HL Hi O st parent S HI HO HC HSn)
        as (m1 & [b1 q1] & st1 & Hev1 & HC1 & HP1 & Ho1).
      assert (Hev : eval pr src (Datatypes.S m1) (EAnd e) parent i st = Ok ((b1, i), st1)).
      { simpl. unfold and_predicate_kernel, mbind'. fold src. rewrite Hev1. by destruct b1. }
      eapply finish; eauto.
    - (* not *)
      destruct (run g s n (pexp_of e) i) as [[o1 F1]|] eqn:E1; [|discriminate].
      destruct (IH e i o1 F1 E1 He HL Hi O st parent S HI HO HC HSn)
        as (m1 & [b1 q1] & st1 & Hev1 & HC1 & HP1 & Ho1).
      assert (Hev : eval pr src (Datatypes.S m1) (ENot e) parent i st = Ok ((negb b1, i), st1)).
      { simpl. unfold not_predicate_kernel, mbind'. fold src. rewrite Hev1. by destruct b1. }
      eapply finish; eauto.
    - (* plus *)
      destruct (run g s n (pexp_of e) i) as [[o1 F1]|] eqn:E1; [|discriminate].
      destruct (IH e i o1 F1 E1 He HL Hi O st parent S HI HO HC HSn)
        as (m1 & [b1 q1] & st1 & Hev1 & HC1 & HP1 & Ho1).
      destruct b1; simpl in Ho1; subst o1.
      + destruct (run g s n (PStar (pexp_of e)) q1) as [[o2 F2]|] eqn:E2; [|discriminate].
        pose proof (run_outcome _ _ _ _ _ E1 Hi) as Hb1; simpl in Hb1.
        destruct (IH (EStar e) q1 o2 F2 E2 He HL ltac:(lia) O st1 parent S)
          as (m2 & r2 & st2 & Hev2 & HC2 & HP2 & Ho2); [by eapply Post_Inv|done|done|done|].
        destruct m2 as [|m2]; [discriminate|]. simpl in Hev2. unfold zero_or_more_kernel in Hev2.
        assert (Hev : eval pr src (Datatypes.S (m1 `max` m2)) (EPlus e) parent i st = Ok (r2, st2)).
        { simpl. unfold one_or_more_kernel, mbind'. rewrite (eval_up _ _ _ _ _ _ _ Hev1) by lia. simpl.
          eapply loop_up; [| |exact Hev2]; [|lia]. apply eval_mono; [done|lia]. }
        eapply finish; eauto.
      + assert (Hev : eval pr src (Datatypes.S m1) (EPlus e) parent i st = Ok ((false, i), st1)).
        { simpl. unfold one_or_more_kernel, mbind'. fold src. by rewrite Hev1. }
        eapply finish; eauto.
    - (* star *)
      destruct (run g s n (pexp_of e) i) as [[o1 F1]|] eqn:E1; [|discriminate].
      destruct (IH e i o1 F1 E1 He HL Hi O st parent S HI HO HC HSn)
        as (m1 & [b1 q1] & st1 & Hev1 & HC1 & HP1 & Ho1).
      destruct b1; simpl in Ho1; subst o1.
      + destruct (run g s n (PStar (pexp_of e)) q1) as [[o2 F2]|] eqn:E2; [|discriminate].
        pose proof (run_outcome _ _ _ _ _ E1 Hi) as Hb1; simpl in Hb1.
        destruct (IH (EStar e) q1 o2 F2 E2 He HL ltac:(lia) O st1 parent S)
          as (m2 & r2 & st2 & Hev2 & HC2 & HP2 & Ho2); [by eapply Post_Inv|done|done|done|].
        destruct m2 as [|m2]; [discriminate|]. simpl in Hev2. unfold zero_or_more_kernel in Hev2.
        assert (Hev : eval pr src (Datatypes.S (Datatypes.S (m1 `max` m2))) (EStar e) parent i st = Ok (r2, st2)).
        { rewrite (star_step _ _ _ _ _ true q1 st1) by (eapply eval_up; [exact Hev1|lia]).
          eapply loop_up; [| |exact Hev2]; [|lia]. apply eval_mono; [done|lia]. }
        eapply finish; eauto.
      + assert (Hev : eval pr src (Datatypes.S (Datatypes.S m1)) (EStar e) parent i st = Ok ((true, i), st1)).
        { rewrite (star_step _ _ _ _ _ false q1 st1) by (eapply eval_up; [exact Hev1|lia]). done. }
        eapply finish; eauto.
    - (* optional *)
      destruct (run g s n (pexp_of e) i) as [[o1 F1]|] eqn:E1; [|discriminate].
      destruct (IH e i o1 F1 E1 He HL Hi O st parent S HI HO HC HSn)
        as (m1 & [b1 q1] & st1 & Hev1 & HC1 & HP1 & Ho1).
      assert (Hev : eval pr src (Datatypes.S m1) (EOpt e) parent i st = Ok ((if b1 then (true, q1) else (true, i)), st1)).
      { simpl. unfold optional_kernel, mbind'. fold src. rewrite Hev1. by destruct b1. }
      eapply finish; eauto.
    - (* subexpression *)
      destruct (IHe i o F Hrun He HL Hi O st parent S HI HO HC HS)
        as (m1 & [b1 q1] & st1 & Hev1 & HC1 & HP1 & Ho1).
      assert (Hev : eval pr src (Datatypes.S m1) (ESub e) parent i st = Ok ((if b1 then (true, q1) else (false, i)), st1)).
      { simpl. unfold subexpression_kernel, mbind'. fold src. rewrite Hev1. by destruct b1. }
      eapply finish; eauto.
    - (* rule call *)
      simpl in HL. pose proof He as He0. simpl in He0. destruct He0 as [Hfn [body Hbody]].
      destruct (check (st_ctx st) r i) as [[[b q] k]|] eqn:Hc.
      + destruct (inv_memo _ _ _ _ _ HI _ _ _ _ _ Hc) as (F' & Hu & Ht).
        destruct (connect_spec pr s fn Hs O st parent k _ HI HO Hu) as (st' & E & HI' & Hg & Hu' & Hr & Hm & Hl).
        assert (Hev : eval pr src 1 (EVar r f) parent i st = Ok ((b, q), st')).
        { simpl. unfold var_name_kernel, mbind'. unfold get_ctx at 1. simpl. rewrite Hc.
          unfold memoized_behaviour, mbind'. by rewrite E. }
        eapply finish; eauto. destruct HC as [C1 C2 C3 C4 C5]. split; rewrite ?Hm, ?Hl; done.
      + set (P := fun k => match run g s k (PRef (Some r) f) i with Some _ => true | None => false end).
        destruct (least_nat P (Datatypes.S n)) as (k0 & Hk0 & HPk0 & Hmin).
        { unfold P. simpl pexp_of in Hrun. by rewrite Hrun. }
        destruct k0 as [|k']; [done|].
        unfold P in HPk0. destruct (run g s (Datatypes.S k') (PRef (Some r) f) i) as [[o' F']|] eqn:Ek; [|done].
        assert (Hgf : g f = Some (pexp_of body)) by (unfold g, grammar_of; by rewrite Hbody).
        pose proof Ek as Ek'. simpl in Ek'. rewrite Hgf in Ek'.
        destruct (run g s k' (pexp_of body) i) as [[ob Fb]|] eqn:Eb; [|discriminate].
        assert (Hri : (r, i) ∉ S).
        { intros Hin. pose proof (HS _ _ Hin) as Hbad. rewrite Hfn in Hbad. simpl pexp_of in Hrun.
          unfold g in *. congruence. }
        assert (Hrr : r ∈ R) by (apply HL; set_solver).
        pose proof (CInv_fresh S st r i HC Hc Hri Hrr Hi) as Hlt.
        set (k := p_len (pub st)).
        set (st1 := PState (with_pub (st_ctx st)
                 (Publisher (<[k := Node k r 0 0 false []]> (p_nodes (pub st))) (k + 1))) (st_user st)).
        pose (O1 := fun x => O x \/ x = k).
        assert (HI1 : Inv O1 st1).
        { assert (Hfresh : forall x n, p_nodes (pub st) !! x = Some n -> x <> k).
          { intros x n' Hx ->. assert (k < p_len (pub st)); [apply (inv_wf _ _ _ _ _ HI); eauto|]. unfold k in *; lia. }
          split; simpl.
          - apply pub_wf_add, HI.
          - intros x [Hx| ->]; [apply (inv_open _ _ _ _ _ HI) in Hx|]; unfold k in *; simpl in *; lia.
          - intros r' i' b q k2 Hc'. destruct (inv_memo _ _ _ _ _ HI r' i' b q k2 Hc') as (F2 & Hu & Ht).
            exists F2. split; [|done]. revert Hu. apply unfolds_frame. simpl. intros x n' Hx Hox.
            pose proof (Hfresh _ _ Hx). split; [intros [?| ?]; done|].
            by rewrite lookup_insert_ne. }
        assert (HC1 : CInv ((r, i) :: S) st1).
        { destruct HC as [C1 C2 C3 C4 C5]. split; simpl.
          - by constructor.
          - intros key [->|Hk]%elem_of_cons; [done|by apply C2].
          - unfold k. simpl. rewrite C3. lia.
          - done.
          - intros r' i' [Heq|Hin]%elem_of_cons; [by simplify_eq|by apply C5]. }
        destruct (IHn k' ltac:(lia) body i ob Fb Eb) with (O := O1) (st := st1) (parent := k) (S := (r, i) :: S)
          as (m1 & [b q] & st2 & Hev1 & HC2 & HP1 & Ho1).
        { by eapply Hpr. } { intros r' Hr'. by eapply HR. } { done. } { done. } { by right. } { done. }
        { intros r' j [Heq|Hin]%elem_of_cons.
          - simplify_eq. destruct (run g s k' (PRef (Some r) (fn r)) i) eqn:E; [|done].
            specialize (Hmin k' ltac:(lia)). unfold P in Hmin. unfold g in *. by rewrite E in Hmin.
          - eapply stack_ok_le; [exact HS|lia|done]. }
        destruct (default_exec O st parent i r (pexp_of body)
          (fun key position => match pr_fn pr f with Some body => eval pr src m1 body key position | None => mpanic PNoFunction end)
          b q st2 HI HO Hlt) as (st' & Hdef & Hmem & Hpl).
        { rewrite Hbody. exact Hev1. } { exact HP1. }
        assert (Hev : eval pr src (Datatypes.S m1) (EVar r f) parent i st = Ok ((b, q), st')).
        { simpl. unfold var_name_kernel, mbind'. unfold get_ctx at 1. simpl. rewrite Hc. exact Hdef. }
        eapply finish; eauto.
        destruct HC2 as [C1 C2 C3 C4 C5]. apply list.NoDup_cons in C1 as [C1 C1'].
        split.
        * done.
        * intros key Hk. rewrite Hmem. rewrite lookup_insert_ne by (intros <-; done). apply C2. by apply elem_of_cons; right.
        * rewrite Hpl, C3, Hmem. rewrite map_size_insert_None by (apply C2; by apply elem_of_cons; left).
          cbn [length]. lia.
        * intros r' i'. rewrite Hmem. destruct (decide ((r', i') = (r, i))) as [Heq|Hne].
          -- intros _. by simplify_eq.
          -- rewrite lookup_insert_ne by done. apply C4.
        * intros r' i' Hin. apply C5. by apply elem_of_cons; right.
    - (* inline *)
      pose proof He as He0. simpl in He0. destruct He0 as [body Hbody].
      assert (Hgf : g f = Some (pexp_of body)) by (unfold g, grammar_of; by rewrite Hbody).
      rewrite Hgf in Hrun0.
      destruct (run g s n (pexp_of body) i) as [[ob Fb]|] eqn:Eb; [|discriminate].
      destruct (IH body i ob Fb Eb) with (O := O) (st := st) (parent := parent) (S := S)
        as (m1 & r1 & st1 & Hev1 & HC1 & HP1 & Ho1); try done.
      { by eapply Hpr. } { intros r' Hr'. by eapply HR. }
      assert (Hev : eval pr src (Datatypes.S m1) (EInline f) parent i st = Ok (r1, st1)).
      { simpl. by rewrite Hbody. }
      eapply finish; eauto.
    - done.
    - done.
  Qed.

  Lemma CInv_init u : CInv [] (PState (context_new (pr_grammar pr)) u).
  Proof.
    split; simpl.
    - constructor.
    - intros key H. by apply elem_of_nil in H.
    - by rewrite map_size_empty.
    - intros r i [x H]. by rewrite lookup_empty in H.
    - intros r i H. by apply elem_of_nil in H.
  Qed.
End complete.
