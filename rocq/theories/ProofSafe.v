(** All programs, with left recursion and hooks: no panic except key
    exhaustion, the store stays acyclic, positions are honest, matches are
    derivable context-freely. *)
From Verif Require Export ProofSound SpecSafe.

(** ** closed *)
Lemma closed_weaken (O O' : N -> Prop) p k : (forall x, O' x -> O x) -> closed O p k -> closed O' p k.
Proof. intros H. induction 1 as [k n Hk Hn _ IH]. econstructor; eauto. Qed.

Lemma closed_frame (O O' : N -> Prop) p p' :
  (forall k n, p_nodes p !! k = Some n -> ~ O k ->
    ~ O' k /\ exists n', p_nodes p' !! k = Some n' /\ n_children n' = n_children n) ->
  forall k, closed O p k -> closed O' p' k.
Proof.
  intros H k. induction 1 as [k n Hk Hn _ IH]. destruct (H k n Hn Hk) as (Hk' & n' & Hn' & Hc).
  econstructor; [done|exact Hn'|]. rewrite Hc. done.
Qed.

Lemma closed_not_open O p k : closed O p k -> ~ O k.
Proof. by destruct 1. Qed.
Lemma closed_exists O p k : closed O p k -> exists n, p_nodes p !! k = Some n.
Proof. destruct 1. eauto. Qed.

Lemma closed_unfolds O p k : closed O p k -> exists t, unfolds O p k t.
Proof.
  induction 1 as [k n Hk Hn Hc IH].
  assert (exists F, unfolds_list O p (n_children n) F) as [F HF].
  { clear Hn Hc. induction (n_children n) as [|c l IHl]; [exists []; constructor|].
    destruct (IH c) as [t Ht]; [by apply elem_of_cons; left|].
    destruct IHl as [F HF]; [intros; apply IH; by apply elem_of_cons; right|].
    exists (t :: F). by constructor. }
  eexists. by econstructor.
Qed.

Section cfg_facts.
  Context (g : pgrammar) (s : list N).
  Lemma cfg_bounds e i j : cfg g s e i j -> i <= j /\ (i <= N.of_nat (length s) -> j <= N.of_nat (length s)).
  Proof.
    induction 1; try lia.
    - apply lookup_lt_Some in H. lia.
    - apply lookup_lt_Some in H. lia.
    - split; [lia|]. intros Hi. destruct (decide (l = [])) as [->|Hl]; [simpl; lia|].
      pose proof (occurs_at_bound _ _ _ H Hl). lia.
  Qed.
  Lemma peg_cfg e i j : peg g s e i (Some j) -> cfg g s e i j.
  Proof.
    remember (Some j) as o eqn:E. intros H. revert j E.
    induction H; intros j' E; simplify_eq; try (by econstructor; eauto).
  Qed.
End cfg_facts.

Section safe.
  Context {U : Type} (pr : program U) (s : list N) (fn : N -> N).
  Context (Hs : N.of_nat (length s) < u32_modulus).
  Context (Pp : panic -> Prop) (HPp : Pp PKeyOverflow).
  Let g := grammar_of pr.
  Let src := source_new s.
  Let L := N.of_nat (length s).
  Definition memo_claim (r i q : N) : Prop := cfg g s (PRef (Some r) (fn r)) i q.
  Notation D := memo_claim.
  Notation usable := (@SpecSafe.usable U L D).
  Notation behaves := (@SpecSafe.behaves U L D Pp).
  Notation keys_ok := all_keys_exist.

  Lemma preserved_refl O (st : pstate U) : preserved O st st.
  Proof. split; try done; lia. Qed.
  Lemma preserved_trans O (st1 st2 st3 : pstate U) :
    preserved O st1 st2 -> preserved O st2 st3 -> preserved O st1 st3.
  Proof. intros [A1 B1 C1 D1] [A2 B2 C2 D2]. split; [congruence|auto|auto|lia]. Qed.

  (** [behaves] as a wp. *)
  Definition QPost (O : N -> Prop) (st : pstate U) (pos : N) (Q : N -> N -> Prop) (r : bool * N) (st' : pstate U) : Prop :=
    (fst r = false -> snd r = pos) /\ (fst r = true -> within L Q pos (snd r)) /\ usable O st' /\ preserved O st st'.
  Lemma behaves_wp Q f : behaves Q f <->
    forall O st parent pos, usable O st -> O parent -> pos <= L -> wp Pp (f parent pos) st (QPost O st pos Q).
  Proof.
    unfold SpecSafe.behaves, wp, sat, QPost. split; intros H O st parent pos HU HO HL; specialize (H O st parent pos HU HO HL);
      destruct (f parent pos st) as [[[b q] st']| |]; done.
  Qed.

  Lemma QPost_pure O st pos (Q : N -> N -> Prop) b q : usable O st -> (b = false -> q = pos) -> (b = true -> within L Q pos q) ->
    QPost O st pos Q (b, q) st.
  Proof. intros. split; [done|]. split; [done|]. split; [done|]. apply preserved_refl. Qed.

  Lemma QPost_chain O st1 st2 st3 p1 p2 Q1 Q2 (Q : N -> N -> Prop) r1 r2 r :
    QPost O st1 p1 Q1 r1 st2 -> QPost O st2 p2 Q2 r2 st3 ->
    (fst r = false -> snd r = p1) -> (fst r = true -> within L Q p1 (snd r)) -> QPost O st1 p1 Q r st3.
  Proof.
    intros (_ & _ & _ & H1) (_ & _ & H2 & H3) A B. split; [done|]. split; [done|]. split; [done|].
    by eapply preserved_trans.
  Qed.
  Lemma QPost_map O st1 st2 p Q1 (Q : N -> N -> Prop) r1 r :
    QPost O st1 p Q1 r1 st2 ->
    (fst r = false -> snd r = p) -> (fst r = true -> within L Q p (snd r)) -> QPost O st1 p Q r st2.
  Proof. intros (_ & _ & H1 & H2) A B. done. Qed.

  Notation C e := (cfg g s (pexp_of e)).
  Notation CF e := (cfg g s e).

  Lemma cfw e i q : i <= L -> CF e i q -> within L (CF e) i q.
  Proof. intros Hi H. split; [done|]. apply cfg_bounds in H. unfold L in *. lia. Qed.
  Lemma QPost_ok O st pos Q q st' : QPost O st pos Q (true, q) st' -> Q pos q /\ q <= L.
  Proof. intros (_ & H & _). destruct (H eq_refl) as [? ?]. split; [done|]. simpl in *. lia. Qed.
  Lemma QPost_usable O st pos Q r st' : QPost O st pos Q r st' -> usable O st'.
  Proof. by intros (_ & _ & H & _). Qed.

  Lemma terminal_safe c : behaves (CF (PChar c)) (terminal_kernel src c).
  Proof.
    apply behaves_wp. intros O st parent pos HU HO HL. unfold wp, src. rewrite terminal_eq by done. simpl.
    case_decide; apply QPost_pure; try done. intros _. apply cfw; [done|]. by constructor.
  Qed.
  Lemma range_safe a b : behaves (CF (PRange a b)) (ordered_choice_match_range_kernel src a b).
  Proof.
    apply behaves_wp. intros O st parent pos HU HO HL. unfold wp, src. rewrite range_eq by done. simpl.
    destruct (s !! N.to_nat pos) as [v|] eqn:E; [|by apply QPost_pure].
    destruct ((a <=? v) && (v <=? b)) eqn:E2; [|by apply QPost_pure].
    apply andb_true_iff in E2 as [?%N.leb_le ?%N.leb_le].
    apply QPost_pure; try done. intros _. apply cfw; [done|]. by econstructor.
  Qed.
  Lemma string_safe l : behaves (CF (PStr l)) (string_terminal_kernel src l).
  Proof.
    apply behaves_wp. intros O st parent pos HU HO HL. unfold wp, src, string_terminal_kernel.
    rewrite string_loop_eq by done. simpl.
    case_decide; apply QPost_pure; try done. intros _. apply cfw; [done|]. by constructor.
  Qed.

  Lemma seq_safe e1 e2 f1 f2 : behaves (CF e1) f1 -> behaves (CF e2) f2 ->
    behaves (CF (PSeq e1 e2)) (sequence_kernel f1 f2).
  Proof.
    rewrite !behaves_wp. intros H1 H2 O st parent pos HU HO HL. unfold sequence_kernel. apply wp_bind.
    eapply wp_mono; [by apply H1|]. intros [b q] st1 P1. destruct b.
    - destruct (QPost_ok _ _ _ _ _ _ P1) as [C1 HL1].
      apply wp_bind. eapply wp_mono; [apply H2; [by eapply QPost_usable|done|done]|].
      intros [b2 q2] st2 P2. destruct b2; apply wp_ret; eapply QPost_chain; eauto; simpl; try done.
      intros _. apply cfw; [done|]. destruct (QPost_ok _ _ _ _ _ _ P2). by econstructor.
    - apply wp_ret. eapply QPost_map; [done| |]; done.
  Qed.
  Lemma choice_safe e1 e2 f1 f2 : behaves (CF e1) f1 -> behaves (CF e2) f2 ->
    behaves (CF (PAlt e1 e2)) (ordered_choice_kernel f1 f2).
  Proof.
    rewrite !behaves_wp. intros H1 H2 O st parent pos HU HO HL. unfold ordered_choice_kernel. apply wp_bind.
    eapply wp_mono; [by apply H1|]. intros [b q] st1 P1. destruct b.
    - apply wp_ret. eapply QPost_map; [done|done|]. intros _. apply cfw; [done|]. apply cfg_alt_l. by destruct (QPost_ok _ _ _ _ _ _ P1).
    - apply wp_bind. eapply wp_mono; [apply H2; [by eapply QPost_usable|done|done]|].
      intros [b2 q2] st2 P2. destruct b2; apply wp_ret; eapply QPost_chain; eauto; simpl; try done.
      intros _. apply cfw; [done|]. apply cfg_alt_r. by destruct (QPost_ok _ _ _ _ _ _ P2).
  Qed.
  Lemma and_safe e f : behaves (CF e) f -> behaves (CF (PAnd e)) (and_predicate_kernel f).
  Proof.
    rewrite !behaves_wp. intros H1 O st parent pos HU HO HL. unfold and_predicate_kernel. apply wp_bind.
    eapply wp_mono; [by apply H1|]. intros [b q] st1 P1. destruct b; apply wp_ret;
      (eapply QPost_map; [done|done|]); simpl; try done. intros; apply cfw; [done|]. constructor.
  Qed.
  Lemma not_safe e f : behaves (CF e) f -> behaves (CF (PNot e)) (not_predicate_kernel f).
  Proof.
    rewrite !behaves_wp. intros H1 O st parent pos HU HO HL. unfold not_predicate_kernel. apply wp_bind.
    eapply wp_mono; [by apply H1|]. intros [b q] st1 P1. destruct b; apply wp_ret;
      (eapply QPost_map; [done|done|]); simpl; try done. intros; apply cfw; [done|]. constructor.
  Qed.
  Lemma opt_safe e f : behaves (CF e) f -> behaves (CF (POpt e)) (optional_kernel f).
  Proof.
    rewrite !behaves_wp. intros H1 O st parent pos HU HO HL. unfold optional_kernel. apply wp_bind.
    eapply wp_mono; [by apply H1|]. intros [b q] st1 P1. destruct b; apply wp_ret;
      (eapply QPost_map; [done|done|]); simpl; intros _; (apply cfw; [done|]).
    - apply cfg_opt_some. by destruct (QPost_ok _ _ _ _ _ _ P1).
    - constructor.
  Qed.
  Lemma sub_safe Q f : behaves Q f -> behaves Q (subexpression_kernel f).
  Proof.
    rewrite !behaves_wp. intros H1 O st parent pos HU HO HL. unfold subexpression_kernel. apply wp_bind.
    eapply wp_mono; [by apply H1|]. intros [b q] st1 P1. destruct b; apply wp_ret;
      (eapply QPost_map; [done|done|]); simpl; try done. intros _. destruct P1 as (_ & P1 & _). by apply P1.
  Qed.
  Lemma loop_safe_wp e f fuel : behaves (CF e) f -> forall O st parent pos, usable O st -> O parent -> pos <= L ->
    wp Pp (repeat_loop fuel f parent pos) st (fun r st' => QPost O st pos (CF (PStar e)) r st' /\ fst r = true).
  Proof.
    rewrite !behaves_wp. intros H1. induction fuel as [|fuel IH]; intros O st parent pos HU HO HL; [done|].
    cbn [repeat_loop]. apply wp_bind.
    eapply wp_mono; [by apply H1|]. intros [b q] st1 P1. destruct b; simpl.
    - destruct (QPost_ok _ _ _ _ _ _ P1) as [C1 HL1].
      eapply wp_mono; [apply IH; [by eapply QPost_usable|done|done]|]. intros [b2 q2] st2 [P2 Hb]. simpl in Hb. subst b2.
      split; [|done]. eapply QPost_chain; eauto; simpl; [done|].
      intros _. apply cfw; [done|]. destruct (QPost_ok _ _ _ _ _ _ P2). by eapply cfg_star_cons.
    - apply wp_ret. split; [|done]. eapply QPost_map; [done|done|]. intros _. apply cfw; [done|]. constructor.
  Qed.
  Lemma star_safe e f fuel : behaves (CF e) f -> behaves (CF (PStar e)) (zero_or_more_kernel fuel f).
  Proof.
    intros H1. apply behaves_wp. intros O st parent pos HU HO HL. unfold zero_or_more_kernel.
    eapply wp_mono; [by apply loop_safe_wp|]. by intros r st' [? _].
  Qed.
  Lemma plus_safe e f fuel : behaves (CF e) f -> behaves (CF (PPlus e)) (one_or_more_kernel fuel f).
  Proof.
    intros Hf. pose proof (proj1 (behaves_wp _ _) Hf) as H1. apply behaves_wp.
    intros O st parent pos HU HO HL. unfold one_or_more_kernel. apply wp_bind.
    eapply wp_mono; [by apply H1|]. intros [b q] st1 P1. destruct b; simpl.
    - destruct (QPost_ok _ _ _ _ _ _ P1) as [C1 HL1].
      eapply wp_mono; [apply (loop_safe_wp e f fuel Hf O st1); [by eapply QPost_usable|done|done]|].
      intros [b2 q2] st2 [P2 Hb]. simpl in Hb. subst b2. eapply QPost_chain; eauto; simpl; [done|].
      intros _. apply cfw; [done|]. destruct (QPost_ok _ _ _ _ _ _ P2). by eapply cfg_plus.
    - apply wp_ret. by eapply QPost_map.
  Qed.

  (** ** State updates *)
  Notation nodes st := (p_nodes (pub st)).

  Lemma keys_wf p : keys_ok p <-> pub_wf p.
  Proof. done. Qed.

  (** Reserving a node: it becomes open. *)
  Definition opened (O : N -> Prop) (k : N) : N -> Prop := fun x => O x \/ x = k.

  Lemma reserve_safe O (st : pstate U) r (K : N -> M (pstate U) (bool * N)) Q :
    usable O st ->
    (forall k st1, usable (opened O k) st1 -> usable O st1 -> ~ O k ->
       closed O (pub st1) k ->
       preserved O st st1 ->
       (forall x, closed O (pub st) x -> closed (opened O k) (pub st1) x) ->
       p_len (pub st1) = k + 1 ->
       cx_cache (st_ctx st1) = cx_cache (st_ctx st) -> st_user st1 = st_user st ->
       wp Pp (K k) st1 Q) ->
    wp Pp (mbind' (with_ctx (fun c => reserve_publisher_entry c r)) K) st Q.
  Proof.
    intros HU HK. unfold with_ctx, reserve_publisher_entry, add_node, wp, mbind'. simpl.
    destruct (N.ltb_spec (p_len (pub st)) u32_modulus) as [Hlt|]; [|exact HPp]. cbn [rbind].
    set (k := p_len (pub st)). set (st1 := PState _ _).
    pose proof (us_keys _ _ _ _ HU) as Hw.
    assert (Hnk : nodes st !! k = None).
    { destruct (nodes st !! k) eqn:E; [|done]. assert (k < p_len (pub st)) by (apply Hw; eauto). unfold k in *; lia. }
    assert (HnO : ~ O k). { intros H. apply (us_open _ _ _ _ HU) in H. unfold k in *; lia. }
    assert (Hfr : forall (O' : N -> Prop), (forall x, O' x -> O x \/ x = k) ->
       forall x, closed O (pub st) x -> closed O' (pub st1) x).
    { intros O' HO'. apply closed_frame. intros x n Hx Hox.
      assert (x <> k) by congruence. split.
      - intros [?| ->]%HO'; done.
      - exists n. split; [|done]. simpl. by rewrite lookup_insert_ne. }
    assert (Hw1 : keys_ok (pub st1)) by (by apply pub_wf_add).
    assert (Hk1 : nodes st1 !! k = Some (Node k r 0 0 false [])).
    { simpl. by rewrite lookup_insert. }
    assert (Hmk : forall (O' : N -> Prop), (forall x, O x -> O' x) -> (forall x, O' x -> O x \/ x = k) -> usable O' st1).
    { intros O' H1 H2. split.
      - done.
      - intros x [Hx| ->]%H2; [apply (us_open _ _ _ _ HU) in Hx|]; simpl; unfold k; lia.
      - intros x n c [Hx| ->]%H2 Hn Hc.
        + simpl in Hn. rewrite lookup_insert_ne in Hn by congruence.
          apply (Hfr O' H2). by eapply (us_below _ _ _ _ HU).
        + rewrite Hk1 in Hn. simplify_eq. by apply elem_of_nil in Hc.
      - intros x Hx HnOx. simpl in Hx. destruct (decide (x = k)) as [->|Hne].
        + econstructor; [done|exact Hk1|]. intros c Hc. by apply elem_of_nil in Hc.
        + apply (Hfr O' H2). apply (us_all _ _ _ _ HU); [unfold k in *; lia|]. intros ?. by apply HnOx, H1.
      - intros r' i b q k' Hm. destruct (us_memo _ _ _ _ HU r' i b q k' Hm) as (Hc & ?). split; [|done]. by apply (Hfr O' H2).
      - intros key Hkey. by apply (us_active _ _ _ _ HU). }
    apply HK.
    - apply Hmk; unfold opened; tauto.
    - apply Hmk; tauto.
    - done.
    - econstructor; [done|exact Hk1|]. intros c Hc. by apply elem_of_nil in Hc.
    - split; try done. + apply Hfr. tauto. + simpl; lia.
    - apply Hfr. unfold opened. tauto.
    - simpl. unfold k. lia.
    - done. - done.
  Qed.

  (** A finished call: its key is not open any more. *)
  Lemma usable_close O k (st : pstate U) : usable (opened O k) st -> ~ O k ->
    usable O st /\ closed O (pub st) k.
  Proof.
    intros HU HnO.
    assert (Hw : forall x, closed (opened O k) (pub st) x -> closed O (pub st) x).
    { intros x. apply closed_weaken. intros y Hy. by left. }
    split.
    - split.
      + apply (us_keys _ _ _ _ HU).
      + intros x Hx. apply (us_open _ _ _ _ HU). by left.
      + intros x n c Hx Hn Hc. apply Hw. eapply (us_below _ _ _ _ HU); [by left|done|done].
      + intros x Hx HnOx. destruct (decide (x = k)) as [->|Hne].
        * apply (us_keys _ _ _ _ HU) in Hx as [n Hn]. econstructor; [done|exact Hn|].
          intros c Hc. apply Hw. eapply (us_below _ _ _ _ HU); [by right|done|done].
        * apply Hw. apply (us_all _ _ _ _ HU); [done|]. intros [?|?]; done.
      + intros r i b q k' Hm. destruct (us_memo _ _ _ _ HU _ _ _ _ _ Hm) as (? & ?). split; [by apply Hw|done].
      + apply (us_active _ _ _ _ HU).
    - assert (k < p_len (pub st)) as Hk by (apply (us_open _ _ _ _ HU); by right).
      apply (us_keys _ _ _ _ HU) in Hk as [n Hn].
      econstructor; [done|exact Hn|]. intros c Hc. apply Hw. eapply (us_below _ _ _ _ HU); [by right|done|done].
  Qed.

  (** Updating the fields of an existing node. *)
  Lemma update_safe O (st : pstate U) k b i q (K : unit -> M (pstate U) (bool * N)) Q :
    usable O st -> k < p_len (pub st) ->
    (forall st1, usable O st1 -> preserved O st st1 ->
       (forall O' x, closed O' (pub st) x -> closed O' (pub st1) x) ->
       p_len (pub st1) = p_len (pub st) ->
       cx_cache (st_ctx st1) = cx_cache (st_ctx st) -> st_user st1 = st_user st -> wp Pp (K tt) st1 Q) ->
    wp Pp (mbind' (upd_ctx (fun c => update_publisher_entry c k b i q)) K) st Q.
  Proof.
    intros HU Hk HK. apply (us_keys _ _ _ _ HU) in Hk as Hn. destruct Hn as [n Hn].
    unfold wp, mbind'. erewrite upd_ctx_eq; [|by apply update_entry_eq]. cbn [rbind].
    set (st1 := PState _ _).
    assert (Hfr : forall O' x, closed O' (pub st) x -> closed O' (pub st1) x).
    { intros O'. apply closed_frame. intros x m Hx Hox. split; [done|]. simpl.
      destruct (decide (k = x)) as [->|Hne].
      - rewrite lookup_insert. eexists. split; [done|]. simpl. congruence.
      - rewrite lookup_insert_ne by done. eauto. }
    apply HK.
    - split.
      + apply (pub_wf_set (pub st)); [apply (us_keys _ _ _ _ HU)|done].
      + apply (us_open _ _ _ _ HU).
      + intros x m c Hx Hm Hc. apply Hfr. simpl in Hm. destruct (decide (k = x)) as [->|Hne].
        * rewrite lookup_insert in Hm. simplify_eq. eapply (us_below _ _ _ _ HU); [done|exact Hn|done].
        * rewrite lookup_insert_ne in Hm by done. by eapply (us_below _ _ _ _ HU).
      + intros x Hx HnOx. apply Hfr. by apply (us_all _ _ _ _ HU).
      + intros r' i' b' q' k' Hm. destruct (us_memo _ _ _ _ HU _ _ _ _ _ Hm). split; [by apply Hfr|done].
      + apply (us_active _ _ _ _ HU).
    - split; try done. apply Hfr.
    - done. - done. - done. - done.
  Qed.

  (** Connecting a finished subtree below an open node. *)
  Lemma add_child_safe O (st : pstate U) parent n k :
    usable O st -> O parent -> nodes st !! parent = Some n -> closed O (pub st) k ->
    let st1 := PState (with_pub (st_ctx st) (set_node (pub st) parent (with_children n (n_children n ++ [k])))) (st_user st) in
    usable O st1 /\ preserved O st st1.
  Proof.
    intros HU HO Hn Hk st1.
    assert (Hfr : forall x, closed O (pub st) x -> closed O (pub st1) x).
    { apply closed_frame. intros x m Hx Hox. split; [done|]. exists m. split; [|done].
      simpl. rewrite lookup_insert_ne; [done|]. intros ->. done. }
    split.
    - split.
      + apply (pub_wf_set (pub st)); [apply (us_keys _ _ _ _ HU)|by apply (us_open _ _ _ _ HU)].
      + apply (us_open _ _ _ _ HU).
      + intros x m c Hx Hm Hc. apply Hfr. simpl in Hm. destruct (decide (parent = x)) as [->|Hne].
        * rewrite lookup_insert in Hm. simplify_eq. simpl in Hc. apply elem_of_app in Hc as [Hc|Hc].
          -- by eapply (us_below _ _ _ _ HU).
          -- apply elem_of_list_singleton in Hc. by subst.
        * rewrite lookup_insert_ne in Hm by done. by eapply (us_below _ _ _ _ HU).
      + intros x Hx HnOx. apply Hfr. by apply (us_all _ _ _ _ HU).
      + intros r' i' b' q' k' Hm. destruct (us_memo _ _ _ _ HU _ _ _ _ _ Hm). split; [by apply Hfr|done].
      + apply (us_active _ _ _ _ HU).
    - by split.
  Qed.

  Lemma connect_safe O (st : pstate U) parent k (K : unit -> M (pstate U) (bool * N)) Q :
    usable O st -> O parent -> closed O (pub st) k ->
    (forall st1, usable O st1 -> preserved O st st1 ->
       cx_cache (st_ctx st1) = cx_cache (st_ctx st) -> st_user st1 = st_user st -> wp Pp (K tt) st1 Q) ->
    wp Pp (mbind' (upd_ctx (fun c => ctx_connect c parent k)) K) st Q.
  Proof.
    intros HU HO Hk HK. unfold wp, mbind', upd_ctx, with_ctx, ctx_connect, connect.
    destruct (N.eqb_spec parent k) as [->|Hne]; [by apply closed_not_open in Hk|].
    pose proof (us_open _ _ _ _ HU _ HO) as Hp. apply (us_keys _ _ _ _ HU) in Hp as [n Hn].
    unfold get_node. rewrite Hn. cbn [rbind]. 
    destruct (add_child_safe O st parent n k HU HO Hn Hk) as [H1 H2]. by apply HK.
  Qed.
  Lemma connect_if_safe O (st : pstate U) parent k (K : unit -> M (pstate U) (bool * N)) Q :
    usable O st -> O parent -> closed O (pub st) k ->
    (forall st1, usable O st1 -> preserved O st st1 ->
       cx_cache (st_ctx st1) = cx_cache (st_ctx st) -> st_user st1 = st_user st -> wp Pp (K tt) st1 Q) ->
    wp Pp (mbind' (upd_ctx (fun c => ctx_connect_if_not_connected c parent k)) K) st Q.
  Proof.
    intros HU HO Hk HK. unfold wp, mbind', upd_ctx, with_ctx, ctx_connect_if_not_connected, connect_if_not_connected.
    pose proof (us_open _ _ _ _ HU _ HO) as Hp. apply (us_keys _ _ _ _ HU) in Hp as [n Hn].
    unfold get_node. rewrite Hn. cbn [rbind].
    destruct (existsb (fun c => c =? k) (n_children n)); cbn [rbind].
    - assert (E : PState (with_pub (st_ctx st) (pub st)) (st_user st) = st) by (by destruct st as [[c p] u]).
      rewrite E. apply HK; [done|apply preserved_refl|done|done].
    - destruct (add_child_safe O st parent n k HU HO Hn Hk) as [H1 H2]. by apply HK.
  Qed.

  (** Memoising. *)
  Lemma memo_safe O (st : pstate U) r b i q k (K : unit -> M (pstate U) (bool * N)) Q :
    usable O st -> closed O (pub st) k -> (b = false -> q = i) -> (b = true -> within L (D r) i q) ->
    (forall st1, usable O st1 -> preserved O st st1 -> pub st1 = pub st ->
       c_heads (cx_cache (st_ctx st1)) = c_heads (cx_cache (st_ctx st)) ->
       st_user st1 = st_user st -> wp Pp (K tt) st1 Q) ->
    wp Pp (mbind' (upd_ctx (fun c => Ok (create_cache_entry c r b i q k))) K) st Q.
  Proof.
    intros HU Hk H1 H2 HK. unfold wp, mbind', upd_ctx, with_ctx. cbn [rbind]. apply HK; [|by split|done|done|done].
    split.
    - apply (us_keys _ _ _ _ HU).
    - apply (us_open _ _ _ _ HU).
    - apply (us_below _ _ _ _ HU).
    - apply (us_all _ _ _ _ HU).
    - intros r' i' b' q' k' Hm. unfold check, create_cache_entry in Hm. simpl in Hm.
      destruct (decide ((r, i) = (r', i'))) as [E|Hne].
      + simplify_eq. rewrite lookup_insert in Hm. by simplify_eq.
      + rewrite lookup_insert_ne in Hm by done. by apply (us_memo _ _ _ _ HU).
    - apply (us_active _ _ _ _ HU).
  Qed.

  Lemma QPost_pre O st st1 pos Q r st' : preserved O st st1 -> QPost O st1 pos Q r st' -> QPost O st pos Q r st'.
  Proof. intros H (A & B & C' & E). split; [done|]. split; [done|]. split; [done|]. by eapply preserved_trans. Qed.

  (** Run [f] under a freshly reserved key. *)
  Lemma run_reserved O (st st1 : pstate U) k f Q (K : bool * N -> M (pstate U) (bool * N)) pos P :
    behaves Q f -> usable (opened O k) st1 -> ~ O k -> pos <= L ->
    (forall x, closed O (pub st) x -> closed (opened O k) (pub st1) x) ->
    preserved O st st1 ->
    (forall r st2, usable O st2 -> closed O (pub st2) k -> preserved O st st2 ->
       (fst r = false -> snd r = pos) -> (fst r = true -> within L Q pos (snd r)) -> wp Pp (K r) st2 P) ->
    wp Pp (mbind' (f k pos) K) st1 P.
  Proof.
    intros Hf HU HnO HL Hcl Hpv HK. apply wp_bind.
    eapply wp_mono; [apply (proj1 (behaves_wp _ _) Hf); [exact HU|by right|done]|].
    intros r st2 (A & B & HU2 & [P1 P2 P3 P4]). destruct (usable_close O k st2 HU2 HnO) as [HU3 Hk3].
    apply HK; try done. destruct Hpv as [R1 R2 R3 R4]. split; [congruence|auto| |lia].
    intros x Hx. apply Hcl, P3 in Hx. revert Hx. apply closed_weaken. intros y Hy. by left.
  Qed.

  Lemma closed_lt O (st : pstate U) k : usable O st -> closed O (pub st) k -> k < p_len (pub st).
  Proof. intros HU [n Hn]%closed_exists. apply (us_keys _ _ _ _ HU). eauto. Qed.

  Lemma default_safe r f : behaves (memo_claim r) f ->
    behaves (memo_claim r) (fun parent pos => default_behaviour f r parent pos).
  Proof.
    intros Hf. apply behaves_wp. intros O st parent pos HU HO HL. unfold default_behaviour.
    apply (reserve_safe O); [done|]. intros k st1 HU1 HU1' HnO Hk1 Hp1 Hc1 Hl1 Hca1 Hus1.
    eapply run_reserved; [exact Hf|exact HU1|exact HnO|exact HL|exact Hc1|exact Hp1|].
    intros r0 st2 HU2 Hk2 Hp2 A B.
    apply (memo_safe O); [done|done|done|done|]. intros st3 HU3 Hp3 Hpub3 _ _. rewrite <-Hpub3 in Hk2.
    eapply update_safe; [exact HU3|by eapply closed_lt|]. intros st4 HU4 Hp4 Hc4 _ _ _.
    eapply connect_safe; [exact HU4|exact HO|by apply Hc4|]. intros st5 HU5 Hp5 _ _.
    apply wp_ret. split; [done|]. split; [done|]. split; [done|].
    eapply preserved_trans; [exact Hp2|]. eapply preserved_trans; [exact Hp3|].
    by eapply preserved_trans.
  Qed.

  Lemma var_safe r f : behaves (memo_claim r) f -> behaves (memo_claim r) (var_name_kernel r f).
  Proof.
    intros Hf. apply behaves_wp. intros O st parent pos HU HO HL. unfold var_name_kernel.
    apply wp_bind. unfold get_ctx, wp at 1. simpl.
    destruct (check (st_ctx st) r pos) as [[[b q] k]|] eqn:E.
    - destruct (us_memo _ _ _ _ HU _ _ _ _ _ E) as (Hk & A & B). unfold memoized_behaviour.
      eapply connect_safe; [exact HU|exact HO|exact Hk|]. intros st1 HU1 Hp1 _ _.
      by apply wp_ret.
    - apply (proj1 (behaves_wp _ _) (default_safe r f Hf)); done.
  Qed.

  (** ** Left recursion *)
  Notation heads st := (c_heads (cx_cache (st_ctx st))).
  Notation active st := (get_current_active_lr_position (st_ctx st)).

  (** [preserved] but for the active recursion. *)
  Record kept (O : N -> Prop) (st st' : pstate U) : Prop := mkKept {
    kp_heads : forall key, is_Some (heads st !! key) -> is_Some (heads st' !! key);
    kp_closed : forall k, closed O (pub st) k -> closed O (pub st') k;
    kp_len : p_len (pub st) <= p_len (pub st');
  }.
  Lemma preserved_kept O st st' : preserved O st st' -> kept O st st'.
  Proof. by intros [? ? ? ?]. Qed.
  Lemma kept_trans O st1 st2 st3 : kept O st1 st2 -> kept O st2 st3 -> kept O st1 st3.
  Proof. intros [A1 B1 C1] [A2 B2 C2]. split; auto. lia. Qed.
  Lemma kept_preserved O st st' : kept O st st' -> active st' = active st -> preserved O st st'.
  Proof. by intros [? ? ?]. Qed.

  (** Changing heads (keys only added) and the active recursion. *)
  Lemma cache_usable O (st st1 : pstate U) :
    usable O st -> pub st1 = pub st -> c_memo (cx_cache (st_ctx st1)) = c_memo (cx_cache (st_ctx st)) ->
    (forall key, active st1 = Some key -> is_Some (heads st1 !! key)) -> usable O st1.
  Proof.
    intros HU E1 E2 HA. split; rewrite ?E1.
    - apply (us_keys _ _ _ _ HU).
    - apply (us_open _ _ _ _ HU).
    - apply (us_below _ _ _ _ HU).
    - apply (us_all _ _ _ _ HU).
    - intros r i b q k Hm. apply (us_memo _ _ _ _ HU). unfold check in *. by rewrite <-E2.
    - done.
  Qed.

  Lemma upd_ok (F : context -> context) (st : pstate U) A (K : unit -> M (pstate U) A) Q :
    wp Pp (K tt) (PState (F (st_ctx st)) (st_user st)) Q ->
    wp Pp (mbind' (upd_ctx (fun c => Ok (F c))) K) st Q.
  Proof. done. Qed.
  Lemma get_ctx_wp (st : pstate U) A (K : context -> M (pstate U) A) Q :
    wp Pp (K (st_ctx st)) st Q -> wp Pp (mbind' get_ctx K) st Q.
  Proof. done. Qed.

  Lemma growth_loop_safe r f fuel : behaves (memo_claim r) f ->
    forall O st0 st parent pos prev lr lk ck,
    usable O st0 -> prev = active st0 -> O parent -> pos <= L ->
    usable (opened O ck) st -> ~ O ck ->
    (forall x, closed O (pub st0) x -> closed (opened O ck) (pub st) x) ->
    closed (opened O ck) (pub st) lk ->
    kept O st0 st -> active st = Some (r, pos) -> is_Some (heads st !! (r, pos)) ->
    (fst lr = false -> snd lr = pos) -> (fst lr = true -> within L (memo_claim r) pos (snd lr)) ->
    wp Pp (growth_loop fuel r parent pos f prev lr lk ck) st (QPost O st0 pos (memo_claim r)).
  Proof.
    intros Hf. induction fuel as [|fuel IH]; intros O st0 st parent pos prev lr lk ck HU0 Hprev HO HL HU HnO Hcl Hlk Hk Ha Hh HA HB; [done|].
    cbn [growth_loop].
    (* reinitialize the eval set *)
    unfold reinitialize_eval_set at 1.
    unfold mbind' at 1, upd_ctx at 1, with_ctx at 1, wp at 1.
    destruct Hh as [h Hh]. rewrite Hh. cbn [rbind].
    set (st1 := PState _ _).
    assert (Hh1 : forall key, is_Some (heads st !! key) -> is_Some (heads st1 !! key)).
    { intros key Hkey. simpl. destruct (decide ((r, pos) = key)) as [<-|Hne].
      - rewrite lookup_insert. eauto.
      - by rewrite lookup_insert_ne. }
    assert (HU1 : usable (opened O ck) st1).
    { eapply cache_usable; [exact HU|done|done|]. intros key Hkey. apply Hh1. by apply (us_active _ _ _ _ HU). }
    assert (Hk1 : kept O st0 st1).
    { eapply kept_trans; [exact Hk|]. split; [done|done|simpl; lia]. }
    (* the body *)
    match goal with |- sat _ (?m st1) _ => change (wp Pp m st1 (QPost O st0 pos (memo_claim r))) end.
    apply wp_bind. eapply wp_mono; [apply (proj1 (behaves_wp _ _) Hf); [exact HU1|by right|done]|].
    intros res st2 (RA & RB & HU2 & Hp2).
    destruct (usable_close O ck st2 HU2 HnO) as [HU3 Hck3].
    assert (Hcl2 : forall x, closed (opened O ck) (pub st) x -> closed O (pub st2) x).
    { intros x Hx. apply (closed_weaken (opened O ck)); [by left|]. by apply (pv_closed _ _ _ Hp2). }
    assert (Hk2 : kept O st0 st2).
    { split.
      - intros key Hkey. apply (pv_heads _ _ _ Hp2), (kp_heads _ _ _ Hk1), Hkey.
      - intros x Hx. by apply Hcl2, Hcl.
      - pose proof (pv_len _ _ _ Hp2). pose proof (kp_len _ _ _ Hk1). lia. }
    assert (Ha2 : active st2 = Some (r, pos)) by (rewrite (pv_active _ _ _ Hp2); done).
    assert (Hlk2 : closed O (pub st2) lk) by (by apply Hcl2).
    apply get_ctx_wp.
    assert (Hres : exists ck' res', (match check (st_ctx st2) r pos with
        | None => (ck, res) | Some (b, e, k) => (k, (b, e)) end) = (ck', res') /\
        closed O (pub st2) ck' /\ (fst res' = false -> snd res' = pos) /\ (fst res' = true -> within L (memo_claim r) pos (snd res'))).
    { destruct (check (st_ctx st2) r pos) as [[[b e] k]|] eqn:Ec.
      - destruct (us_memo _ _ _ _ HU3 _ _ _ _ _ Ec) as (? & ? & ?). exists k, (b, e). done.
      - exists ck, res. done. }
    destruct Hres as (ck' & res' & -> & Hck' & RA' & RB'). cbn beta iota.
    eapply update_safe; [exact HU3|by eapply closed_lt|]. intros st4 HU4 Hp4 Hc4 _ Hca4 _.
    assert (Hk4 : kept O st0 st4) by (eapply kept_trans; [exact Hk2|by apply preserved_kept]).
    assert (Ha4 : active st4 = Some (r, pos)) by (by rewrite (pv_active _ _ _ Hp4)).
    destruct (negb (fst res') || (snd res' <=? snd lr)) eqn:Estop.
    - (* stop *)
      eapply connect_safe; [exact HU4|exact HO|by apply Hc4|]. intros st5 HU5 Hp5 _ _.
      assert (Hk5 : kept O st0 st5) by (eapply kept_trans; [exact Hk4|by apply preserved_kept]).
      apply upd_ok. set (st6 := PState _ _).
      assert (HU6 : usable O st6).
      { eapply cache_usable; [exact HU5|done|done|]. intros key Hkey. simpl in Hkey.
        change (heads st6) with (heads st5). apply (kp_heads _ _ _ Hk5). apply (us_active _ _ _ _ HU0). by subst prev. }
      assert (Hp6 : preserved O st0 st6).
      { apply kept_preserved; [|done]. eapply kept_trans; [exact Hk5|]. split; [done|done|simpl; lia]. }
      assert (Hlk6 : closed O (pub st6) lk).
      { change (pub st6) with (pub st5). by apply (pv_closed _ _ _ Hp5), Hc4. }
      eapply memo_safe; [exact HU6|exact Hlk6|done|done|]. intros st7 HU7 Hp7 _ _ _.
      apply wp_ret. split; [done|]. split; [done|]. split; [done|]. by eapply preserved_trans.
    - (* grow *)
      apply (reserve_safe O); [exact HU4|]. intros k st5 HU5 HU5' HnO5 Hk5 Hp5 Hc5 Hl5 Hca5 Hus5.
      eapply IH; [exact HU0|done|done|done|exact HU5|exact HnO5| | | | | | |].
      + intros x Hx. apply Hc5. by apply (kp_closed _ _ _ Hk4).
      + apply Hc5. by apply Hc4.
      + eapply kept_trans; [exact Hk4|by apply preserved_kept].
      + by rewrite (pv_active _ _ _ Hp5).
      + apply (us_active _ _ _ _ HU5). by rewrite (pv_active _ _ _ Hp5).
      + done.
      + done.
  Qed.

  (** Registering the head can be moved to the front. *)
  Lemma growth_function_eq fuel inv r (f : parser U) parent pos prev st :
    growth_function fuel inv r f parent pos prev st =
    mbind' (with_ctx (fun c => reserve_publisher_entry c r)) (fun lk =>
    mbind' (upd_ctx (fun c => update_publisher_entry c lk false 0 0)) (fun _ =>
    mbind' (with_ctx (fun c => reserve_publisher_entry c r)) (fun ck =>
    growth_loop fuel r parent pos f prev (false, pos) lk ck)))
    (PState (set_head (st_ctx st) pos r (convert_vec_to_btree_set inv)) (st_user st)).
  Proof.
    unfold growth_function, mbind', upd_ctx, with_ctx, reserve_publisher_entry, add_node. simpl.
    destruct (p_len (pub st) <? u32_modulus); [|done]. cbn [rbind].
    unfold update_publisher_entry, set_node_result, set_node_start_position, set_node_end_position, get_node, set_node; simpl.
    repeat (rewrite !lookup_insert; cbn [rbind p_nodes p_len]; simpl).
    destruct (p_len (pub st) + 1 <? u32_modulus); [|done]. cbn [rbind]. done.
  Qed.

  Lemma growth_safe inv r f fuel O (st0 : pstate U) parent pos :
    behaves (memo_claim r) f -> usable O st0 -> O parent -> pos <= L ->
    wp Pp (growth_function fuel inv r f parent pos (active st0))
      (PState (set_current_active_lr_position (st_ctx st0) (Some (r, pos))) (st_user st0))
      (QPost O st0 pos (memo_claim r)).
  Proof.
    intros Hf HU0 HO HL. unfold wp. rewrite growth_function_eq. cbn [st_ctx st_user].
    set (st1 := PState _ _).
    assert (Hh1 : forall key, is_Some (heads st0 !! key) -> is_Some (heads st1 !! key)).
    { intros key Hkey. simpl. destruct (decide ((r, pos) = key)) as [<-|Hne].
      - rewrite lookup_insert. eauto.
      - by rewrite lookup_insert_ne. }
    assert (Hh : is_Some (heads st1 !! (r, pos))) by (simpl; rewrite lookup_insert; eauto).
    assert (HU1 : usable O st1).
    { eapply cache_usable; [exact HU0|done|done|]. intros key Hkey. cbn in Hkey. injection Hkey as <-. exact Hh. }
    assert (Hk1 : kept O st0 st1) by (split; [done|done|simpl; lia]).
    match goal with |- sat _ (?m st1) _ => change (wp Pp m st1 (QPost O st0 pos (memo_claim r))) end.
    apply (reserve_safe O); [exact HU1|]. intros lk st2 _ HU2 HnO2 Hlk2 Hp2 _ _ _ _.
    eapply update_safe; [exact HU2|by eapply closed_lt|]. intros st3 HU3 Hp3 Hc3 _ _ _.
    apply (reserve_safe O); [exact HU3|]. intros ck st4 HU4 HU4' HnO4 Hck4 Hp4 Hc4 _ _ _.
    assert (Hk4 : kept O st0 st4).
    { eapply kept_trans; [exact Hk1|]. apply preserved_kept. eapply preserved_trans; [exact Hp2|].
      by eapply preserved_trans. }
    assert (Hk3 : kept O st0 st3).
    { eapply kept_trans; [exact Hk1|]. apply preserved_kept. by eapply preserved_trans. }
    eapply growth_loop_safe; [exact Hf|exact HU0|done|done|done|exact HU4|exact HnO4| | |exact Hk4| | |done|done].
    - intros x Hx. by apply Hc4, (kp_closed _ _ _ Hk3).
    - by apply Hc4, Hc3.
    - by rewrite (pv_active _ _ _ Hp4), (pv_active _ _ _ Hp3), (pv_active _ _ _ Hp2).
    - by apply (pv_heads _ _ _ Hp4), (pv_heads _ _ _ Hp3), (pv_heads _ _ _ Hp2).
  Qed.

  Lemma lr_safe inv r f fuel : behaves (memo_claim r) f ->
    behaves (memo_claim r) (var_name_kernel_indirect_left_recursion fuel inv r f).
  Proof.
    intros Hf. apply behaves_wp. intros O st parent pos HU HO HL.
    unfold var_name_kernel_indirect_left_recursion.
    (* whether to grow *)
    set (K := fun should : bool * option (N * N) => _).
    assert (Hgrow : wp Pp (K (true, active st))
      (PState (set_current_active_lr_position (st_ctx st) (Some (r, pos))) (st_user st)) (QPost O st pos (memo_claim r))).
    { unfold K. cbn [fst snd]. by apply growth_safe. }
    assert (Hno : forall lr, active st = Some lr -> wp Pp (K (false, None)) st (QPost O st pos (memo_claim r))).
    { intros lr Ha. unfold K. cbn [fst snd]. apply get_ctx_wp. rewrite Ha.
      destruct (us_active _ _ _ _ HU _ Ha) as [h Hh].
      apply wp_bind. unfold with_ctx at 1, rule_in_eval_set, wp at 1. rewrite Hh. cbn [rbind sat fst snd].
      assert (Est : PState (st_ctx st) (st_user st) = st) by (by destruct st). rewrite Est.
      destruct (bool_decide (r ∈ h_eval h)).
      - (* evaluate the body once *)
        apply (reserve_safe O); [exact HU|]. intros k st1 HU1 HU1' HnO Hk1 Hp1 Hc1 Hl1 Hca1 Hus1.
        apply wp_bind. unfold wp at 1, upd_ctx, with_ctx, remove_from_eval_set. rewrite Hca1, Hh. cbn [rbind sat fst snd].
        set (st2 := PState _ _).
        assert (Hh2 : forall key, is_Some (heads st !! key) -> is_Some (heads st2 !! key)).
        { intros key Hkey. cbn. destruct (decide (lr = key)) as [<-|Hne].
          - rewrite lookup_insert. eauto.
          - by rewrite lookup_insert_ne. }
        assert (HU2 : usable (opened O k) st2).
        { eapply cache_usable; [exact HU1|done|done|]. intros key Hkey. apply Hh2.
          apply (us_active _ _ _ _ HU). simpl in Hkey. rewrite <-Hkey. unfold get_current_active_lr_position.
          simpl. by rewrite Hca1. }
        eapply (run_reserved O st st2 k f); [exact Hf|exact HU2|exact HnO|exact HL|exact Hc1| |].
        + destruct Hp1 as [P1 P2 P3 P4]. split; [done|done|done|done].
        + intros res st3 HU3 Hk3 Hp3 A B.
          eapply update_safe; [exact HU3|by eapply closed_lt|]. intros st4 HU4 Hp4 Hc4 _ _ _.
          eapply memo_safe; [exact HU4|by apply Hc4|done|done|]. intros st5 HU5 Hp5 Hpub5 _ _.
          eapply connect_safe; [exact HU5|exact HO|rewrite Hpub5; by apply Hc4|]. intros st6 HU6 Hp6 _ _.
          apply wp_ret. split; [done|]. split; [done|]. split; [done|].
          eapply preserved_trans; [exact Hp3|]. eapply preserved_trans; [exact Hp4|].
          by eapply preserved_trans.
      - apply get_ctx_wp. destruct (check (st_ctx st) r pos) as [[[b e] k]|] eqn:E.
        + destruct (us_memo _ _ _ _ HU _ _ _ _ _ E) as (Hk & A & B).
          eapply connect_if_safe; [exact HU|exact HO|exact Hk|]. intros st1 HU1 Hp1 _ _. by apply wp_ret.
        + apply wp_ret. by apply QPost_pure. }
    apply wp_bind. unfold should_go_into_growth_function. apply get_ctx_wp.
    destruct (active st) as [lr|] eqn:Ha; [|exact Hgrow].
    destruct (check_head (st_ctx st) r pos) as [h0|]; [by apply (Hno lr)|].
    destruct (us_active _ _ _ _ HU _ Ha) as [h Hh].
    apply wp_bind. unfold with_ctx at 1, rule_in_involved_set, wp at 1. rewrite Hh. cbn [rbind sat fst snd].
    assert (Est : PState (st_ctx st) (st_user st) = st) by (by destruct st). rewrite Est.
    destruct (bool_decide (r ∈ h_involved h)); [by apply (Hno lr)|exact Hgrow].
  Qed.

  Context (Hpr : program_wf pr fn) (Hhooks : hooks_behave L D Pp pr src).

  Lemma behaves_ext (Q : N -> N -> Prop) f f' : (forall k p st, f k p st = f' k p st) -> behaves Q f -> behaves Q f'.
  Proof. intros E H O st parent pos HU HO HL. specialize (H O st parent pos HU HO HL). by rewrite E in H. Qed.
  Lemma behaves_impl (Q Q' : N -> N -> Prop) f : (forall i q, Q i q -> Q' i q) -> behaves Q f -> behaves Q' f.
  Proof.
    intros HQ H O st parent pos HU HO HL. specialize (H O st parent pos HU HO HL).
    destruct (f parent pos st) as [[[b q] st']| |]; [|done|done]. destruct H as (? & H & ? & ?). split; [done|]. split; [|done]. intros Hb. destruct (H Hb). split; auto.
  Qed.

  Theorem eval_safe n e : expr_wf pr fn e -> behaves (C e) (eval pr src n e).
  Proof.
    revert e. induction n as [|n IH]; intros e He.
    { intros O st parent pos _ _ _. done. }
    assert (Hcall : forall f body, pr_fn pr f = Some body -> forall l,
      behaves (CF (PRef l f)) (fun key position => match pr_fn pr f with
        | Some body => eval pr src n body key position | None => mpanic PNoFunction end)).
    { intros f body Hb l. rewrite Hb. eapply behaves_impl; [|apply IH; by eapply Hpr].
      intros i q Hq. econstructor; [|exact Hq]. unfold g, grammar_of. by rewrite Hb. }
    destruct e; simpl in He; cbn [pexp_of eval].
    - apply terminal_safe.
    - apply string_safe.
    - apply range_safe.
    - destruct He. apply seq_safe; auto.
    - destruct He. apply choice_safe; auto.
    - apply and_safe; auto.
    - apply not_safe; auto.
    - apply plus_safe; auto.
    - apply star_safe; auto.
    - apply opt_safe; auto.
    - apply sub_safe; auto.
    - destruct He as [<- [body Hb]]. apply var_safe. by eapply Hcall.
    - destruct He as [body Hb]. by eapply Hcall.
    - destruct He as [<- [body Hb]]. apply lr_safe. by eapply Hcall.
    - apply Hhooks; auto.
  Qed.

  Lemma usable_init u : usable root_open (PState (context_new (pr_grammar pr)) u).
  Proof.
    split; simpl.
    - apply pub_wf_new.
    - intros k ->. lia.
    - intros k n c -> Hn Hc. rewrite lookup_singleton in Hn. simplify_eq. by apply elem_of_nil in Hc.
    - intros k Hk HnO. exfalso. apply HnO. unfold root_open. lia.
    - intros r i b q k Hm. unfold check in Hm. simpl in Hm. by rewrite lookup_empty in Hm.
    - done.
  Qed.
End safe.
