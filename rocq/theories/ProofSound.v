(** Packrat soundness: every run of a plain program (no left recursion, no
    hooks) answers as the memo-free trace semantics, and grows the node store
    by exactly the trace's trees. *)
From Verif Require Export ProofBasics ProofPeg.

Definition key_overflow (p : panic) : Prop := p = PKeyOverflow.
Notation pub st := (cx_pub (st_ctx st)).

(** The store grew; only the open node [parent] changed, by appending [ks]. *)
Record grown (parent : N) (ks : list N) (p p' : publisher) : Prop := mkGrown {
  gr_len : p_len p <= p_len p';
  gr_frame : forall k, k < p_len p -> k <> parent -> p_nodes p' !! k = p_nodes p !! k;
  gr_parent : forall n, p_nodes p !! parent = Some n ->
      p_nodes p' !! parent = Some (with_children n (n_children n ++ ks));
}.

Lemma with_children_nil n : with_children n (n_children n ++ []) = n.
Proof. rewrite app_nil_r. by destruct n. Qed.
Lemma grown_refl parent p : grown parent [] p p.
Proof. split; [lia|done|]. intros n Hn. by rewrite with_children_nil. Qed.
Lemma grown_trans parent ks ks' p p' p'' :
  grown parent ks p p' -> grown parent ks' p' p'' -> grown parent (ks ++ ks') p p''.
Proof.
  intros [H1 H2 H3] [H1' H2' H3']. split; [lia| |].
  - intros k Hk Hne. rewrite H2' by (done || lia). by apply H2.
  - intros n Hn. apply H3, H3' in Hn. rewrite Hn. simpl.
    unfold with_children; simpl. by rewrite app_assoc.
Qed.

Lemma grown_frame (O : N -> Prop) parent ks p p' :
  pub_wf p -> O parent -> grown parent ks p p' ->
  (forall k t, unfolds O p k t -> unfolds O p' k t) /\
  (forall l F, unfolds_list O p l F -> unfolds_list O p' l F).
Proof.
  intros Hw HO [H1 H2 H3]. apply unfolds_frame. intros k n Hn HOk. split; [done|].
  rewrite H2; [done| |congruence]. apply Hw. eauto.
Qed.

Section sound.
  Context {U : Type} (pr : program U) (s : list N) (fn : N -> N).
  Context (Hs : N.of_nat (length s) < u32_modulus).
  Let g := grammar_of pr.
  Let src := source_new s.

  Definition memo_ok (O : N -> Prop) (st : pstate U) : Prop :=
    forall r i b q k, check (st_ctx st) r i = Some (b, q, k) ->
      exists F, unfolds O (pub st) k (TNode r i q b F) /\
        trace g s (PRef (Some r) (fn r)) i (outcome b q) [TNode r i q b F].

  Record Inv (O : N -> Prop) (st : pstate U) : Prop := mkInv {
    inv_wf : pub_wf (pub st);
    inv_open : forall k, O k -> k < p_len (pub st);
    inv_memo : memo_ok O st;
  }.

  Definition same_rest (st st' : pstate U) : Prop :=
    c_heads (cx_cache (st_ctx st')) = c_heads (cx_cache (st_ctx st)) /\
    c_active (cx_cache (st_ctx st')) = c_active (cx_cache (st_ctx st)) /\
    st_user st' = st_user st.

  Definition Post (e : pexp) (O : N -> Prop) (parent pos : N) (st : pstate U)
      (r : bool * N) (st' : pstate U) : Prop :=
    exists F ks,
      trace g s e pos (outcome (fst r) (snd r)) F /\
      (fst r = false -> snd r = pos) /\
      Inv O st' /\ grown parent ks (pub st) (pub st') /\
      unfolds_list O (pub st') ks F /\ same_rest st st'.

  Definition psound (e : pexp) (f : parser U) : Prop :=
    forall O st parent pos, Inv O st -> O parent ->
      wp key_overflow (f parent pos) st (Post e O parent pos st).

  Lemma same_rest_refl st : same_rest st st.
  Proof. done. Qed.
  Lemma same_rest_trans st1 st2 st3 : same_rest st1 st2 -> same_rest st2 st3 -> same_rest st1 st3.
  Proof. unfold same_rest. intuition congruence. Qed.

  (** Leaves: kernels that only read. *)
  Lemma pure_Post e O parent pos st b q :
    Inv O st -> trace g s e pos (outcome b q) [] -> (b = false -> q = pos) ->
    Post e O parent pos st (b, q) st.
  Proof.
    intros. exists [], []. split; [done|]. split; [done|]. split; [done|].
    split; [apply grown_refl|]. split; [constructor|apply same_rest_refl].
  Qed.

  Lemma read_char_eq pos (st : pstate U) : read_char src pos st = Ok (s !! N.to_nat pos, st).
  Proof. unfold read_char, src. by rewrite get_char_spec. Qed.
  Lemma incr_eq pos (st : pstate U) c : s !! N.to_nat pos = Some c -> incr pos st = Ok (pos + 1, st).
  Proof.
    intros H. apply lookup_lt_Some in H. unfold incr.
    destruct (N.ltb_spec (pos + 1) u32_modulus); [done|lia].
  Qed.

  Lemma terminal_eq c parent pos (st : pstate U) :
    terminal_kernel src c parent pos st =
      Ok (if decide (s !! N.to_nat pos = Some c) then (true, pos + 1) else (false, pos), st).
  Proof.
    unfold terminal_kernel, mbind'. rewrite read_char_eq. simpl.
    destruct (s !! N.to_nat pos) as [v|] eqn:E.
    - destruct (N.eqb_spec v c) as [->|Hne].
      + rewrite (incr_eq _ _ c) by done. simpl. by rewrite decide_True.
      + rewrite decide_False by congruence. done.
    - by rewrite decide_False.
  Qed.
  Lemma range_eq a b parent pos (st : pstate U) :
    ordered_choice_match_range_kernel src a b parent pos st =
      Ok (match s !! N.to_nat pos with
          | Some v => if (a <=? v) && (v <=? b) then (true, pos + 1) else (false, pos)
          | None => (false, pos) end, st).
  Proof.
    unfold ordered_choice_match_range_kernel, mbind'. rewrite read_char_eq. simpl.
    destruct (s !! N.to_nat pos) as [v|] eqn:E; [|done].
    destruct ((a <=? v) && (v <=? b)); [|done]. by rewrite (incr_eq _ _ v).
  Qed.

  Lemma terminal_sound c : psound (PChar c) (terminal_kernel src c).
  Proof.
    intros O st parent pos HI HO. unfold wp, terminal_kernel, mbind'.
    rewrite read_char_eq. simpl. destruct (s !! N.to_nat pos) as [v|] eqn:E.
    - destruct (N.eqb_spec v c) as [->|Hne].
      + rewrite (incr_eq _ _ c) by done. simpl. apply pure_Post; [done|by constructor|done].
      + simpl. apply pure_Post; [done|constructor; congruence|done].
    - simpl. apply pure_Post; [done|constructor; congruence|done].
  Qed.

  Lemma range_sound a b : psound (PRange a b) (ordered_choice_match_range_kernel src a b).
  Proof.
    intros O st parent pos HI HO. unfold wp, ordered_choice_match_range_kernel, mbind'.
    rewrite read_char_eq. simpl. destruct (s !! N.to_nat pos) as [v|] eqn:E.
    - destruct ((a <=? v) && (v <=? b)) eqn:E2.
      + rewrite (incr_eq _ _ v) by done. simpl.
        apply andb_true_iff in E2 as [?%N.leb_le ?%N.leb_le].
        apply pure_Post; [done|by econstructor|done].
      + simpl. apply pure_Post; [done| |done]. constructor. intros x Hx [??]. simplify_eq.
        apply andb_false_iff in E2 as [?%N.leb_gt|?%N.leb_gt]; lia.
    - simpl. apply pure_Post; [done| |done]. constructor. congruence.
  Qed.

  Lemma string_loop_eq data pos e (st : pstate U) :
    string_terminal_loop src pos data e st =
      Ok (if decide (occurs_at s e data) then (true, e + N.of_nat (length data)) else (false, pos), st).
  Proof.
    revert e. induction data as [|c data IH]; intros e.
    - rewrite decide_True by done. simpl. by rewrite N.add_0_r.
    - simpl. unfold mbind'. rewrite read_char_eq. simpl.
      destruct (s !! N.to_nat e) as [v|] eqn:E.
      + destruct (N.eqb_spec c v) as [->|Hne].
        * rewrite (incr_eq _ _ v) by done. simpl. rewrite IH.
          destruct (decide (occurs_at s (e + 1) data)) as [H|H].
          -- rewrite decide_True by by apply occurs_at_cons. do 2 f_equal. f_equal. lia.
          -- rewrite decide_False by by intros [??]%occurs_at_cons. done.
        * rewrite decide_False; [done|]. intros [??]%occurs_at_cons. congruence.
      + rewrite decide_False; [done|]. intros [??]%occurs_at_cons. congruence.
  Qed.

  Lemma string_sound l : psound (PStr l) (string_terminal_kernel src l).
  Proof.
    intros O st parent pos HI HO. unfold wp, string_terminal_kernel. rewrite string_loop_eq. simpl.
    case_decide; simpl.
    - apply pure_Post; [done|by constructor|done].
    - apply pure_Post; [done|by constructor|done].
  Qed.

  (** Two runs after each other under the same parent. *)
  Lemma Post_chain e1 e2 e O parent pos pos2 st r1 st1 r st2 :
    Inv O st -> O parent ->
    Post e1 O parent pos st r1 st1 -> Post e2 O parent pos2 st1 r st2 ->
    forall r',
    (forall F1 F2, trace g s e1 pos (outcome (fst r1) (snd r1)) F1 ->
        trace g s e2 pos2 (outcome (fst r) (snd r)) F2 ->
        trace g s e pos (outcome (fst r') (snd r')) (F1 ++ F2)) ->
    (fst r' = false -> snd r' = pos) ->
    Post e O parent pos st r' st2.
  Proof.
    intros HI HO (F1 & ks1 & Ht1 & Hf1 & HI1 & Hg1 & Hu1 & Hr1) (F2 & ks2 & Ht2 & Hf2 & HI2 & Hg2 & Hu2 & Hr2) r' Hcomb Hf.
    exists (F1 ++ F2), (ks1 ++ ks2). split; [by apply Hcomb|]. split; [done|]. split; [done|].
    split; [by eapply grown_trans|]. split; [|by eapply same_rest_trans].
    apply unfolds_list_app; [|done].
    eapply (grown_frame O); [apply HI1|exact HO|exact Hg2|exact Hu1].
  Qed.

  Lemma Post_map e1 e O parent pos st r1 st1 r' :
    Post e1 O parent pos st r1 st1 ->
    (forall F, trace g s e1 pos (outcome (fst r1) (snd r1)) F -> trace g s e pos (outcome (fst r') (snd r')) F) ->
    (fst r' = false -> snd r' = pos) ->
    Post e O parent pos st r' st1.
  Proof.
    intros (F1 & ks1 & Ht1 & Hf1 & HI1 & Hg1 & Hu1 & Hr1) Hm Hf.
    exists F1, ks1. split; [by apply Hm|]. done.
  Qed.
  Lemma Post_Inv e O parent pos st r st' : Post e O parent pos st r st' -> Inv O st'.
  Proof. intros (?&?&?&?&?&?). done. Qed.
  Lemma Post_fail e O parent pos st q st' : Post e O parent pos st (false, q) st' -> q = pos.
  Proof. intros (?&?&?&H&?&?). by apply H. Qed.

  Lemma seq_sound e1 e2 f1 f2 : psound e1 f1 -> psound e2 f2 -> psound (PSeq e1 e2) (sequence_kernel f1 f2).
  Proof.
    intros H1 H2 O st parent pos HI HO. unfold sequence_kernel. apply wp_bind.
    eapply wp_mono; [by apply H1|]. intros [[] j] st1 HP1.
    - apply wp_bind. eapply wp_mono; [apply H2; [by eapply Post_Inv|done]|].
      intros [[] k] st2 HP2.
      + eapply Post_chain; [done|done|exact HP1|exact HP2| |done]. simpl. intros. by econstructor.
      + eapply Post_chain; [done|done|exact HP1|exact HP2| |done]. simpl. intros. by econstructor.
    - eapply Post_map; [exact HP1| |done]. simpl. intros. by constructor.
  Qed.

  Lemma choice_sound e1 e2 f1 f2 : psound e1 f1 -> psound e2 f2 -> psound (PAlt e1 e2) (ordered_choice_kernel f1 f2).
  Proof.
    intros H1 H2 O st parent pos HI HO. unfold ordered_choice_kernel. apply wp_bind.
    eapply wp_mono; [by apply H1|]. intros [[] j] st1 HP1.
    - eapply Post_map; [exact HP1| |done]. simpl. intros. by constructor.
    - apply wp_bind. eapply wp_mono; [apply H2; [by eapply Post_Inv|done]|].
      intros [[] k] st2 HP2.
      + eapply Post_chain; [done|done|exact HP1|exact HP2| |done]. simpl. intros. by eapply tr_alt_2.
      + eapply Post_chain; [done|done|exact HP1|exact HP2| |done]. simpl. intros. by eapply tr_alt_2.
  Qed.

  Lemma and_sound e f : psound e f -> psound (PAnd e) (and_predicate_kernel f).
  Proof.
    intros H O st parent pos HI HO. unfold and_predicate_kernel. apply wp_bind.
    eapply wp_mono; [by apply H|]. intros [[] j] st1 HP1; (eapply Post_map; [exact HP1| |done]);
      simpl; intros; by econstructor.
  Qed.
  Lemma not_sound e f : psound e f -> psound (PNot e) (not_predicate_kernel f).
  Proof.
    intros H O st parent pos HI HO. unfold not_predicate_kernel. apply wp_bind.
    eapply wp_mono; [by apply H|]. intros [[] j] st1 HP1; (eapply Post_map; [exact HP1| |done]);
      simpl; intros; by econstructor.
  Qed.
  Lemma opt_sound e f : psound e f -> psound (POpt e) (optional_kernel f).
  Proof.
    intros H O st parent pos HI HO. unfold optional_kernel. apply wp_bind.
    eapply wp_mono; [by apply H|]. intros [[] j] st1 HP1; (eapply Post_map; [exact HP1| |done]);
      simpl; intros; eauto using trace.
  Qed.
  Lemma sub_sound e f : psound e f -> psound e (subexpression_kernel f).
  Proof.
    intros H O st parent pos HI HO. unfold subexpression_kernel. apply wp_bind.
    eapply wp_mono; [by apply H|]. intros [[] j] st1 HP1; (eapply Post_map; [exact HP1| |done]);
      simpl; intros; eauto using trace.
  Qed.

  Lemma loop_sound e f fuel : psound e f -> psound (PStar e) (repeat_loop fuel f).
  Proof.
    intros H. induction fuel as [|fuel IH]; intros O st parent pos HI HO; [done|]. simpl.
    apply wp_bind. eapply wp_mono; [by apply H|]. intros [[] j] st1 HP1; simpl.
    - eapply wp_mono; [apply IH; [by eapply Post_Inv|done]|]. intros [b q] st2 HP2.
      assert (b = true) as ->.
      { destruct HP2 as (F & ks & Ht & _). simpl in Ht. destruct b; [done|]. exfalso.
        clear -Ht. simpl in Ht. remember (PStar e) as se. remember None as o.
        induction Ht; simplify_eq. eauto. }
      eapply Post_chain; [done|done|exact HP1|exact HP2| |done]. simpl. intros. by econstructor.
    - eapply Post_map; [exact HP1| |done]. simpl. intros. by constructor.
  Qed.

  Lemma star_sound e f fuel : psound e f -> psound (PStar e) (zero_or_more_kernel fuel f).
  Proof. intros. by apply loop_sound. Qed.

  Lemma plus_sound e f fuel : psound e f -> psound (PPlus e) (one_or_more_kernel fuel f).
  Proof.
    intros H O st parent pos HI HO. unfold one_or_more_kernel. apply wp_bind.
    eapply wp_mono; [by apply H|]. intros [[] j] st1 HP1; simpl.
    - eapply wp_mono; [apply (loop_sound e f fuel); [done|by eapply Post_Inv|done]|]. intros [b q] st2 HP2.
      assert (b = true) as ->.
      { destruct HP2 as (F & ks & Ht & _). simpl in Ht. destruct b; [done|]. exfalso.
        clear -Ht. simpl in Ht. remember (PStar e) as se. remember None as o.
        induction Ht; simplify_eq. eauto. }
      eapply Post_chain; [done|done|exact HP1|exact HP2| |done]. simpl. intros. by econstructor.
    - eapply Post_map; [exact HP1| |done]. simpl. intros. by constructor.
  Qed.

  Lemma inline_sound f body F : pr_fn pr f = Some body ->
    psound (pexp_of body) F -> psound (PRef None f) F.
  Proof.
    intros Hf H O st parent pos HI HO. eapply wp_mono; [by apply H|].
    intros [b q] st1 HP1. eapply Post_map; [exact HP1| |].
    - simpl. intros F' HF'. change F' with (record None pos (outcome b q) F').
      eapply tr_ref; [|exact HF']. unfold g, grammar_of. by rewrite Hf.
    - intros Hb. simpl in *. subst b. by eapply Post_fail.
  Qed.

  (** Connecting a finished node under an open parent. *)
  Lemma connect_spec O (st : pstate U) parent k t :
    Inv O st -> O parent -> unfolds O (pub st) k t ->
    exists st', upd_ctx (fun c => ctx_connect c parent k) st = Ok (tt, st') /\
      Inv O st' /\ grown parent [k] (pub st) (pub st') /\ unfolds O (pub st') k t /\ same_rest st st' /\
      c_memo (cx_cache (st_ctx st')) = c_memo (cx_cache (st_ctx st)) /\ p_len (pub st') = p_len (pub st).
  Proof.
    intros HI HO Hu. assert (Hne : parent <> k) by (intros ->; inversion Hu; done).
    destruct (get_node_Ok (pub st) parent) as (n & Hn & Hg); [apply HI|by apply (inv_open _ _ HI)|].
    unfold upd_ctx, with_ctx, ctx_connect, connect.
    rewrite (proj2 (N.eqb_neq _ _) Hne), Hg. simpl. eexists. split; [reflexivity|]. simpl.
    set (p' := set_node _ _ _).
    assert (Hgr : grown parent [k] (pub st) p').
    { split; simpl; [lia| |].
      - intros k' Hk' Hne'. by rewrite lookup_insert_ne.
      - intros n' Hn'. simplify_eq. by rewrite lookup_insert. }
    pose proof (grown_frame O _ _ _ _ (inv_wf _ _ HI) HO Hgr) as [Hfr _].
    split; [|split; [done|split; [by apply Hfr|done]]]. split; simpl.
    - apply pub_wf_set; [apply HI|by apply (inv_open _ _ HI)].
    - apply HI.
    - intros r i b q k' Hc. destruct (inv_memo _ _ HI r i b q k') as (F & Hu' & Ht'); [exact Hc|].
      exists F. split; [by apply Hfr|done].
  Qed.

  Lemma upd_ctx_eq (F : context -> res context) (st : pstate U) c' :
    F (st_ctx st) = Ok c' -> upd_ctx F st = Ok (tt, PState c' (st_user st)).
  Proof. intros H. unfold upd_ctx, with_ctx. by rewrite H. Qed.

  Lemma update_entry_eq c k n b i q :
    p_nodes (cx_pub c) !! k = Some n ->
    update_publisher_entry c k b i q =
      Ok (with_pub c (Publisher (<[k := Node (n_index n) (n_rule n) i q b (n_children n)]> (p_nodes (cx_pub c)))
                       (p_len (cx_pub c)))).
  Proof.
    intros Hn. unfold update_publisher_entry, set_node_result, set_node_start_position,
      set_node_end_position, get_node. rewrite Hn. simpl. rewrite lookup_insert. simpl.
    rewrite lookup_insert. simpl. unfold set_node. simpl. by rewrite !insert_insert.
  Qed.

  Lemma memoized_sound O st parent pos r b q k :
    Inv O st -> O parent -> check (st_ctx st) r pos = Some (b, q, k) ->
    wp key_overflow (memoized_behaviour parent b q k) st (Post (PRef (Some r) (fn r)) O parent pos st).
  Proof.
    intros HI HO Hc. destruct (inv_memo _ _ HI _ _ _ _ _ Hc) as (F & Hu & Ht).
    destruct (connect_spec O st parent k _ HI HO Hu) as (st' & E & HI' & Hg & Hu' & Hr & _).
    unfold memoized_behaviour, wp, mbind'. rewrite E. simpl.
    exists [TNode r pos q b F], [k]. split; [done|]. split.
    { simpl. intros ->. inversion Ht; simplify_eq/=. done. }
    split; [done|]. split; [done|]. split; [|done]. constructor; [done|constructor].
  Qed.

  Lemma default_sound O st parent pos r f body fe :
    Inv O st -> O parent ->
    fn r = f -> pr_fn pr f = Some body -> psound (pexp_of body) fe ->
    wp key_overflow (default_behaviour fe r parent pos) st (Post (PRef (Some r) (fn r)) O parent pos st).
  Proof.
    intros HI HO Hfn Hf Hfe. unfold default_behaviour. apply wp_bind.
    unfold wp at 1. unfold with_ctx, reserve_publisher_entry, add_node.
    set (k := p_len (pub st)).
    destruct (N.ltb_spec k u32_modulus) as [Hk|Hk]; [|done].
    simpl. set (p1 := Publisher _ (k + 1)). set (st1 := PState _ _).
    assert (Hk1 : p_nodes p1 !! k = Some (Node k r 0 0 false [])) by (simpl; by rewrite lookup_insert).
    pose (O1 := fun x => O x \/ x = k).
    assert (Hfresh : forall x n, p_nodes (pub st) !! x = Some n -> x <> k).
    { intros x n Hx ->. assert (k < p_len (pub st)); [apply (inv_wf _ _ HI); eauto|]. unfold k in *; lia. }
    assert (HI1 : Inv O1 st1).
    { split; simpl.
      - apply pub_wf_add, HI.
      - intros x [Hx| ->]; [apply (inv_open _ _ HI) in Hx|]; unfold k in *; simpl in *; lia.
      - intros r' i b q k' Hc. destruct (inv_memo _ _ HI r' i b q k' Hc) as (F & Hu & Ht).
        exists F. split; [|done]. revert Hu. apply unfolds_frame. simpl. intros x n Hx Hox.
        pose proof (Hfresh _ _ Hx). split; [intros [?| ?]; done|].
        by rewrite lookup_insert_ne. }
    apply wp_bind. eapply wp_mono; [apply Hfe; [exact HI1|by right]|].
    intros [b q] st2 (F & ks & Ht & Hfl & HI2 & Hg2 & Hu2 & Hr2). simpl in *.
    assert (Hk2 : p_nodes (pub st2) !! k = Some (Node k r 0 0 false ks)).
    { by apply Hg2 in Hk1. }
    (* create_cache_entry *)
    apply wp_bind. unfold wp at 1. erewrite upd_ctx_eq by reflexivity. simpl.
    (* update_publisher_entry *)
    apply wp_bind. unfold wp at 1.
    erewrite upd_ctx_eq by (apply update_entry_eq; simpl; exact Hk2). simpl.
    set (st3 := PState _ _).
    (* the finished node *)
    assert (Hfr : (forall x t, unfolds O1 (pub st2) x t -> unfolds O (pub st3) x t) /\
                  (forall x t, unfolds_list O1 (pub st2) x t -> unfolds_list O (pub st3) x t)).
    { apply unfolds_frame. simpl. intros x n Hx Hox. split; [intros ?; apply Hox; by left|].
      rewrite lookup_insert_ne; [done|]. intros ->. apply Hox. by right. }
    destruct Hfr as [Hfr Hfrl].
    assert (HkO : ~ O k).
    { intros Hbad. apply (inv_open _ _ HI) in Hbad. unfold k in *. lia. }
    assert (Hnode : unfolds O (pub st3) k (TNode r pos q b F)).
    { refine (unf O (pub st3) k (Node k r pos q b ks) F HkO _ _).
      - simpl. by rewrite lookup_insert.
      - by apply Hfrl. }
    assert (Htr : trace g s (PRef (Some r) (fn r)) pos (outcome b q) [TNode r pos q b F]).
    { replace [TNode r pos q b F] with (record (Some r) pos (outcome b q) F).
      - eapply tr_ref; [|exact Ht]. rewrite Hfn. unfold g, grammar_of. by rewrite Hf.
      - simpl. destruct b; simpl; [done|]. by rewrite Hfl. }
    assert (HI3 : Inv O st3).
    { split.
      - intros x. simpl. destruct (decide (x = k)) as [->|Hx].
        + rewrite lookup_insert. split; [|eauto]. intros _. apply (inv_wf _ _ HI2). eauto.
        + rewrite lookup_insert_ne by done. apply (inv_wf _ _ HI2).
      - intros x Hx. simpl. assert (O1 x) as Hx1 by (by left). apply (inv_open _ _ HI2) in Hx1. done.
      - intros r' i b' q' k' Hc. simpl in Hc. unfold check in Hc. simpl in Hc.
        destruct (decide ((r', i) = (r, pos))) as [Heq|Hne].
        + simplify_eq. rewrite lookup_insert in Hc. simplify_eq. eauto.
        + rewrite lookup_insert_ne in Hc by done.
          destruct (inv_memo _ _ HI2 r' i b' q' k' Hc) as (F' & Hu' & Ht'). eauto. }
    apply wp_bind. unfold wp at 1.
    destruct (connect_spec O st3 parent k _ HI3 HO Hnode) as (st4 & E & HI4 & Hg4 & Hu4 & Hr4 & _).
    rewrite E. simpl. apply wp_ret.
    exists [TNode r pos q b F], [k]. split; [done|]. split; [done|]. split; [done|].
    split.
    { assert (Hpk : parent <> k) by (intros ->; done).
      assert (Hparent : parent < p_len (pub st)) by (by apply (inv_open _ _ HI)).
      destruct Hg2 as [L2 Fr2 _]. destruct Hg4 as [L4 Fr4 P4]. simpl in *. split.
      - simpl in *. unfold k in *. lia.
      - intros x Hx Hne. assert (x <> k) by (unfold k in *; lia).
        rewrite Fr4 by (try done; unfold k in *; lia).
        rewrite lookup_insert_ne by done. rewrite Fr2 by (try done; unfold k in *; lia).
        by rewrite lookup_insert_ne.
      - intros n Hn. apply P4. rewrite lookup_insert_ne by done.
        rewrite Fr2 by (try done; unfold k in *; lia). by rewrite lookup_insert_ne. }
    split.
    { constructor; [done|constructor]. }
    eapply same_rest_trans; [|exact Hr4]. exact Hr2.
  Qed.

  Context (Hpr : program_ok pr fn).

  Lemma var_sound r f body fe :
    fn r = f -> pr_fn pr f = Some body -> psound (pexp_of body) fe ->
    psound (PRef (Some r) f) (var_name_kernel r fe).
  Proof.
    intros Hfn Hf Hfe O st parent pos HI HO. unfold var_name_kernel. apply wp_bind.
    unfold wp at 1, get_ctx. simpl. rewrite <-Hfn.
    destruct (check (st_ctx st) r pos) as [[[b q] k]|] eqn:Hc.
    - by apply memoized_sound.
    - by eapply default_sound.
  Qed.

  Theorem eval_sound n e : expr_ok pr fn e -> psound (pexp_of e) (eval pr src n e).
  Proof.
    revert e. induction n as [|n IH]; intros e He; [done|]. destruct e; simpl in *.
    - apply terminal_sound.
    - apply string_sound.
    - apply range_sound.
    - destruct He. apply seq_sound; auto.
    - destruct He. apply choice_sound; auto.
    - apply and_sound; auto.
    - apply not_sound; auto.
    - apply plus_sound; auto.
    - apply star_sound; auto.
    - apply opt_sound; auto.
    - apply sub_sound; auto.
    - destruct He as [Hfn [body Hb]]. eapply var_sound; [done|done|].
      rewrite Hb. apply IH. eauto.
    - destruct He as [body Hb]. eapply inline_sound; [done|].
      rewrite Hb. apply IH. eauto.
    - done.
    - done.
  Qed.

  (** The initial context: only the root, open. *)
  Definition root_open (k : N) : Prop := k = 0.
  Lemma Inv_init u : Inv root_open (PState (context_new (pr_grammar pr)) u).
  Proof.
    split; simpl.
    - apply pub_wf_new.
    - unfold root_open. lia.
    - intros r i b q k H. unfold check in H. simpl in H. by rewrite lookup_empty in H.
  Qed.
End sound.
