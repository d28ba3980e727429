(** The generator always comes to an end. *)
From Verif Require Import SpecUtf8 SpecLeft SpecCompile SpecGenerator SpecEmit ProofPeg ProofTree ProofTrace ProofDsl ProofBuild ProofRules ProofSymbols ProofUtf8 ProofGraph ProofLeft ProofGenerate ProofEmit.
From Verif Require Import TheoremsKernel TheoremsPackrat TheoremsTotal Checks SpecSession SpecTerm ProofTree2 ProofFuel.
From Verif Require Import ProofDslComplete ProofDslUnique ProofDslSize.
From stdpp Require Import relations gmap.
Local Open Scope N_scope.

(** ** More fuel never changes the outcome *)
Lemma res_le_bind {A B} (x y : res A) (f g : A -> res B) : res_le x y -> (forall a, res_le (f a) (g a)) -> res_le (rbind x f) (rbind y g).
Proof. unfold res_le. intros Hx Hf Hn. destruct x; cbn in *; [rewrite Hx by done; cbn; by apply Hf|by rewrite Hx|done]. Qed.
Section mono.
  Context (n m : nat) (Hnm : (n <= m)%nat).
  Lemma clear_le gr p : res_le (clear_false n gr p) (clear_false m gr p).
  Proof using Hnm. intros H. by eapply clear_false_mono. Qed.
  Lemma btree_le t k : res_le (btree_to_string n t k) (btree_to_string m t k).
  Proof using Hnm.
    unfold btree_to_string. destruct (t !! N.to_nat k) as [nd|]; [|apply res_le_refl]. destruct (b_ref nd); try apply res_le_refl.
    apply res_le_bind; [apply res_le_refl|]. intros a. apply res_le_bind; [|intros; apply res_le_refl].
    intros H. by eapply match_ref_mono.
  Qed.
  Lemma rule_loop_le lr sym s l : forall im nm rhs cm, res_le (c_rule_loop lr sym s n l im nm rhs cm) (c_rule_loop lr sym s m l im nm rhs cm).
  Proof using Hnm.
    induction l as [|c l IH]; intros im nm rhs cm; [apply res_le_refl|]. cbn [c_rule_loop].
    destruct (_ =? _). { apply res_le_bind; [apply res_le_refl|]. intros a. apply IH. }
    destruct (_ =? _).
    { apply res_le_bind; [apply res_le_refl|]. intros [k g]. destruct (push _ _ _ _) as [la t]. apply res_le_bind; [apply btree_le|]. intros b. apply IH. }
    destruct (_ =? _); [|apply IH]. apply res_le_bind; [apply res_le_refl|]. intros a. apply IH.
  Qed.
  Lemma generate_loop_le lr sym s l : forall im, res_le (generate_loop lr sym s n l im) (generate_loop lr sym s m l im).
  Proof using Hnm.
    induction l as [|c l IH]; intros im; [apply res_le_refl|]. cbn [generate_loop]. apply res_le_bind.
    - unfold match_rule. destruct (_ =? _); [apply rule_loop_le|apply res_le_refl].
    - intros [f i]. apply res_le_bind; [apply IH|]. intros [? ?]. apply res_le_refl.
  Qed.
  Lemma mark_le (ord : nat -> hash_order) (mm : name_map name_set) : forall i M, res_le (mark_loop n ord i mm M) (mark_loop m ord i mm M).
  Proof using Hnm.
    revert m Hnm. induction n as [|k IH]; intros m' Hm i M; [apply res_le_nofuel|]. destruct m' as [|m']; [lia|]. cbn [mark_loop].
    destruct (Nat.eqb _ _); [apply res_le_refl|]. apply IH. lia.
  Qed.
  Lemma merge_le : forall inv, res_le (merge_loop n inv) (merge_loop m inv).
  Proof using Hnm.
    revert m Hnm. induction n as [|k IH]; intros m' Hm inv; [apply res_le_nofuel|]. destruct m' as [|m']; [lia|]. cbn [merge_loop].
    apply res_le_bind; [apply res_le_refl|]. intros inv'. destruct (Nat.eqb _ _); [apply res_le_refl|]. apply IH. lia.
  Qed.
  Lemma tree_le p : forall k, res_le (GenTree.read_tree n p k) (GenTree.read_tree m p k).
  Proof using Hnm.
    revert m Hnm. induction n as [|x IH]; intros m' Hm k; [apply res_le_nofuel|]. destruct m' as [|m']; [lia|]. cbn [GenTree.read_tree].
    apply res_le_bind; [apply res_le_refl|]. intros nd. apply res_le_bind; [|intros; apply res_le_refl].
    induction (n_children nd) as [|c l IHl]; [apply res_le_refl|]. apply res_le_bind; [apply IH; lia|]. intros t.
    apply res_le_bind; [apply IHl|]. intros; apply res_le_refl.
  Qed.
  Theorem generate_mono ho s : res_le (generate_parser n ho s) (generate_parser m ho s).
  Proof using Hnm.
    unfold generate_parser. apply res_le_bind.
    { apply (eval_mono dsl_program (source_new s)); [apply no_hooks_mono, table_no_hooks|done]. }
    intros [[b q] st]. destruct (negb _); [apply res_le_refl|].
    apply res_le_bind; [apply clear_le|]. intros p. apply res_le_bind; [apply tree_le|]. intros tr.
    apply res_le_bind; [apply res_le_refl|]. intros sym. apply res_le_bind.
    { unfold left_recursion_rules. apply res_le_bind; [apply res_le_refl|]. intros ct. apply res_le_bind; [apply mark_le|]. intros mk.
      apply res_le_bind; [apply res_le_refl|]. intros lf. apply res_le_bind; [apply mark_le|]. intros mk'. apply merge_le. }
    intros lr. apply res_le_bind; [|intros; apply res_le_refl]. unfold generated_code_new.
    apply res_le_bind; [|intros [? ?]; apply res_le_refl]. unfold generate. destruct (negb _); [apply res_le_refl|]. apply generate_loop_le.
  Qed.
End mono.

(** ** Totality *)
Lemma gen_entry_allowed : allowed dsl_program dsl_fn dsl_labels gen_entry.
Proof. split; [apply gen_entry_ok|]. intros r Hr. by apply elem_of_nil in Hr. Qed.
Lemma gen_entry_guarded : guarded (nul_of dsl_table) (lvl_of dsl_table) (S (lvl_of dsl_table dsl_f_grammar)) true gen_entry.
Proof. apply guardedb_ok. vm_compute. done. Qed.

Section after.
  (** What happens once the tree has been read. *)
  Context (s : list N) (Hu : utf8 s) (rules : list drule) (ts : list ptree) (Hts : Forall2 (rule_rep s) ts rules).
  Context (ho : hash_orders) (Hho : orders_ok ho).
  Notation tree := (TNode dsl_R_Grammar 0 0 true ts).
  Notation tail fuel := (let! sym := symbol_table_new s tree in
    let! lr := left_recursion_rules fuel ho s tree in
    let! code := generated_code_new fuel lr sym s tree in
    Ok (GCode code)).

  Lemma symbols_ok : exists sym, symbol_table_new s tree = Ok sym.
  Proof using Hu Hts.
    unfold symbol_table_new. cbn [t_label t_children]. change (negb (dsl_R_Grammar =? dsl_R_Grammar)) with false. cbv iota.
    destruct (symbols_total s Hu _ _ Hts (SymTable [] ∅)) as (st & E). rewrite E. by eexists.
  Qed.
  Lemma lefts_dec : lefts_declared rules \/ ~ lefts_declared rules.
  Proof using Hu Hts Hho.
    destruct (detector_prefix s Hu rules ho Hho 0 0 true ts Hts) as (fuel0 & inv & Ho & _ & H0 & H1 & H2 & H3 & Hdec).
    destruct (decide (map_Forall (fun (n : name) (S : name_set) => set_Forall (fun m : name => is_Some (inv !! m)) S) inv)) as [Hd|Hd].
    - left. eapply dangling_iff; [exact H1|exact H2|exact Hdec|]. intros n S m HS Hm. apply (map_Forall_lookup_1 _ _ _ _ Hd HS m Hm).
    - right. intros HL. apply Hd. intros n S HS m Hm. eapply dangling_iff in HL; [|exact H1|exact H2|exact Hdec]. by eapply HL.
  Qed.
  Lemma declared_nonempty n : declared_name rules n -> n <> [].
  Proof using Hts.
    intros (r & Hr & <-). apply elem_of_list_lookup in Hr as [k Hk].
    destruct (Forall2_lookup_r _ _ _ _ _ Hts Hk) as (t & _ & Ht). destruct Ht as [i j lhs rhs cs n inl_ e comments Hl _ _ _]. cbn [dr_name].
    by destruct Hl as [? ? ? ? ? ? (c & l & -> & _)|? ? ? ? ? ? ? ? ? ? ? (c & l & -> & _)].
  Qed.
  Lemma declared_listed n : declared rules n -> declared_name rules n.
  Proof using.
    intros [e He]. unfold body_of in He. destruct (List.find _ _) as [r|] eqn:E; [|done]. apply List.find_some in E as [H1 H2].
    apply bool_decide_eq_true in H2. exists r. split; [|done]. apply elem_of_list_In. by apply in_rev.
  Qed.

  Lemma tail_answers : exists fuel0, forall fuel, (fuel0 <= fuel)%nat ->
    (lefts_declared rules /\ forallb rule_emits rules = true -> exists c, tail fuel = Ok (GCode c)) /\
    (~ (lefts_declared rules /\ forallb rule_emits rules = true) -> exists x, tail fuel = Panic x).
  Proof using Hu Hts Hho.
    destruct symbols_ok as [sym Hsym]. destruct lefts_dec as [HL|HL].
    2: { destruct (detector_panics s Hu rules ho Hho 0 0 true ts Hts HL) as (f0 & H0). exists f0. intros fuel Hf.
      rewrite Hsym, (H0 _ Hf). cbn [rbind]. split; [by intros [? _]|]. by eexists. }
    destruct (detector_total s Hu rules ho Hho 0 0 true ts Hts HL) as (f0 & lr & H0).
    assert (Hne : forall n S m, lr !! n = Some S -> m ∈ S -> m <> []).
    { destruct (detector_spec s Hu rules ho Hho 0 0 true ts Hts f0 lr (H0 _ (le_n _))) as (_ & H1 & H2).
      intros n S m HS Hm. apply (H2 _ _ HS) in Hm as [_ (x & Hr & Hx)]. apply declared_nonempty, declared_listed.
      inversion Hr; subst.
      - unfold on_left_cycle in Hx. inversion Hx; subst; match goal with H : left_calls rules _ _ |- _ => destruct H as (e & He & _) end; by exists e.
      - match goal with H : left_calls rules m _ |- _ => destruct H as (e & He & _) end. by exists e. }
    destruct (generate_loop_answers lr sym s Hu Hne ts rules Hts []) as (f1 & H1).
    exists (Nat.max f0 f1). intros fuel Hf. rewrite Hsym, H0 by lia. cbn [rbind].
    unfold generated_code_new, generate. cbn [t_label t_children]. change (negb (dsl_R_Grammar =? dsl_R_Grammar)) with false. cbv iota.
    specialize (H1 fuel ltac:(lia)). destruct (forallb rule_emits rules).
    - destruct H1 as [[fns im] E]. rewrite E. cbn [rbind]. split; [|intros []; done]. intros _.
      unfold generate_rules_enum. rewrite map_rule_name_ok; [by eexists|]. apply list.Forall_forall. intros n [_ Hn]%elem_of_list_filter.
      apply (sym_spec s rules ts Hts 0 0 true sym Hsym) in Hn. by apply declared_nonempty.
    - destruct H1 as [x E]. rewrite E. cbn [rbind]. split; [by intros [? ?]|]. by eexists.
  Qed.
End after.

(** The cleaned tree always fits. *)
Lemma tree_small s (Hs : N.of_nat (length s) < u32_modulus) fuel b q st F : run_entry dsl_program tt fuel gen_entry s = Ok ((b, q), st) -> q <= N.of_nat (length s) ->
  trace dsl_g s (pexp_of gen_entry) 0 (if b then Some q else None) F -> q = N.of_nat (length s) -> fsize (prune_forest F) <= 20 * N.of_nat (length s).
Proof.
  intros Hr Hle Ht Hq. destruct b.
  - apply dsl_tree_size in Ht. lia.
  - pose proof (stopped_at s Hs _ _ _ _ Hr eq_refl) as Hq0. assert (s = []) as ->. { destruct s; [done|]. simpl in Hq. lia. }
    assert (E : prune_forest F = []); [|rewrite E; simpl; lia].
    destruct (prune_forest F) as [|t G] eqn:E; [done|]. exfalso.
    assert (Hin : t ∈ prune_forest F) by (rewrite E; by left).
    apply prune_forest_elem in Hin as (u & Hu & Hk & _).
    destruct (raw_nodes dsl_program dsl_fn [] Hs dsl_ok gen_entry gen_entry_ok F _ u u Ht Hu (sub_refl u)) as [_ Hb].
    unfold keep in Hk. apply andb_true_iff in Hk as [_ Hk]. apply negb_true_iff, N.eqb_neq in Hk. simpl in Hb. lia.
Qed.
Lemma file_or_empty_unique s rules rules' : file_or_empty s rules -> file_or_empty s rules' -> rules = rules'.
Proof.
  assert (H0 : forall r rs, ~ file_text [] (r :: rs)).
  { intros r rs (i & _ & H & _). inversion H; subst. match goal with H : rule_text _ _ _ _ |- _ => apply rule_starts in H end. done. }
  intros [H|[-> ->]] [H'|[E ->]]; [by eapply file_unique| | |done].
  - subst s. destruct rules; [done|]. by apply H0 in H.
  - destruct rules'; [done|]. by apply H0 in H'.
Qed.
(** The whole file is read exactly when it spells rules (or is empty). *)
Lemma read_all s (Hs : N.of_nat (length s) < u32_modulus) fuel b q st rules : run_entry dsl_program tt fuel gen_entry s = Ok ((b, q), st) ->
  file_or_empty s rules -> q = N.of_nat (length s).
Proof.
  intros Hr [H|[-> ->]].
  - pose proof (file_accepted s None rules H) as Ha.
    apply (C10_packrat_sound dsl_program dsl_fn s tt Hs dsl_ok) in Hr; [|apply gen_entry_ok]. destruct Hr as [Hr _].
    pose proof (peg_det _ _ _ _ _ _ Ha Hr) as E. destruct b; [by injection E|done].
  - pose proof Hr as H. unfold run_entry in H.
    eapply (C01_positions dsl_program dsl_fn [] tt) in H as [H1 H2]; [|exact Hs|apply program_ok_wf, dsl_ok|apply table_no_hooks|constructor|exact gen_entry_wf|simpl; lia].
    simpl. destruct b; [specialize (H2 eq_refl); simpl in H2; lia|auto].
Qed.
Theorem generate_total ho s : utf8 s -> 1 + 30 * (N.of_nat (length s) + 1) <= u32_modulus -> orders_ok ho ->
  exists fuel0 o, (forall fuel, (fuel0 <= fuel)%nat -> generate_parser fuel ho s = o) /\
    ((exists q rules, (forall rules', ~ file_or_empty s rules') /\ reads_up_to s q rules /\ q < N.of_nat (length s) /\
       o = Ok (GSyntaxError (line_of s q))) \/
     exists rules, file_or_empty s rules /\
       ((lefts_declared rules /\ forallb rule_emits rules = true /\ exists c, o = Ok (GCode c) /\ generated_for rules c) \/
        (~ (lefts_declared rules /\ forallb rule_emits rules = true) /\ exists x, o = Panic x))).
Proof.
  intros Hu Hb Hho. assert (Hs : N.of_nat (length s) < u32_modulus) by (unfold u32_modulus in *; lia).
  destruct (C24_plain_total dsl_program dsl_fn (nul_of dsl_table) (lvl_of dsl_table) tt dsl_ok (table_no_hooks _ _) dsl_wf dsl_labels dsl_labels_in
    s gen_entry _ ltac:(by rewrite dsl_labels_size) Hs gen_entry_allowed gen_entry_guarded) as (f1 & b & q & st & Hrun & _).
  destruct (N.eq_dec q (N.of_nat (length s))) as [Hq|Hq].
  2: { (* syntax error *)
    assert (Hle : q < N.of_nat (length s)).
    { assert (q <= N.of_nat (length s)); [|lia]. pose proof (Hrun f1 (le_n _)) as H. unfold run_entry in H.
      eapply (C01_positions dsl_program dsl_fn s tt) in H as [H1 H2]; [|exact Hs|apply program_ok_wf, dsl_ok|apply table_no_hooks|constructor|exact gen_entry_wf|lia].
      destruct b; [apply H2|rewrite H1]; done || lia. }
    exists f1, (Ok (GSyntaxError (line_of s q))). split.
    - intros fuel Hf. unfold generate_parser. change (EInline dsl_f_grammar) with gen_entry. rewrite Hrun by done. cbn [rbind].
      rewrite as_u32_small by done. destruct (N.eqb_spec q (N.of_nat (length s))); [done|]. cbn [negb].
      unfold count_lines, slice_bytes. destruct (N.leb_spec 0 q); [|lia]. destruct (N.leb_spec q (N.of_nat (length s))); [|lia].
      cbn [andb rbind]. rewrite N.sub_0_r. cbn [N.to_nat]. unfold line_of, newlines. done.
    - left. pose proof (C10_packrat_sound dsl_program dsl_fn s tt Hs dsl_ok gen_entry f1 b q st gen_entry_ok (Hrun f1 (le_n _))) as [Hpeg _].
      assert (Hstop : forall j r, ~ rule_text s q j r).
      { pose proof (grammar_stops s None _ Hpeg) as Hst. destruct b; [done|]. by rewrite (stopped_at s Hs _ _ _ _ (Hrun f1 (le_n _)) eq_refl). }
      assert (Hno : forall rules', ~ file_or_empty s rules').
      { intros rules' Hfile. by apply (read_all s Hs _ _ _ _ _ (Hrun f1 (le_n _))) in Hfile. }
      destruct b.
      + destruct (C15_tree_is_trace dsl_program dsl_fn s tt Hs dsl_ok gen_entry f1 true q st gen_entry_ok (Hrun f1 (le_n _))) as (F & _ & Ht).
        apply inline_grammar in Ht. apply (tr_grammar s) in Ht as (ts & rules & k & _ & _ & _ & H1 & H2).
        exists q, rules. split; [done|]. split; [|done]. split; [by exists k|done].
      + exists q, []. split; [done|]. split; [|done]. split; [|done]. rewrite (stopped_at s Hs _ _ _ _ (Hrun f1 (le_n _)) eq_refl).
        exists 0. split; [constructor|apply blank_nil]. }
  destruct (C15_tree_is_trace dsl_program dsl_fn s tt Hs dsl_ok gen_entry f1 b q st gen_entry_ok (Hrun f1 (le_n _))) as (F & Hd & Htr).
  pose proof (tree_small s Hs _ _ _ _ _ (Hrun f1 (le_n _)) ltac:(lia) Htr Hq) as Hsz.
  assert (Hpre : forall fuel, (f1 <= fuel)%nat -> generate_parser fuel ho s =
    (let! p := clear_false fuel dsl_R_Grammar (cx_pub (st_ctx st)) in
     let! tree := GenTree.read_tree fuel p 0 in
     let! sym := symbol_table_new s tree in
     let! lr := left_recursion_rules fuel ho s tree in
     let! code := generated_code_new fuel lr sym s tree in
     Ok (GCode code))).
  { intros fuel Hf. unfold generate_parser. change (EInline dsl_f_grammar) with gen_entry. rewrite Hrun by done. cbn [rbind].
    rewrite as_u32_small by done. destruct (N.eqb_spec q (N.of_nat (length s))); [|done]. done. }
  pose proof (clear_false_total _ _ (fheight F) dsl_R_Grammar _ _ _ _ Hd (le_n _)) as Hc.
  destruct (clear_false (fheight F) dsl_R_Grammar (cx_pub (st_ctx st))) as [p'|x|] eqn:E; cbn [fine] in Hc.
  - destruct (file_tree s Hs _ _ _ _ _ _ (Hrun f1 (le_n _)) Hq E) as (ts & rules & Hden & HF & Hfile).
    destruct (tail_answers s Hu rules ts HF ho Hho) as (f2 & H2).
    set (f3 := Nat.max (Nat.max f1 f2) (Nat.max (fheight F) (ProofGenerate.theight (TNode dsl_R_Grammar 0 0 true ts)))).
    assert (Hf3 : (f1 <= f3 /\ f2 <= f3 /\ fheight F <= f3 /\ ProofGenerate.theight (TNode dsl_R_Grammar 0 0 true ts) <= f3)%nat) by (unfold f3; clear; lia).
    clearbody f3. destruct Hf3 as (Hf31 & Hf32 & Hf33 & Hf34).
    assert (Heq : forall fuel, (f3 <= fuel)%nat -> generate_parser fuel ho s =
      (let! sym := symbol_table_new s (TNode dsl_R_Grammar 0 0 true ts) in
       let! lr := left_recursion_rules fuel ho s (TNode dsl_R_Grammar 0 0 true ts) in
       let! code := generated_code_new fuel lr sym s (TNode dsl_R_Grammar 0 0 true ts) in Ok (GCode code))).
    { intros fuel Hf. rewrite Hpre by lia. rewrite (clear_false_mono _ fuel _ _ _ E) by (done || lia). cbn [rbind].
      rewrite (gen_read_tree_total _ _ _ _ Hden) by lia. done. }
    exists f3, (generate_parser f3 ho s). 
    assert (Hnf : generate_parser f3 ho s <> NoFuel).
    { rewrite Heq by lia. destruct (H2 f3 ltac:(lia)) as [Ha Hb']. destruct (lefts_dec s Hu rules ts HF ho Hho) as [HL|HL]; [destruct (forallb rule_emits rules)|].
      - destruct Ha as [c ->]; done.
      - destruct Hb' as [x ->]; [by intros [_ ?]|done].
      - destruct Hb' as [x ->]; [by intros [? _]|done]. }
    split; [intros fuel Hf; by apply generate_mono|]. right. exists rules. split; [done|].
    assert (Hdec : (lefts_declared rules /\ forallb rule_emits rules = true) \/ ~ (lefts_declared rules /\ forallb rule_emits rules = true)).
    { destruct (lefts_dec s Hu rules ts HF ho Hho) as [HL|HL]; [|by right; intros [? _]]. destruct (forallb rule_emits rules); [by left|by right; intros [_ ?]]. }
    destruct Hdec as [H|H]; [left|right].
    + destruct (H2 f3 ltac:(lia)) as [Ha _]. destruct (Ha H) as [c Hcode]. destruct H as [HL HE]. split; [done|]. split; [done|]. exists c. split; [by rewrite Heq by lia|].
      apply rbind_Ok_inv in Hcode as (sym & Hsym & Hcode). apply rbind_Ok_inv in Hcode as (lr & Hlr & Hcode).
      apply rbind_Ok_inv in Hcode as (c' & Hcode & Ec). injection Ec as ->.
      by eapply code_spec.
    + split; [done|]. destruct (H2 f3 ltac:(lia)) as [_ Hb']. rewrite Heq by lia. by apply Hb'.
  - exfalso. destruct Hc as [_ Hc]. cbn [p_len publisher_new] in Hc. lia.
  - done.
Qed.

(** ** Hash iteration orders do not matter *)
Lemma detector_order s (Hu : utf8 s) rules ts (Hts : Forall2 (rule_rep s) ts rules) ho ho' (Hho : orders_ok ho) (Hho' : orders_ok ho') (f f' : nat) (lr lr' : name_map name_set) :
  left_recursion_rules f ho s (TNode dsl_R_Grammar 0 0 true ts) = Ok lr ->
  left_recursion_rules f' ho' s (TNode dsl_R_Grammar 0 0 true ts) = Ok lr' -> lr = lr'.
Proof.
  intros H H'. destruct (detector_spec s Hu rules ho Hho 0 0 true ts Hts f lr H) as (_ & H1 & H2).
  destruct (detector_spec s Hu rules ho' Hho' 0 0 true ts Hts f' lr' H') as (_ & H1' & H2'). clear H H'.
  apply map_eq. intros n. specialize (H1 n). specialize (H1' n).
  destruct (lr !! n) as [S|] eqn:E; destruct (lr' !! n) as [S'|] eqn:E'.
  - f_equal. apply set_eq. intros m. rewrite (H2 _ _ E), (H2' _ _ E'). done.
  - exfalso. destruct (proj2 H1' (proj1 H1 (ex_intro _ S eq_refl))). done.
  - exfalso. destruct (proj2 H1 (proj1 H1' (ex_intro _ S' eq_refl))). done.
  - done.
Qed.
Theorem generate_order ho ho' s : utf8 s -> 1 + 30 * (N.of_nat (length s) + 1) <= u32_modulus -> orders_ok ho -> orders_ok ho' ->
  exists fuel0, forall fuel, (fuel0 <= fuel)%nat -> generate_parser fuel ho s = generate_parser fuel ho' s.
Proof.
  intros Hu Hb Hho Hho'. assert (Hs : N.of_nat (length s) < u32_modulus) by (unfold u32_modulus in *; lia).
  destruct (C24_plain_total dsl_program dsl_fn (nul_of dsl_table) (lvl_of dsl_table) tt dsl_ok (table_no_hooks _ _) dsl_wf dsl_labels dsl_labels_in
    s gen_entry _ ltac:(by rewrite dsl_labels_size) Hs gen_entry_allowed gen_entry_guarded) as (f1 & b & q & st & Hrun & _).
  enough (exists f2, forall fuel, (f2 <= fuel)%nat -> (f1 <= fuel)%nat -> generate_parser fuel ho s = generate_parser fuel ho' s) as (f2 & H).
  { exists (Nat.max f1 f2). intros fuel Hf. apply H; lia. }
  destruct (N.eq_dec q (N.of_nat (length s))) as [Hq|Hq].
  2: { exists 0%nat. intros fuel _ Hf. unfold generate_parser. change (EInline dsl_f_grammar) with gen_entry. rewrite Hrun by done. cbn [rbind].
      rewrite as_u32_small by done. destruct (N.eqb_spec q (N.of_nat (length s))); [done|]. done. }
  destruct (C15_tree_is_trace dsl_program dsl_fn s tt Hs dsl_ok gen_entry f1 b q st gen_entry_ok (Hrun f1 (le_n _))) as (F & Hd & _).
  pose proof (clear_false_total _ _ (fheight F) dsl_R_Grammar _ _ _ _ Hd (le_n _)) as Hc.
  destruct (clear_false (fheight F) dsl_R_Grammar (cx_pub (st_ctx st))) as [p'|x|] eqn:E; cbn [fine] in Hc; [| |done].
  2: { exists (fheight F). intros fuel Hf1 Hf. unfold generate_parser. change (EInline dsl_f_grammar) with gen_entry. rewrite Hrun by done. cbn [rbind].
      rewrite as_u32_small by done. destruct (N.eqb_spec q (N.of_nat (length s))); [|done]. cbn [negb].
      rewrite (clear_false_mono _ fuel _ _ _ E) by (done || lia). done. }
  destruct (file_tree s Hs _ _ _ _ _ _ (Hrun f1 (le_n _)) Hq E) as (ts & rules & Hden & HF & Hfile).
  assert (Hlr : exists f3, forall fuel, (f3 <= fuel)%nat ->
    left_recursion_rules fuel ho s (TNode dsl_R_Grammar 0 0 true ts) = left_recursion_rules fuel ho' s (TNode dsl_R_Grammar 0 0 true ts)).
  { destruct (lefts_dec s Hu rules ts HF ho Hho) as [HL|HL].
    - destruct (detector_total s Hu rules ho Hho 0 0 true ts HF HL) as (a & lr & Ha).
      destruct (detector_total s Hu rules ho' Hho' 0 0 true ts HF HL) as (a' & lr' & Ha').
      exists (Nat.max a a'). intros fuel Hf. rewrite Ha, Ha' by lia. f_equal.
      eapply (detector_order s Hu rules ts HF ho ho' Hho Hho'); [by apply Ha|by apply Ha'].
    - destruct (detector_panics s Hu rules ho Hho 0 0 true ts HF HL) as (a & Ha).
      destruct (detector_panics s Hu rules ho' Hho' 0 0 true ts HF HL) as (a' & Ha').
      exists (Nat.max a a'). intros fuel Hf. by rewrite Ha, Ha' by lia. }
  destruct Hlr as (f3 & Hlr).
  exists (Nat.max f3 (Nat.max (fheight F) (ProofGenerate.theight (TNode dsl_R_Grammar 0 0 true ts)))).
  intros fuel Hf1 Hf. unfold generate_parser. change (EInline dsl_f_grammar) with gen_entry. rewrite Hrun by done. cbn [rbind].
  rewrite as_u32_small by done. destruct (N.eqb_spec q (N.of_nat (length s))); [|done]. cbn [negb].
  rewrite (clear_false_mono _ fuel _ _ _ E) by (done || lia). cbn [rbind].
  rewrite (gen_read_tree_total _ _ _ _ Hden) by lia. cbn [rbind]. rewrite Hlr by lia. done.
Qed.
