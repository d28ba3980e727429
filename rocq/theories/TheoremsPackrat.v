(** Theorems C10 - C23: plain (left-recursion-free, hook-free) generated parsers
    against memo-free PEG semantics, and the trees they return. *)
From Verif Require Import ProofComplete ProofFuel ProofTree2 ProofSafe SpecSession Programs TheoremsKernel.

Lemma no_hooks_mono {U} (pr : program U) : no_hooks pr -> hooks_mono pr.
Proof. intros H h src f g Hfg. by rewrite !H. Qed.

Lemma expr_ok_wf {U} (pr : program U) fn e : expr_ok pr fn e -> expr_wf pr fn e.
Proof. induction e; simpl; tauto. Qed.
Lemma program_ok_wf {U} (pr : program U) fn : program_ok pr fn -> program_wf pr fn.
Proof. intros H f e He. by eapply expr_ok_wf, H. Qed.

Lemma outcome_inj b q b' q' i : (b = false -> q = i) -> (b' = false -> q' = i) ->
  outcome b q = outcome b' q' -> (b, q) = (b', q').
Proof. destruct b, b'; simpl; intros H1 H2 E; try done; [congruence|]. by rewrite H1, H2. Qed.

Section packrat.
  Context {U : Type} (pr : program U) (fn : N -> N) (s : list N) (u0 : U).
  Context (Hs : N.of_nat (length s) < u32_modulus).
  Context (Hpr : program_ok pr fn).
  Notation g := (grammar_of pr).
  Notation src := (source_new s).
  Notation len := (N.of_nat (length s)).
  Notation fresh := (PState (context_new (pr_grammar pr)) u0).

  Lemma plain_session st : session pr (expr_ok pr fn) s u0 st -> Inv pr s fn root_open st.
  Proof using Hpr Hs.
    induction 1 as [|st fuel e pos r st' _ IH He Hpos Hev].
    - by apply Inv_init.
    - pose proof (wp_Ok _ _ _ _ _ _ (eval_sound pr s fn Hs Hpr fuel e He root_open st 0 pos IH eq_refl) Hev) as HP.
      by destruct HP as (F & ks & _ & _ & ? & _).
  Qed.

  (** ** C10 *)
  Theorem C10_packrat_sound entry fuel b q st :
    expr_ok pr fn entry -> run_entry pr u0 fuel entry s = Ok ((b, q), st) ->
    peg g s (pexp_of entry) 0 (if b then Some q else None) /\ (b = false -> q = 0).
  Proof using Hpr Hs.
    intros He Hev. unfold run_entry in Hev.
    pose proof (wp_Ok _ _ _ _ _ _ (eval_sound pr s fn Hs Hpr fuel entry He root_open _ 0 0 (Inv_init pr s fn Hs u0) eq_refl) Hev) as HP.
    destruct HP as (F & ks & Ht & Hf & _). split; [|done]. by apply trace_peg in Ht.
  Qed.

  (** The same for any expression, position and reachable context. *)
  Theorem C10_packrat_sound_session st fuel e pos b q st' :
    session pr (expr_ok pr fn) s u0 st -> expr_ok pr fn e -> pos <= len ->
    eval pr src fuel e 0 pos st = Ok ((b, q), st') ->
    peg g s (pexp_of e) pos (if b then Some q else None) /\ (b = false -> q = pos).
  Proof using Hpr Hs.
    intros HS He Hpos Hev.
    pose proof (wp_Ok _ _ _ _ _ _ (eval_sound pr s fn Hs Hpr fuel e He root_open st 0 pos (plain_session st HS) eq_refl) Hev) as HP.
    destruct HP as (F & ks & Ht & Hf & _). split; [|done]. by apply trace_peg in Ht.
  Qed.

  Section bounded.
    Context (Hnh : no_hooks pr).
    Context (R : gset N) (HR : labels_in pr R).
    Context (Hbound : 1 + N.of_nat (size R) * (len + 1) <= u32_modulus).

    Definition allowed (e : expr) : Prop := expr_ok pr fn e /\ forall r, r ∈ labels e -> r ∈ R.

    Lemma complete_step st e pos o :
      Inv pr s fn root_open st -> CInv s R [] st -> allowed e -> pos <= len ->
      peg g s (pexp_of e) pos o ->
      exists m r st', eval pr src m e 0 pos st = Ok (r, st') /\ CInv s R [] st' /\
        Inv pr s fn root_open st' /\ (fst r = false -> snd r = pos) /\ outcome (fst r) (snd r) = o.
    Proof using Hbound HR Hnh Hpr Hs.
      intros HI HC [He Hl] Hpos Hpeg.
      apply peg_trace in Hpeg as [F [n Hn]%trace_run].
      edestruct (complete pr s fn Hs Hpr R HR Hbound (no_hooks_mono pr Hnh) n e pos o F Hn He Hl Hpos root_open st 0 [] HI eq_refl HC)
        as (m & r & st' & Hev & HC' & HP & Ho).
      { intros r j H. by apply elem_of_nil in H. }
      exists m, r, st'. destruct HP as (F' & ks & _ & Hf & HI' & _). done.
    Qed.

    Lemma bounded_session st : session pr allowed s u0 st -> Inv pr s fn root_open st /\ CInv s R [] st.
    Proof using Hbound HR Hnh Hpr Hs.
      induction 1 as [|st fuel e pos r st' _ [HI HC] He Hpos Hev].
      - split; [by apply Inv_init|apply CInv_init].
      - pose proof (wp_Ok _ _ _ _ _ _ (eval_sound pr s fn Hs Hpr fuel e (proj1 He) root_open st 0 pos HI eq_refl) Hev) as HP.
        destruct HP as (F & ks & Ht & _ & HI' & _). split; [done|].
        apply trace_peg in Ht.
        destruct (complete_step st e pos _ HI HC He Hpos Ht) as (m & r' & st'' & Hev' & HC' & _).
        pose proof (eval_unique pr src (no_hooks_mono pr Hnh) _ _ _ _ _ _ _ _ Hev Hev') as E. by simplify_eq.
    Qed.

    (** ** C11 *)
    Theorem C11_packrat_complete entry o :
      expr_ok pr fn entry -> (forall r, r ∈ labels entry -> r ∈ R) ->
      peg g s (pexp_of entry) 0 o ->
      exists fuel0 (b : bool) q st, (if b then Some q else None) = o /\ (b = false -> q = 0) /\
        forall fuel, (fuel0 <= fuel)%nat -> run_entry pr u0 fuel entry s = Ok ((b, q), st).
    Proof using Hbound HR Hnh Hpr Hs.
      intros He Hl Hpeg.
      destruct (complete_step fresh entry 0 o) as (m & [b q] & st' & Hev & _ & _ & Hf & Ho);
        [by apply Inv_init|apply CInv_init|done|lia|done|].
      exists m, b, q, st'. split; [done|]. split; [done|]. intros fuel Hfu.
      eapply eval_mono_Ok; [by apply no_hooks_mono|exact Hev|done].
    Qed.

    (** ** C12: the answer does not depend on the history. *)
    Theorem C12_memo_transparent st e pos fuel r st' :
      session pr allowed s u0 st -> allowed e -> pos <= len ->
      eval pr src fuel e 0 pos fresh = Ok (r, st') ->
      exists fuel0 st'', forall fuel', (fuel0 <= fuel')%nat -> eval pr src fuel' e 0 pos st = Ok (r, st'').
    Proof using Hbound HR Hnh Hpr Hs.
      intros [HI HC]%bounded_session He Hpos Hev.
      pose proof (wp_Ok _ _ _ _ _ _ (eval_sound pr s fn Hs Hpr fuel e (proj1 He) root_open _ 0 pos (Inv_init pr s fn Hs u0) eq_refl) Hev) as HP.
      destruct HP as (F & ks & Ht & Hf & _). apply trace_peg in Ht.
      destruct (complete_step st e pos _ HI HC He Hpos Ht) as (m & [b' q'] & st'' & Hev' & _ & _ & Hf' & Ho).
      exists m, st''. intros fuel' Hfu.
      assert (r = (b', q')) as ->.
      { destruct r as [b q]. symmetry. by eapply outcome_inj. }
      eapply eval_mono_Ok; [by apply no_hooks_mono|exact Hev'|done].
    Qed.

    (** ** C13 *)
    Theorem C13_one_node_per_rule_and_position st :
      session pr allowed s u0 st ->
      p_len (cx_pub (st_ctx st)) = 1 + N.of_nat (size (c_memo (cx_cache (st_ctx st)))) /\
      (forall r i, is_Some (check (st_ctx st) r i) -> r ∈ R /\ i <= len) /\
      p_len (cx_pub (st_ctx st)) <= 1 + N.of_nat (size R) * (len + 1).
    Proof using Hbound HR Hnh Hpr Hs.
      intros [_ HC]%bounded_session. split; [|split].
      - pose proof (ci_len _ _ _ _ HC) as H. simpl in H. lia.
      - apply (ci_memo _ _ _ _ HC).
      - by eapply CInv_bound.
    Qed.

    (** ** C14 *)
    Theorem C14_no_panic st e pos o fuel x :
      session pr allowed s u0 st -> allowed e -> pos <= len ->
      peg g s (pexp_of e) pos o -> eval pr src fuel e 0 pos st <> Panic x.
    Proof using Hbound HR Hnh Hpr Hs.
      intros [HI HC]%bounded_session He Hpos Hpeg.
      destruct (complete_step st e pos _ HI HC He Hpos Hpeg) as (m & r & st'' & Hev' & _).
      eapply eval_no_panic; [by apply no_hooks_mono|exact Hev'].
    Qed.
  End bounded.

  (** Even where the grammar has no answer (diverges), the only panic is running
      out of 32-bit node keys. *)
  Theorem C14_only_key_exhaustion st e pos fuel x :
    session pr (expr_ok pr fn) s u0 st -> expr_ok pr fn e ->
    eval pr src fuel e 0 pos st = Panic x -> x = PKeyOverflow.
  Proof using Hpr Hs.
    intros HS He Hev.
    pose proof (eval_sound pr s fn Hs Hpr fuel e He root_open st 0 pos (plain_session st HS) eq_refl) as HP.
    unfold wp in HP. by rewrite Hev in HP.
  Qed.

  (** ** C15 *)
  Theorem C15_tree_is_trace entry fuel b q st :
    expr_ok pr fn entry -> run_entry pr u0 fuel entry s = Ok ((b, q), st) ->
    exists F, denotes (cx_pub (st_ctx st)) (TNode (pr_grammar pr) 0 0 true F) /\
      trace g s (pexp_of entry) 0 (if b then Some q else None) F.
  Proof using Hpr Hs.
    intros He Hev. unfold run_entry in Hev.
    pose proof (wp_Ok _ _ _ _ _ _ (eval_sound pr s fn Hs Hpr fuel entry He root_open _ 0 0 (Inv_init pr s fn Hs u0) eq_refl) Hev) as HP.
    destruct HP as (F & ks & Ht & Hf & HI & Hgr & Hu & _). exists F. split; [|done].
    assert (H0 : p_nodes (cx_pub (st_ctx st)) !! 0 = Some (Node 0 (pr_grammar pr) 0 0 true ks)).
    { apply (gr_parent _ _ _ _ Hgr (Node 0 (pr_grammar pr) 0 0 true [])). done. }
    refine (unf _ _ 0 _ F _ H0 _); [by intros []|]. simpl.
    revert Hu. apply unfolds_frame. intros k n Hk _. split; [by intros []|done].
  Qed.
  (** The trace is a function of grammar and input, so the tree is. *)
  Theorem C15_trace_deterministic e i o F o' F' :
    trace g s e i o F -> trace g s e i o' F' -> o = o' /\ F = F'.
  Proof. apply trace_det. Qed.
End packrat.

(** ** C16: all well-formed programs, left-recursive and hooked ones included. *)
Section C16.
  Context {U : Type} (pr : program U) (fn : N -> N) (s : list N) (u0 : U).
  Context (Hs : N.of_nat (length s) < u32_modulus) (Hpr : program_wf pr fn).
  Context (Pp : panic -> Prop) (HPp : Pp PKeyOverflow).
  Context (Hhooks : hooks_behave (N.of_nat (length s)) (memo_claim pr s fn) Pp pr (source_new s)).

  (** Below every node of the store hangs a finite tree, i.e. no cycles and no
      dangling keys. *)
  Theorem C16_finite_trees st k :
    session pr (expr_wf pr fn) s u0 st -> k < p_len (cx_pub (st_ctx st)) ->
    exists t, unfolds nothing (cx_pub (st_ctx st)) k t.
  Proof using HPp Hhooks Hpr Hs.
    intros HS Hk. pose proof (session_usable pr fn s u0 Hs Hpr Pp HPp Hhooks st HS) as HU.
    apply closed_unfolds. destruct (decide (k = 0)) as [->|Hne].
    - apply (us_keys _ _ _ _ HU) in Hk as [n Hn]. econstructor; [by intros []|exact Hn|].
      intros c Hc. apply (closed_weaken root_open); [by intros x []|].
      eapply (us_below _ _ _ _ HU); [|exact Hn|exact Hc]. done.
    - apply (closed_weaken root_open); [by intros x []|]. by apply (us_all _ _ _ _ HU).
  Qed.

  (** Hence clear_false terminates on it (it can only run out of keys, when
      the unshared copy exceeds 2^32 nodes), == terminates, print terminates;
      none of them meets a dangling key. *)
  Theorem C16_clear_false_terminates st gr :
    session pr (expr_wf pr fn) s u0 st ->
    exists fuel0, forall fuel, (fuel0 <= fuel)%nat ->
      (exists p', clear_false fuel gr (cx_pub (st_ctx st)) = Ok p') \/
      clear_false fuel gr (cx_pub (st_ctx st)) = Panic PKeyOverflow.
  Proof using HPp Hhooks Hpr Hs.
    intros HS. pose proof (session_usable pr fn s u0 Hs Hpr Pp HPp Hhooks st HS) as HU.
    destruct (C16_finite_trees st 0 HS) as [[l i j b F] Ht].
    { by apply (us_open _ _ _ _ HU). }
    exists (fheight F). intros fuel Hf. destruct b.
    - pose proof (clear_false_total _ _ fuel gr _ _ _ _ Ht Hf) as H.
      destruct (clear_false fuel gr (cx_pub (st_ctx st))) as [p'|x|]; cbn [fine] in H; [eauto| |done].
      destruct H as [-> _]. by right.
    - left. inversion Ht as [k n F' HnO Hn HF Hk [E1 E2 E3 Hb E5]]; subst.
      unfold clear_false, get_node. rewrite Hn. cbn [rbind]. rewrite Hb. eauto.
  Qed.

  Theorem C16_print_terminates st k mode :
    session pr (expr_wf pr fn) s u0 st -> k < p_len (cx_pub (st_ctx st)) ->
    exists fuel0, forall fuel, (fuel0 <= fuel)%nat -> exists out, print fuel (cx_pub (st_ctx st)) k mode = Ok out.
  Proof using HPp Hhooks Hpr Hs.
    intros HS Hk. destruct (C16_finite_trees st k HS Hk) as [t Ht]. exists (theight t).
    intros fuel Hf. by eapply print_total.
  Qed.
End C16.

(** ** C17: clear_false = prune, for every store that denotes a finite tree
    whose root succeeded (raw parse trees do, C15/C16). *)
Theorem C17_clear_false_prunes p gr l i j F :
  denotes p (TNode l i j true F) -> 2 + fsize (prune_forest F) <= u32_modulus ->
  exists fuel0 p', (forall fuel, (fuel0 <= fuel)%nat -> clear_false fuel gr p = Ok p') /\
    denotes p' (TNode gr 0 0 true (prune_forest F)).
Proof.
  intros Hd Hsz.
  destruct (clear_false_spec _ p (fheight F) gr _ _ _ _ _ Hd ltac:(lia) Hsz) as (p' & E & _ & Hd').
  exists (fheight F), p'. split; [|done]. intros fuel Hf. by eapply clear_false_mono.
Qed.
Theorem C17_any_answer p fuel gr l i j F p' :
  denotes p (TNode l i j true F) -> clear_false fuel gr p = Ok p' ->
  denotes p' (TNode gr 0 0 true (prune_forest F)).
Proof. intros Hd Hc. by destruct (clear_false_denotes _ _ _ _ _ _ _ _ Hd Hc). Qed.

(** What parse returns. *)
Theorem C17_parse_tree {U} (pr : program U) fn s u0 entry fuel b q p' :
  N.of_nat (length s) < u32_modulus -> program_ok pr fn -> expr_ok pr fn entry ->
  parse_with pr u0 fuel entry s = Ok (b, q, p') ->
  exists F, trace (grammar_of pr) s (pexp_of entry) 0 (if b then Some q else None) F /\
    denotes p' (TNode (pr_grammar pr) 0 0 true (prune_forest F)).
Proof.
  intros Hs Hpr He. unfold parse_with.
  destruct (run_entry pr u0 fuel entry s) as [[[b0 q0] st]| |] eqn:Er; cbn [rbind]; [|done|done].
  destruct (clear_false fuel (pr_grammar pr) (cx_pub (st_ctx st))) as [t| |] eqn:Ec; cbn [rbind]; [|done|done].
  intros [= <- <- <-].
  destruct (C15_tree_is_trace pr fn s u0 Hs Hpr entry fuel b0 q0 st He Er) as (F & Hd & Ht).
  exists F. split; [done|]. by eapply C17_any_answer.
Qed.

(** A node is dropped iff it failed or is empty, or hangs below such a node:
    [prune_forest] keeps, in order, exactly the trees whose root is successful
    and non-empty, recursively. *)
Theorem C17_prune_keeps t F :
  t ∈ prune_forest F <-> exists u, u ∈ F /\ t_ok u = true /\ t_start u <> t_end u /\ t = prune u.
Proof.
  split.
  - intros (u & Hu & Hk & ->)%prune_forest_elem. exists u. unfold keep in Hk.
    apply andb_true_iff in Hk as [H1 H2]. apply negb_true_iff, N.eqb_neq in H2. done.
  - intros (u & Hu & H1 & H2 & ->). apply prune_forest_complete; [done|]. unfold keep.
    rewrite H1. simpl. by apply negb_true_iff, N.eqb_neq.
Qed.

(** ** C19 *)
Theorem C19_eq_structural p q t u :
  denotes p t -> denotes q u ->
  exists fuel0 r, (forall fuel, (fuel0 <= fuel)%nat -> publisher_eq fuel p q = Ok r) /\ (r = true <-> t = u).
Proof.
  intros Ht Hu. destruct (partial_eq_spec _ p _ q (theight t) t u 0 0 Ht Hu) as (r & E & Hr); [lia|].
  exists (theight t), r. split; [|done]. intros fuel Hf. unfold publisher_eq. by eapply partial_eq_mono.
Qed.
Lemma eq_answer p q t u fuel r :
  denotes p t -> denotes q u -> publisher_eq fuel p q = Ok r -> (r = true <-> t = u).
Proof.
  intros Ht Hu E. destruct (C19_eq_structural p q t u Ht Hu) as (fuel0 & r' & E' & Hr).
  unfold publisher_eq in *. apply (partial_eq_mono _ _ _ (Nat.max fuel fuel0)) in E; [|done|lia].
  rewrite E' in E by lia. by simplify_eq.
Qed.
Theorem C19_eq_refl p t fuel r : denotes p t -> publisher_eq fuel p p = Ok r -> r = true.
Proof. intros Ht E. by apply (eq_answer _ _ _ _ _ _ Ht Ht E). Qed.
Theorem C19_eq_sym p q t u fuel fuel' r r' : denotes p t -> denotes q u ->
  publisher_eq fuel p q = Ok r -> publisher_eq fuel' q p = Ok r' -> r = r'.
Proof.
  intros Ht Hu E E'. pose proof (eq_answer _ _ _ _ _ _ Ht Hu E) as H1. pose proof (eq_answer _ _ _ _ _ _ Hu Ht E') as H2.
  apply eq_bool_prop_intro. split; intros H%Is_true_eq_true; apply Is_true_eq_left; [apply H2; symmetry|apply H1; symmetry]; tauto.
Qed.
Theorem C19_eq_trans p q w t u v f1 f2 f3 r : denotes p t -> denotes q u -> denotes w v ->
  publisher_eq f1 p q = Ok true -> publisher_eq f2 q w = Ok true -> publisher_eq f3 p w = Ok r -> r = true.
Proof.
  intros Ht Hu Hv E1 E2 E3. apply (eq_answer _ _ _ _ _ _ Ht Hu) in E1. apply (eq_answer _ _ _ _ _ _ Hu Hv) in E2.
  apply (eq_answer _ _ _ _ _ _ Ht Hv E3). assert (t = u) by tauto. assert (u = v) by tauto. congruence.
Qed.

(** ** C18 *)
Theorem C18_clear_false_idempotent p gr l i j F f1 f2 f3 p1 p2 r :
  denotes p (TNode l i j true F) ->
  clear_false f1 gr p = Ok p1 -> clear_false f2 gr p1 = Ok p2 ->
  publisher_eq f3 p1 p2 = Ok r -> r = true.
Proof.
  intros Hd H1 H2 H3. pose proof (C17_any_answer _ _ _ _ _ _ _ _ Hd H1) as Hd1.
  pose proof (C17_any_answer _ _ _ _ _ _ _ _ Hd1 H2) as Hd2. rewrite prune_forest_idem in Hd2.
  by apply (eq_answer _ _ _ _ _ _ Hd1 Hd2 H3).
Qed.
(** ... and the second clear_false and the comparison do answer. *)
Theorem C18_second_pass_answers p gr l i j F f1 p1 :
  denotes p (TNode l i j true F) -> clear_false f1 gr p = Ok p1 ->
  exists fuel0 p2, forall fuel, (fuel0 <= fuel)%nat ->
    clear_false fuel gr p1 = Ok p2 /\ publisher_eq fuel p1 p2 = Ok true.
Proof.
  intros Hd H1. destruct (clear_false_denotes _ _ _ _ _ _ _ _ Hd H1) as [Hd1 Hsz].
  rewrite <-prune_forest_idem in Hsz.
  destruct (C17_clear_false_prunes p1 gr _ _ _ _ Hd1 Hsz) as (fu & p2 & E & Hd2). rewrite prune_forest_idem in Hd2.
  destruct (C19_eq_structural p1 p2 _ _ Hd1 Hd2) as (fu' & r & E' & Hr).
  exists (Nat.max fu fu'), p2. intros fuel Hf. split; [apply E; lia|]. rewrite E' by lia. f_equal. by apply Hr.
Qed.

(** ** C20, C21, C23: what a node of a returned tree says. *)
Section nodes.
  Context {U : Type} (pr : program U) (fn : N -> N) (s : list N) (u0 : U).
  Context (Hs : N.of_nat (length s) < u32_modulus) (Hpr : program_ok pr fn).
  Context (entry : expr) (He : expr_ok pr fn entry).
  Notation g := (grammar_of pr).
  Notation len := (N.of_nat (length s)).

  Lemma g_labels A body : g A = Some body -> plabels_ok fn body.
  Proof using Hpr.
    unfold grammar_of. destruct (pr_fn pr A) as [e|] eqn:E; [|done]. simpl. intros [= <-].
    eapply expr_ok_labels. by eapply Hpr.
  Qed.

  (** Every node below the root of the raw tree. *)
  Lemma raw_nodes F o u t : trace g s (pexp_of entry) 0 o F -> t ∈ F -> subtree u t ->
    justified g s fn u /\ t_start u <= t_end u <= len.
  Proof using He Hpr Hs.
    intros Htr Ht Hu. split.
    - eapply trace_justified; [exact g_labels|exact Htr|by eapply expr_ok_labels|exact Ht|exact Hu].
    - eapply (trace_subtree_bounds g s fn g_labels) in Hu; [|exact Htr|by eapply expr_ok_labels|lia|exact Ht]. lia.
  Qed.

  Lemma clean_nodes F o u t : trace g s (pexp_of entry) 0 o F -> t ∈ prune_forest F -> subtree u t ->
    exists v w, w ∈ F /\ subtree v w /\ keep v = true /\ u = prune v.
  Proof.
    intros Htr Ht Hu. apply prune_forest_elem in Ht as (w & Hw & Hk & ->).
    apply subtree_prune in Hu as [->|(v & Hv & _ & -> & Hkv)].
    - exists w, w. split; [done|]. split; [constructor|done].
    - by exists v, w.
  Qed.

  Theorem C20_nodes_justified fuel b q p' l i j b' G t u :
    parse_with pr u0 fuel entry s = Ok (b, q, p') ->
    denotes p' (TNode l i j b' G) -> t ∈ G -> subtree u t ->
    t_ok u = true /\ t_start u < t_end u <= len /\
    peg g s (PRef (Some (t_label u)) (fn (t_label u))) (t_start u) (Some (t_end u)).
  Proof using He Hpr Hs.
    intros Hp Hd Ht Hu.
    destruct (C17_parse_tree pr fn s u0 entry fuel b q p' Hs Hpr He Hp) as (F & Htr & Hd').
    destruct (unfolds_det nothing nothing p') as [Hdet _].
    pose proof (Hdet _ _ Hd _ Hd') as E. simplify_eq.
    destruct (clean_nodes F _ u t Htr Ht Hu) as (v & w & Hw & Hv & Hk & ->).
    destruct (raw_nodes F _ v w Htr Hw Hv) as [[Hj _] Hb].
    unfold keep in Hk. apply andb_true_iff in Hk as [Hk1 Hk2]. apply negb_true_iff, N.eqb_neq in Hk2.
    rewrite Hk1 in Hj. simpl in Hj. apply trace_peg in Hj.
    destruct v as [lv iv jv bv Fv]. rewrite prune_eq. simpl in *. split; [done|]. split; [lia|done].
  Qed.

  (** C21, raw tree. *)
  Theorem C21_raw_tree fuel b q st l i j b' G t u c :
    run_entry pr u0 fuel entry s = Ok ((b, q), st) ->
    denotes (cx_pub (st_ctx st)) (TNode l i j b' G) -> t ∈ G -> subtree u t -> c ∈ t_children u ->
    t_start u <= t_end u <= len /\ t_start u <= t_start c /\ t_start c <= t_end c <= len.
  Proof using He Hpr Hs.
    intros Hr Hd Ht Hu Hc.
    destruct (C15_tree_is_trace pr fn s u0 Hs Hpr entry fuel b q st He Hr) as (F & Hd' & Htr).
    destruct (unfolds_det nothing nothing (cx_pub (st_ctx st))) as [Hdet _].
    pose proof (Hdet _ _ Hd _ Hd') as E. simplify_eq.
    destruct (raw_nodes F _ u t Htr Ht Hu) as [Hj Hb].
    assert (Hsub : subtree c t).
    { eapply subtree_trans; [|exact Hu]. destruct u. simpl in Hc. econstructor; [exact Hc|constructor]. }
    destruct (raw_nodes F _ c t Htr Ht Hsub) as [_ Hbc].
    split; [done|]. split; [|done]. by eapply justified_child_start.
  Qed.

  Theorem C21_clean_tree fuel b q p' l i j b' G t u c :
    parse_with pr u0 fuel entry s = Ok (b, q, p') ->
    denotes p' (TNode l i j b' G) -> t ∈ G -> subtree u t -> c ∈ t_children u ->
    t_start u <= t_end u <= len /\ t_start u <= t_start c /\ t_start c <= t_end c <= len.
  Proof using He Hpr Hs.
    intros Hp Hd Ht Hu Hc.
    destruct (C17_parse_tree pr fn s u0 entry fuel b q p' Hs Hpr He Hp) as (F & Htr & Hd').
    destruct (unfolds_det nothing nothing p') as [Hdet _].
    pose proof (Hdet _ _ Hd _ Hd') as E. simplify_eq.
    destruct (clean_nodes F _ u t Htr Ht Hu) as (v & w & Hw & Hv & Hk & ->).
    destruct (raw_nodes F _ v w Htr Hw Hv) as [Hj Hb].
    destruct v as [lv iv jv bv Fv]. rewrite prune_eq in *. simpl in Hc |- *.
    apply prune_forest_elem in Hc as (d & Hd2 & _ & ->).
    assert (Hsub : subtree d w).
    { eapply subtree_trans; [|exact Hv]. econstructor; [exact Hd2|constructor]. }
    destruct (raw_nodes F _ d w Htr Hw Hsub) as [_ Hbc].
    assert (t_start (TNode lv iv jv bv Fv) <= t_start d) by (by eapply justified_child_start).
    destruct d. rewrite prune_eq. simpl in *. lia.
  Qed.

  (** C23: the text of any node of the returned tree, root included. *)
  Theorem C23_node_text fuel b q p' k n :
    Forall (fun c => c < 128) s ->
    parse_with pr u0 fuel entry s = Ok (b, q, p') ->
    reach p' 0 k -> p_nodes p' !! k = Some n ->
    node_get_string n s = Ok (sublist s (n_start n) (n_end n)).
  Proof using He Hpr Hs.
    intros Ha Hp Hreach Hn.
    destruct (C17_parse_tree pr fn s u0 entry fuel b q p' Hs Hpr He Hp) as (F & Htr & Hd').
    destruct (reach_subtree _ _ _ _ _ Hd' Hreach) as (u & Hu & Hsub).
    inversion Hu as [? n' Fu _ Hn' HFu]; subst. simplify_eq.
    assert (Hb : n_start n <= n_end n <= len).
    { inversion Hsub as [E|l0 i0 j0 b0 F0 w Hw Hs0]; subst.
      - simplify_eq; lia.
      - destruct (clean_nodes F _ _ w Htr Hw Hs0) as (v & w' & Hw' & Hv & Hk & Ev).
        destruct (raw_nodes F _ v w' Htr Hw' Hv) as [_ Hb]. destruct v. rewrite prune_eq in Ev.
        simplify_eq. simpl in Hb. lia. }
    unfold node_get_string. by apply ascii_slice.
  Qed.
End nodes.

(** On arbitrary text, a span inside the text fails to be sliced only if one of
    its ends is not a character boundary. *)
Theorem C23_only_inside_characters n s x :
  n_start n <= n_end n <= N.of_nat (length s) -> node_get_string n s = Panic x ->
  is_char_boundary s (n_start n) = false \/ is_char_boundary s (n_end n) = false.
Proof.
  intros [H1 H2]. unfold node_get_string, slice_str.
  rewrite (proj2 (N.leb_le _ _) H1), (proj2 (N.leb_le _ _) H2). simpl.
  destruct (is_char_boundary s (n_start n)), (is_char_boundary s (n_end n)); simpl; try done; tauto.
Qed.

(** ** C22 (false of the code) *)
(** <Grammar> = (<B>, 'x') / 'a' ;  <B> = 'a', 'b' ;  on "abz". *)
Definition c22_program : program unit := table_program
  [ EChoice (ESub (ESeq (EVar 1 1) (ETerminal 120))) (ETerminal 97);
    ESeq (ETerminal 97) (ETerminal 98) ] 0.
Definition C22_property : Prop :=
  forall (pr : program unit) fn s entry fuel b q p' l i j b' G t u c,
    N.of_nat (length s) < u32_modulus -> program_ok pr fn -> expr_ok pr fn entry ->
    parse_with pr tt fuel entry s = Ok (b, q, p') ->
    denotes p' (TNode l i j b' G) -> t ∈ G -> subtree u t -> c ∈ t_children u -> t_end c <= t_end u.

(** Reading a tree off a store by computation. *)
Fixpoint read_tree (fuel : nat) (p : publisher) (k : N) : option ptree :=
  match fuel with
  | O => None
  | S fuel =>
    n ← p_nodes p !! k;
    F ← (fix go (l : list N) : option (list ptree) :=
           match l with
           | [] => Some []
           | c :: l => t ← read_tree fuel p c; F ← go l; Some (t :: F)
           end) (n_children n);
    Some (TNode (n_rule n) (n_start n) (n_end n) (n_result n) F)
  end.
Lemma read_tree_denotes fuel p : forall k t, read_tree fuel p k = Some t -> unfolds nothing p k t.
Proof.
  induction fuel as [|fuel IH]; intros k t H; [done|]. cbn [read_tree] in H.
  apply bind_Some in H as (n & Hn & H). apply bind_Some in H as (F & HF & [= <-]).
  econstructor; [by intros []|exact Hn|]. clear Hn.
  revert F HF. induction (n_children n) as [|c l IHl]; intros F HF; [injection HF as <-; constructor|].
  apply bind_Some in HF as (t & Ht & HF). apply bind_Some in HF as (F' & HF' & [= <-]).
  constructor; [by apply IH|by apply IHl].
Qed.

Lemma c22_program_ok : program_ok c22_program id.
Proof.
  intros f e Hf. cbn in Hf. unfold id. 
  destruct (N.to_nat f) as [|[|m]]; cbn in Hf; simplify_eq; cbn; eauto 10.
Qed.
Theorem C22_refuted : ~ C22_property.
Proof.
  intros H.
  destruct (parse_with c22_program tt 20 (EVar 0 0) (bytes "abz")) as [[[b q] p']| |] eqn:E;
    [|by vm_compute in E|by vm_compute in E].
  destruct (read_tree 10 p' 0) as [[l i j b' G]|] eqn:Et.
  2:{ vm_compute in E. injection E as <- <- <-. by vm_compute in Et. }
  specialize (H c22_program id (bytes "abz") (EVar 0 0) 20%nat b q p' l i j b' G).
  assert (HG : G = [TNode 0 0 1 true [TNode 1 0 2 true []]]).
  { vm_compute in E. injection E as <- <- <-. vm_compute in Et. by injection Et as <- <- <- <- <-. }
  specialize (H (TNode 0 0 1 true [TNode 1 0 2 true []]) (TNode 0 0 1 true [TNode 1 0 2 true []]) (TNode 1 0 2 true [])).
  assert (Hf : 2 <= 1); [|lia]. apply H.
  - done.
  - apply c22_program_ok.
  - split; [done|]. by eexists.
  - done.
  - by eapply read_tree_denotes.
  - rewrite HG. by apply elem_of_list_singleton.
  - constructor.
  - by apply elem_of_list_singleton.
Qed.
