(** Theorem C53: the calculators of examples 1, 3 and 4 compute. *)
From Coq Require Import ZArith.
From Verif Require Import SpecExact SpecSafe SpecSession SpecUtf8 SpecExamples ProofPeg ProofSound ProofSafe ProofFuel ProofTree ProofTree2 Checks TheoremsKernel TheoremsPackrat
  TheoremsExamples TheoremsGenerator TheoremsExact.
From Verif Require Import SpecCalc Calc ProofArith ProofUnambiguous ProofCalcPeg ProofCalcTree ProofCalcSound.
Local Open Scope N_scope.

(** ** The notation is unambiguous *)
(** What is written down determines the expression: no two expressions - in
    any of the three languages - are written the same way. *)
Theorem C53_unambiguous d a b : well_formed d a = true -> well_formed d b = true -> text a = text b -> a = b.
Proof. apply text_unique. Qed.

(** ** 64-bit arithmetic and arithmetic *)
(** Where there is a value it is the mathematical one, as long as all exponents
    are from 0 to 2^32 - 1 ... *)
Theorem C53_value_is_meaning a v : small_exponents a -> value a = Some v -> meaning a = Some v.
Proof. apply value_meaning. Qed.
(** ... and there is a value, the mathematical one, when all parts fit. *)
Theorem C53_meaning_is_value a : parts_fit a -> value a = meaning a.
Proof. apply meaning_value. Qed.

(** ** What a calculator does *)
(** The syntax tree needs more than 2^32 keys, in the parser or when
    evaluate_tree copies it. *)
Definition outgrown (r : res (bool * N * res Z)) : Prop := r = Panic PKeyOverflow \/ exists b q, r = Ok (b, q, Panic PKeyOverflow).
(** The parser, then the evaluator on its tree, for every input [s] and any
    sufficient amount of fuel: [b] and [q] are the answer of the parser, [v] is
    what evaluate_tree returns.  Matched input is the text of an expression
    (only one, by C53_unambiguous), and the result is its value; rejected input
    is not the text of any expression. *)
Definition calculator (d : dialect) (pr : program unit) (entry : expr) (evaluate : nat -> publisher -> list N -> res Z) (rejected : res Z) : Prop :=
  forall s, utf8 s -> N.of_nat (length s) < u32_modulus -> exists fuel0,
    (forall fuel, (fuel0 <= fuel)%nat -> outgrown (calculate pr entry evaluate fuel s)) \/
    (exists q a, well_formed d a = true /\ q <= N.of_nat (length s) /\ text a = take (N.to_nat q) s /\
       forall fuel, (fuel0 <= fuel)%nat -> exists v, calculate pr entry evaluate fuel s = Ok (true, q, v) /\ agrees v (value a)) \/
    ((forall a, well_formed d a = true -> s <> text a) /\
       forall fuel, (fuel0 <= fuel)%nat -> calculate pr entry evaluate fuel s = Ok (false, 0, rejected)).
(** And it accepts the whole of every expression. *)
Definition calculates (d : dialect) (pr : program unit) (entry : expr) (evaluate : nat -> publisher -> list N -> res Z) : Prop :=
  forall a, well_formed d a = true -> N.of_nat (length (text a)) < u32_modulus -> exists fuel0,
    (forall fuel, (fuel0 <= fuel)%nat -> outgrown (calculate pr entry evaluate fuel (text a))) \/
    (forall fuel, (fuel0 <= fuel)%nat -> exists v,
       calculate pr entry evaluate fuel (text a) = Ok (true, N.of_nat (length (text a)), v) /\ agrees v (value a)).

Lemma text_ascii d a : well_formed d a = true -> forallb (fun c => c <? 128) (text a) = true.
Proof.
  assert (HD : forall l, forallb digit l = true -> forallb (fun c => c <? 128) l = true).
  { intros l. rewrite !forallb_forall. intros H c Hc. apply H in Hc. unfold digit in Hc. apply andb_true_iff in Hc as [_ Hc%N.leb_le]. apply N.ltb_lt. lia. }
  assert (HS : forall l, sign l = true -> forallb (fun c => c <? 128) l = true).
  { intros l H%sign_cases. by destruct H as [->|[->| ->]]. }
  induction a as [sg ds fr ex|o l IHl r IHr|a IH]; intros H.
  - apply wf_number in H as [(S & D & F & X) Z]. apply digits_ok in D as [_ D]. cbn [text]. rewrite !forallb_app. rewrite HS, HD by done. cbn [andb].
    apply andb_true_iff. split.
    + destruct fr as [l|]; [|done]. cbn [frac_text forallb]. apply digits_ok in F as [_ F]. by rewrite HD.
    + destruct ex as [[[c sg'] l]|]; [|done]. cbn [expo_text forallb]. destruct X as (X1 & X2 & X3). apply digits_ok in X3 as [_ X3].
      rewrite forallb_app, HS, HD by done. by destruct X1 as [->| ->].
  - cbn [well_formed] in H. rewrite !andb_true_iff in H. destruct H as [[[_ H1] H2] _]. cbn [text]. rewrite forallb_app. cbn [forallb].
    rewrite IHl, IHr by done. by destruct o.
  - cbn [text forallb]. rewrite forallb_app, IH; [done|]. by destruct d.
Qed.

Section assemble.
  Context (d : dialect) (table : list expr) (gr : N) (entries : list (N * N)) (Pl : list N) (entry : expr) (spec : pgrammar).
  Notation pr := (table_program (U:=unit) table gr).
  Context (kernel : publisher -> list N -> nat -> node -> res Z) (rejected : res Z).
  Notation evaluate := (fun fuel => evaluate_tree gr kernel fuel).
  Context (HW : forallb (fun x => expr_wfb pr (fn_of table entries) (snd x)) (imap pair table) = true).
  Context (HE : expr_wfb pr (fn_of table entries) entry = true).
  Context (Hexact : exact_example table gr entries Pl entry) (Hmeans : means pr spec entry).
  Context (Hsound : forall s, utf8 s -> forall q D, lderiv (grammar_of pr) s (in_list Pl) (pexp_of entry) 0 q D ->
    exists a, well_formed d a = true /\ span s 0 q (text a) /\
      forall p k n, p_nodes p !! k = Some n -> n_rule n = gr -> unfolds_list nothing p (n_children n) (prune_forest D) ->
        exists f0, forall fuel, (f0 <= fuel)%nat -> agrees (kernel p s fuel n) (value a)).
  Context (Hrej : forall p s fuel n, n_rule n = gr -> n_children n = [] -> kernel p s (S fuel) n = rejected).
  Context (Hcomplete : forall a, well_formed d a = true -> peg spec (text a) (pexp_of entry) 0 (Some (N.of_nat (length (text a))))).

  Lemma cleared s st b q fuel : N.of_nat (length s) < u32_modulus -> run_entry pr tt fuel entry s = Ok ((b, q), st) ->
    exists fuel0, (forall fuel, (fuel0 <= fuel)%nat -> clear_false fuel gr (cx_pub (st_ctx st)) = Panic PKeyOverflow) \/
      (exists p' G, (forall fuel, (fuel0 <= fuel)%nat -> clear_false fuel gr (cx_pub (st_ctx st)) = Ok p') /\ denotes p' (TNode gr 0 0 true G)).
  Proof using HW HE.
    intros Hs Hr. assert (Hwf : program_wf pr (fn_of table entries)) by (by apply check_wf). assert (Hnh : no_hooks pr) by apply table_no_hooks.
    assert (Hhk : hooks_behave (N.of_nat (length s)) (memo_claim pr s (fn_of table entries)) (eq PKeyOverflow) pr (source_new s)) by (by apply no_hooks_behave).
    assert (HS : session pr (expr_wf pr (fn_of table entries)) s tt st).
    { eapply session_call; [apply session_fresh|by apply expr_wfb_ok| |exact Hr]. lia. }
    destruct (C16_clear_false_terminates pr (fn_of table entries) s tt Hs Hwf (eq PKeyOverflow) eq_refl Hhk st gr HS) as [f0 Hf].
    exists f0. destruct (Hf f0 (Nat.le_refl _)) as [[p' Hp]|Hp].
    - right. destruct (C16_finite_trees pr (fn_of table entries) s tt Hs Hwf (eq PKeyOverflow) eq_refl Hhk st 0 HS) as [[l i j b' F] Ht].
      { pose proof (session_usable pr (fn_of table entries) s tt Hs Hwf (eq PKeyOverflow) eq_refl Hhk st HS) as HU. by apply (us_open _ _ _ _ HU). }
      destruct b'.
      + exists p', (prune_forest F). split; [intros fuel' Hl; by eapply clear_false_mono|]. by eapply C17_any_answer.
      + exists p', []. split; [intros fuel' Hl; by eapply clear_false_mono|].
        inversion Ht as [k n F0 HnO Hn HF Hk [E1 E2 E3 Hb E5]]; subst. unfold clear_false, get_node in Hp. rewrite Hn in Hp. cbn [rbind] in Hp. rewrite Hb in Hp. injection Hp as <-.
        apply (unf nothing _ 0 (Node 0 gr 0 0 true []) []); [by intros []|by simpl|constructor].
    - left. intros fuel' Hl. by eapply clear_false_mono.
  Qed.

  (** The last two cases of [calculator]. *)
  Definition answered (s : list N) (fuel0 : nat) : Prop :=
    (exists q a, well_formed d a = true /\ q <= N.of_nat (length s) /\ text a = take (N.to_nat q) s /\
       forall fuel, (fuel0 <= fuel)%nat -> exists v, calculate pr entry evaluate fuel s = Ok (true, q, v) /\ agrees v (value a)) \/
    ((forall a, well_formed d a = true -> s <> text a) /\
       forall fuel, (fuel0 <= fuel)%nat -> calculate pr entry evaluate fuel s = Ok (false, 0, rejected)).
  Lemma assemble_answered s b q st f1 f2 p' G : utf8 s -> N.of_nat (length s) < u32_modulus ->
    (forall fuel, (f1 <= fuel)%nat -> run_entry pr tt fuel entry s = Ok ((b, q), st)) -> peg spec s (pexp_of entry) 0 (if b then Some q else None) ->
    (forall fuel, (f2 <= fuel)%nat -> clear_false fuel gr (cx_pub (st_ctx st)) = Ok p') -> denotes p' (TNode gr 0 0 true G) ->
    exists fuel0, answered s fuel0.
  Proof using HW HE Hexact Hsound Hrej Hcomplete.
    intros Hu Hs Hrun Hpeg Hcl Hd.
    assert (Hpos : (b = false -> q = 0) /\ (b = true -> 0 <= q <= N.of_nat (length s))).
    { eapply (C01_positions pr (fn_of table entries) s tt); [done|by apply check_wf|apply table_no_hooks|apply session_fresh|by apply expr_wfb_ok|lia|exact (Hrun f1 (Nat.le_refl _))]. }
    assert (Hp : parse_with pr tt (f1 `max` f2) entry s = Ok (b, q, p')).
    { unfold parse_with. rewrite Hrun by lia. cbn [rbind]. change (pr_grammar pr) with gr. by rewrite Hcl by lia. }
    pose proof (Hexact s _ b q p' _ _ _ _ _ Hs Hp Hd) as HX. apply unfolds_inv in Hd as (n & Hn & Hrn & _ & _ & Hl). pose proof (get_ok _ _ _ Hn) as Hg. destruct b.
    - destruct HX as (D & HD & ->). destruct (Hsound s Hu q D HD) as (a & Ha & Hsp & Hev). destruct (Hev p' 0 n Hn Hrn Hl) as [f3 Hf3].
      exists (f1 `max` f2 `max` f3)%nat. left. exists q, a. split; [done|]. split; [by apply Hpos|]. split; [apply span_take; [by apply Hpos|done]|].
      intros fuel Hf. exists (kernel p' s fuel n). split; [|apply Hf3; lia]. unfold calculate. rewrite Hrun by lia. cbn [rbind]. unfold evaluate_tree.
      rewrite Hcl by lia. cbn [rbind]. rewrite Hg. done.
    - subst G. exists (f1 `max` f2 `max` 1)%nat. right. split.
      + intros a Ha ->. by pose proof (peg_det _ _ _ _ _ _ Hpeg (Hcomplete a Ha)).
      + intros fuel Hf. unfold calculate. rewrite Hrun by lia. cbn [rbind]. unfold evaluate_tree.
        rewrite Hcl by lia. cbn [rbind]. rewrite Hg. cbn [rbind]. rewrite (proj1 Hpos eq_refl). destruct fuel as [|fuel]; [lia|]. rewrite Hrej; [done|done|].
        by inversion Hl.
  Qed.
  Lemma assemble_calculator : calculator d pr entry evaluate rejected.
  Proof using All.
    intros s Hu Hs. destruct (Hmeans s tt Hs) as [f1 [(b & q & st & Hrun & Hpeg)|Hrun]].
    2: { exists f1. left. intros fuel Hf. left. unfold calculate. by rewrite Hrun. }
    destruct (cleared s st b q f1 Hs (Hrun f1 (Nat.le_refl _))) as [f2 Hcl].
    destruct Hcl as [Hcl|(p' & G & Hcl & Hd)].
    - exists (f1 `max` f2)%nat. left. intros fuel Hf. right. exists b, q. unfold calculate. rewrite Hrun by lia. cbn [rbind]. unfold evaluate_tree.
      by rewrite Hcl by lia.
    - destruct (assemble_answered s b q st f1 f2 p' G Hu Hs Hrun Hpeg Hcl Hd) as [f0 H]. exists f0. by right.
  Qed.
  Lemma assemble_calculates : calculates d pr entry evaluate.
  Proof using All.
    intros a Ha Hlen. assert (Hu : utf8 (text a)) by (by eapply ascii_utf8, text_ascii).
    destruct (assemble_calculator (text a) Hu Hlen) as [f1 [Hf|[(q & a' & Ha' & Hq & Ht & Hf)|[Hno _]]]]; [by exists f1; left| |by destruct (Hno a Ha)].
    destruct (Hmeans (text a) tt Hlen) as [f2 [(b & q' & st & Hrun & Hpeg)|Hrun]].
    - exists (f1 `max` f2)%nat. right. intros fuel Hfuel. destruct (Hf fuel ltac:(lia)) as (v & Hc & Hv). exists v.
      pose proof Hc as Hc'. unfold calculate in Hc'. rewrite Hrun in Hc' by lia. injection Hc' as -> -> _.
      pose proof (peg_det _ _ _ _ _ _ Hpeg (Hcomplete a Ha)) as [= ->]. split; [exact Hc|].
      rewrite Nat2N.id, take_ge in Ht by lia. by rewrite (text_unique d a a' Ha Ha') by done.
    - exists (f1 `max` f2)%nat. left. intros fuel Hfuel. left. unfold calculate. by rewrite Hrun by lia.
  Qed.
End assemble.

Lemma unfolds_one p ks t : unfolds_list nothing p ks [t] -> exists k, ks = [k] /\ unfolds nothing p k t.
Proof. intros H. inversion H as [|k ks' t' F Hk Hl]; subst. inversion Hl; subst. eauto. Qed.
Lemma entry_3 s : utf8 s -> forall q D, lderiv (grammar_of ex3_program) s (in_list ex3_plain_fns) (pexp_of ex3_entry) 0 q D ->
  exists a, well_formed Basic a = true /\ span s 0 q (text a) /\
    forall p k n, p_nodes p !! k = Some n -> n_rule n = ex3_R_Grammar -> unfolds_list nothing p (n_children n) (prune_forest D) ->
      exists f0, forall fuel, (f0 <= fuel)%nat -> agrees (evaluate_tree_kernel ex3_action ex3_R_Number ex3_R_Integer p s fuel n) (value a).
Proof.
  intros Hu q D H. cbn [pexp_of ex3_entry] in H. apply ld_inv_rule in H as (body & D' & Hb & -> & H).
  assert (G : good s Basic ex3_action ex3_R_Number ex3_R_Integer 0 (TNode ex3_R_Grammar 0 q true D')).
  { eapply (sound_3 s (in_list ex3_plain_fns) Hu _ ex3_R_Grammar); [|reflexivity|exact Hb|exact H]. apply elem_of_list_here. }
  pose proof (good_keep _ _ _ _ _ _ _ G) as Hk. destruct G as (a & Ha & _ & Hsp & _ & Hev). exists a. split; [done|]. split; [done|].
  intros p k n Hn Hrn Hl. cbn [prune_forest] in Hl. rewrite Hk in Hl. apply unfolds_one in Hl as (k1 & E1 & Hu1).
  destruct (Hev p k1 Hu1) as [f0 Hf]. exists (S f0). intros fuel Hfuel. destruct fuel as [|fuel]; [lia|].
  pose proof Hu1 as Hu2. cbn [prune] in Hu2. apply unfolds_inv in Hu2 as (m & Hm & _). apply get_ok in Hm.
  rewrite (kernel_one s ex3_action ex3_R_Number ex3_R_Integer p fuel n k1 m E1 Hm). apply Hf; [lia|done].
Qed.
Lemma entry_4 s : utf8 s -> forall q D, lderiv (grammar_of ex4_program) s (in_list ex4_plain_fns) (pexp_of ex4_entry) 0 q D ->
  exists a, well_formed Full a = true /\ span s 0 q (text a) /\
    forall p k n, p_nodes p !! k = Some n -> n_rule n = ex4_R_Grammar -> unfolds_list nothing p (n_children n) (prune_forest D) ->
      exists f0, forall fuel, (f0 <= fuel)%nat -> agrees (evaluate_tree_kernel ex4_action ex4_R_Number ex4_R_Integer p s fuel n) (value a).
Proof.
  intros Hu q D H. cbn [pexp_of ex4_entry] in H. apply ld_inv_rule in H as (body & D' & Hb & -> & H).
  assert (G : good s Full ex4_action ex4_R_Number ex4_R_Integer 0 (TNode ex4_R_Grammar 0 q true D')).
  { eapply (sound_4 s (in_list ex4_plain_fns) Hu _ ex4_R_Grammar); [|reflexivity|exact Hb|exact H]. apply elem_of_list_here. }
  pose proof (good_keep _ _ _ _ _ _ _ G) as Hk. destruct G as (a & Ha & _ & Hsp & _ & Hev). exists a. split; [done|]. split; [done|].
  intros p k n Hn Hrn Hl. cbn [prune_forest] in Hl. rewrite Hk in Hl. apply unfolds_one in Hl as (k1 & E1 & Hu1).
  destruct (Hev p k1 Hu1) as [f0 Hf]. exists (S f0). intros fuel Hfuel. destruct fuel as [|fuel]; [lia|].
  pose proof Hu1 as Hu2. cbn [prune] in Hu2. apply unfolds_inv in Hu2 as (m & Hm & _). apply get_ok in Hm.
  rewrite (kernel_one s ex4_action ex4_R_Number ex4_R_Integer p fuel n k1 m E1 Hm). apply Hf; [lia|done].
Qed.

Lemma entry_1 s : utf8 s -> forall q D, lderiv (grammar_of ex1_program) s (in_list ex1_plain_fns) (pexp_of ex1_entry) 0 q D ->
  exists a, well_formed Sums a = true /\ span s 0 q (text a) /\
    forall p k n, p_nodes p !! k = Some n -> n_rule n = ex1_R_Grammar -> unfolds_list nothing p (n_children n) (prune_forest D) ->
      exists f0, forall fuel, (f0 <= fuel)%nat -> agrees (ex1_kernel p s fuel n) (value a).
Proof.
  intros Hu q D H. cbn [pexp_of ex1_entry] in H. apply ld_inv_rule in H as (body & D' & Hb & -> & H).
  assert (G : good1 s 0 (TNode ex1_R_Grammar 0 q true D')).
  { eapply (sound_1 s Hu (in_list ex1_plain_fns) _ ex1_R_Grammar); [|reflexivity|exact Hb|exact H]. apply elem_of_list_here. }
  pose proof (good1_keep _ _ _ G) as Hk. destruct G as (a & Ha & _ & Hsp & _ & Hev). exists a. split; [done|]. split; [done|].
  intros p k n Hn Hrn Hl. cbn [prune_forest] in Hl. rewrite Hk in Hl. apply unfolds_one in Hl as (k1 & E1 & Hu1).
  destruct (Hev p k1 Hu1) as [f0 Hf]. exists (S f0). intros fuel Hfuel. destruct fuel as [|fuel]; [lia|].
  pose proof Hu1 as Hu2. cbn [prune] in Hu2. apply unfolds_inv in Hu2 as (m & Hm & _). apply get_ok in Hm.
  rewrite (kernel1_one s p fuel n k1 m E1 Hm) by (by rewrite Hrn). specialize (Hf fuel m ltac:(lia) Hm).
  destruct (value a) as [v|] eqn:Ev; simpl in Hf.
  - rewrite Hf. cbn [rbind]. rewrite Z.add_0_l. apply checked_in. by apply value_range in Ev.
  - destruct Hf as (e & -> & He). by exists e.
Qed.

Lemma whole g e a : seg g (text a) e (text a) [] -> peg g (text a) e 0 (Some (N.of_nat (length (text a)))).
Proof. intros H. specialize (H 0). rewrite app_nil_r in H. by apply H. Qed.

(** Example 1: sums and differences of positive integers; rejected input
    evaluates to 0, since the tree is then empty. *)
Theorem C53_example_1 : calculator Sums ex1_program ex1_entry ex1_evaluate (Ok 0%Z).
Proof.
  eapply (assemble_calculator Sums ex1_table ex1_R_Grammar [(ex1_R_Grammar, ex1_f_grammar)] ex1_plain_fns ex1_entry s1_spec ex1_kernel);
    [vm_compute; reflexivity|vm_compute; reflexivity|exact C52_example_1|exact C41_example_1|exact entry_1| |].
  - intros p s fuel n Hr Hc. cbn [ex1_kernel]. rewrite Hc, Hr. reflexivity.
  - intros a Ha. apply whole. eapply seg_ref; [vm_compute; reflexivity|]. by eapply seg_1.
Qed.
Theorem C53_example_3 : calculator Basic ex3_program ex3_entry ex3_evaluate (Panic PExplicit).
Proof.
  eapply (assemble_calculator Basic ex3_table ex3_R_Grammar [(ex3_R_Grammar, ex3_f_grammar)] ex3_plain_fns ex3_entry s3_spec (evaluate_tree_kernel ex3_action ex3_R_Number ex3_R_Integer));
    [vm_compute; reflexivity|vm_compute; reflexivity|exact C52_example_3|exact C41_example_3|exact entry_3| |].
  - intros p s fuel n Hr Hc. cbn [evaluate_tree_kernel]. rewrite Hc. reflexivity.
  - intros a Ha. apply whole. eapply seg_ref; [vm_compute; reflexivity|]. by eapply seg_3.
Qed.
Theorem C53_example_4 : calculator Full ex4_program ex4_entry ex4_evaluate (Panic PExplicit).
Proof.
  eapply (assemble_calculator Full ex4_table ex4_R_Grammar [(ex4_R_Grammar, ex4_f_grammar)] ex4_plain_fns ex4_entry s4_spec (evaluate_tree_kernel ex4_action ex4_R_Number ex4_R_Integer));
    [vm_compute; reflexivity|vm_compute; reflexivity|exact C52_example_4|exact C41_example_4|exact entry_4| |].
  - intros p s fuel n Hr Hc. cbn [evaluate_tree_kernel]. rewrite Hc. reflexivity.
  - intros a Ha. apply whole. eapply seg_ref; [vm_compute; reflexivity|]. by eapply seg_4.
Qed.
Theorem C53_example_1_complete : calculates Sums ex1_program ex1_entry ex1_evaluate.
Proof.
  eapply (assemble_calculates Sums ex1_table ex1_R_Grammar [(ex1_R_Grammar, ex1_f_grammar)] ex1_plain_fns ex1_entry s1_spec ex1_kernel (Ok 0%Z));
    [vm_compute; reflexivity|vm_compute; reflexivity|exact C52_example_1|exact C41_example_1|exact entry_1| |].
  - intros p s fuel n Hr Hc. cbn [ex1_kernel]. rewrite Hc, Hr. reflexivity.
  - intros a Ha. apply whole. eapply seg_ref; [vm_compute; reflexivity|]. by eapply seg_1.
Qed.
Theorem C53_example_3_complete : calculates Basic ex3_program ex3_entry ex3_evaluate.
Proof.
  eapply (assemble_calculates Basic ex3_table ex3_R_Grammar [(ex3_R_Grammar, ex3_f_grammar)] ex3_plain_fns ex3_entry s3_spec (evaluate_tree_kernel ex3_action ex3_R_Number ex3_R_Integer) (Panic PExplicit));
    [vm_compute; reflexivity|vm_compute; reflexivity|exact C52_example_3|exact C41_example_3|exact entry_3| |].
  - intros p s fuel n Hr Hc. cbn [evaluate_tree_kernel]. rewrite Hc. reflexivity.
  - intros a Ha. apply whole. eapply seg_ref; [vm_compute; reflexivity|]. by eapply seg_3.
Qed.
Theorem C53_example_4_complete : calculates Full ex4_program ex4_entry ex4_evaluate.
Proof.
  eapply (assemble_calculates Full ex4_table ex4_R_Grammar [(ex4_R_Grammar, ex4_f_grammar)] ex4_plain_fns ex4_entry s4_spec (evaluate_tree_kernel ex4_action ex4_R_Number ex4_R_Integer) (Panic PExplicit));
    [vm_compute; reflexivity|vm_compute; reflexivity|exact C52_example_4|exact C41_example_4|exact entry_4| |].
  - intros p s fuel n Hr Hc. cbn [evaluate_tree_kernel]. rewrite Hc. reflexivity.
  - intros a Ha. apply whole. eapply seg_ref; [vm_compute; reflexivity|]. by eapply seg_4.
Qed.

(** Concrete cases; none of them runs out of keys. *)
Definition num (t : string) : arith := Num [] (bytes t) None None.
Example C53_instance :
  let a := Bin Sub (Bin Sub (num "20") (Bin Mul (num "2") (Paren (Bin Add (num "3") (Num [45] (bytes "1") None None))))) (num "5") in
  well_formed Basic a = true /\ text a = bytes "20-2*(3+-1)-5" /\ value a = Some 11%Z /\
  calculate ex3_program ex3_entry ex3_evaluate 400 (bytes "20-2*(3+-1)-5") = Ok (true, 13, Ok 11%Z).
Proof. vm_compute. done. Qed.
Example C53_instance_powers :
  let a := Bin Mul (num "2") (Bin Pow (num "2") (Bin Pow (num "3") (num "2"))) in
  well_formed Full a = true /\ text a = bytes "2*2^3^2" /\ value a = Some 1024%Z /\
  calculate ex4_program ex4_entry ex4_evaluate 400 (bytes "2*2^3^2") = Ok (true, 7, Ok 1024%Z).
Proof. vm_compute. done. Qed.
(** The hypotheses of C53_meaning_is_value hold of -2^(1+2)/3. *)
Example C53_instance_fits :
  let a := Bin Div (Bin Pow (Num [45] (bytes "2") None None) (Paren (Bin Add (num "1") (num "2")))) (num "3") in
  well_formed Full a = true /\ parts_fit a /\ small_exponents a /\ meaning a = Some (-2)%Z.
Proof.
  cbv zeta. assert (H : forall v : Z, ((-100 <= v <= 100) -> - 2 ^ 63 <= v < 2 ^ 63)%Z) by (intros v Hv; lia).
  split_and!; [vm_compute; reflexivity| | |vm_compute; reflexivity].
  - cbn [parts_fit num]. split_and!; try (eexists; split; [vm_compute; reflexivity|apply H; lia]).
    all: try (intros _ y Hy; vm_compute in Hy; injection Hy as <-; lia). all: try done.
  - cbn [small_exponents num]. split_and!; try done. intros _ y Hy. vm_compute in Hy. injection Hy as <-. lia.
Qed.
Example C53_instance_sums :
  calculate ex1_program ex1_entry ex1_evaluate 400 (bytes "20-10-7+1") = Ok (true, 9, Ok 4%Z).
Proof. vm_compute. done. Qed.
(** Findings.  An exponent of 2^32 counts as 0, one of -1 as 2^32 - 1; input
    that does not parse evaluates to 0 in example 1 and panics in the other
    two; so does a number with a fraction or an exponent, and overflow. *)
Example C53_exponent_wraps :
  calculate ex4_program ex4_entry ex4_evaluate 400 (bytes "2^4294967296") = Ok (true, 12, Ok 1%Z) /\
  calculate ex4_program ex4_entry ex4_evaluate 400 (bytes "0^-1") = Ok (true, 4, Ok 0%Z) /\
  calculate ex4_program ex4_entry ex4_evaluate 400 (bytes "2^-1") = Ok (true, 4, Panic POverflow).
Proof. vm_compute. done. Qed.
Example C53_rejected :
  calculate ex1_program ex1_entry ex1_evaluate 400 (bytes "x") = Ok (false, 0, Ok 0%Z) /\
  calculate ex3_program ex3_entry ex3_evaluate 400 (bytes "x") = Ok (false, 0, Panic PExplicit) /\
  calculate ex3_program ex3_entry ex3_evaluate 400 (bytes "1.5+1") = Ok (true, 5, Panic PExplicit) /\
  calculate ex3_program ex3_entry ex3_evaluate 400 (bytes "9223372036854775807+1") = Ok (true, 21, Panic POverflow) /\
  calculate ex3_program ex3_entry ex3_evaluate 400 (bytes "1/0") = Ok (true, 3, Panic POverflow).
Proof. vm_compute. done. Qed.
