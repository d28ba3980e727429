(** Theorems C64: the order of alternatives of which at most one can match
    still matters in left-recursive grammars. *)
From Verif Require Import SpecGenerator SpecMeaning SpecProgram SpecSession SpecLR SpecTerm ProofMeaning ProofFirst DslReader ProofReader GrammarChecks.
From Verif Require Import TheoremsGenerator TheoremsMeaning TheoremsTermination TheoremsLimits DslSources ShippedNames Programs ProofGenTotal ProofGenerate TheoremsBootstrap.
From Verif Require Import SpecSafe ProofTree ProofExact TheoremsExact Checks SpecLevels ProofCycle TheoremsCycle TheoremsCycleTree TheoremsCycleExamples TheoremsCycleTreeExamples ProofLevels TheoremsLevels.
From Verif Require Import SpecMeaning.
Local Open Scope N_scope.

(** Sums of products, and negative digits.  The two files differ in the order
    of the last two alternatives of Term, one of which starts with a digit and
    the other with a minus. *)
Definition fact_last : list N := bytes "<Term>=(<Term>,'+',<Fact>)/<Neg>/<Fact>; <Fact>=(<Fact>,'*',<Num>)/<Num>; <Neg>='-',<Num>; <Num>=['0'..'9']; <Grammar>=<Term>;".
Definition neg_last : list N := bytes "<Term>=(<Term>,'+',<Fact>)/<Fact>/<Neg>; <Fact>=(<Fact>,'*',<Num>)/<Num>; <Neg>='-',<Num>; <Num>=['0'..'9']; <Grammar>=<Term>;".

(** What is generated: in the second, Term's involved set has Fact in it. *)
Definition order_table (inv : list N) (swap : bool) : list expr :=
  let fact := ELR [0] 0 1 in let neg := EVar 2 2 in
  [EChoice (EChoice (ESub (ESeq (ESeq (ELR inv 4 0) (ETerminal 43)) fact)) (if swap then fact else neg)) (if swap then neg else fact);
   EChoice (ESub (ESeq (ESeq fact (ETerminal 42)) (EVar 3 3))) (EVar 3 3);
   ESeq (ETerminal 45) (EVar 3 3); ERange 48 57; ELR inv 4 0].
Definition fact_last_program : program unit := table_program (order_table [4] false) 1.
Definition neg_last_program : program unit := table_program (order_table [0; 4] true) 1.

Ltac crate := split;
  [ split; [apply ascii_utf8; vm_compute; done|vm_compute; done]
  | exists 300%nat, as_is_orders; split; [apply as_is_ok|vm_compute; done]
  | left; apply spelled_ok; vm_compute; done
  | vm_compute; done ].
Definition code_of (f : list N) : gen_code := match generate_parser 300 as_is_orders f with Ok (GCode c) => c | _ => GenCode [] [] [] 0 end.
Lemma fact_last_crate : crate_of fact_last (rules_of fact_last) (code_of fact_last) (order_table [4] false).
Proof. crate. Qed.
Lemma neg_last_crate : crate_of neg_last (rules_of neg_last) (code_of neg_last) (order_table [0; 4] true).
Proof. crate. Qed.

(** ** The first file: two levels as in C62, whatever the input. *)
Definition ord_fact : member := Member 0 1 [Follow (Some (ESeq (ETerminal 42) (EVar 3 3))); Seed (EVar 3 3)].
Definition ord_facts : level := Level [0] ord_fact [].
Definition ord_term : member := Member 4 0 [Follow (Some (ESeq (ETerminal 43) (lv_call ord_facts))); Seed (EVar 2 2); Seed (lv_call ord_facts)].
Definition ord_terms : level := Level [4] ord_term [].
Notation fno := (fn_list [1; 4; 2; 3; 0]).
Notation plo := (plain_list [2; 3]).
Notation nro := (in_list []).
Lemma ord_levels : levels_ok fact_last_program fno plo nro [ord_terms; ord_facts].
Proof.
  split; [|split; [|done]].
  - split.
    + apply (bool_decide_unpack _). vm_compute. done.
    + done.
    + split; [|done]. split; [done|]. split; [done|]. split; [eexists; split; vm_compute; reflexivity|]. split; [by eexists _, _|].
      assert (Hc : level_code fno plo [ord_facts] (lv_call ord_facts)) by (right; exists ord_facts; split; [by left|done]).
      assert (Hs : level_code fno plo [ord_facts] (ESeq (ETerminal 43) (lv_call ord_facts))) by (right; split; [by left|done]).
      cbn [m_alts lv_first ord_terms ord_term]. repeat (apply List.Forall_cons); [..|apply List.Forall_nil]; cbn [level_alternative]; (split; [first [done|by left]|split; reflexivity]).
    + intros c' r Hc. apply elem_of_list_singleton in Hc as ->. cbn [lv_inv ord_facts ord_terms]. intros Hr. apply elem_of_list_singleton in Hr as ->.
      intros H. apply elem_of_list_singleton in H. discriminate H.
  - split.
    + apply (bool_decide_unpack _). vm_compute. done.
    + done.
    + split; [|done]. split; [done|]. split; [done|]. split; [eexists; split; vm_compute; reflexivity|]. split; [by eexists _, _|].
      cbn [m_alts lv_first ord_facts ord_fact]. repeat (apply List.Forall_cons); [..|apply List.Forall_nil]; cbn [level_alternative]; (split; [by left|split; reflexivity]).
    + intros c' r Hc. by apply elem_of_nil in Hc.
Qed.
Lemma ord_plain : plain_part fact_last_program fno plo nro.
Proof.
  split.
  - by apply plains_ok.
  - apply plains_tidy. vm_compute. reflexivity.
  - done.
Qed.
Lemma ord_wf : program_wf fact_last_program fno.
Proof. apply check_wf. vm_compute. reflexivity. Qed.

(** Every parse with the first file's crate finds the sum of products of C62. *)
Theorem C64_last_alternative_works s fuel (b0 : bool) q p' l i j b G : N.of_nat (length s) < u32_modulus ->
  parse_with fact_last_program tt fuel (EVar 1 4) s = Ok (b0, q, p') -> denotes p' (TNode l i j b G) ->
  if b0 then exists t, levels_give (grammar_of fact_last_program) s fno plo 0 [ord_terms; ord_facts] (Some t) /\ t_end t = q /\ G = prune_forest [TNode 1 0 q true [t]]
  else levels_give (grammar_of fact_last_program) s fno plo 0 [ord_terms; ord_facts] None /\ q = 0 /\ G = [].
Proof.
  intros Hs. apply (C62_entry_tree fact_last_program fno plo nro s tt Hs ord_terms [ord_facts] ord_levels ord_plain ord_wf (table_no_hooks _ _) 1 4); [vm_compute; reflexivity|reflexivity].
Qed.

(** ** The two files side by side *)
(** "1+2*3" is a sentence of both; only the first crate takes all of it. *)
Section sentence.
  Notation inp := (bytes "1+2*3").
  Context (rules : list drule) (nd : body_of rules (bytes "Num") = body_of (rules_of fact_last) (bytes "Num")).
  Context (fd : body_of rules (bytes "Fact") = body_of (rules_of fact_last) (bytes "Fact")).
  Lemma num_derives i c : inp !! N.to_nat i = Some c -> 48 <= c <= 57 -> derives rules inp (DRef (bytes "Num")) i (i + 1).
  Proof using nd. intros H1 H2. eapply d_ref; [rewrite nd; vm_compute; reflexivity|]. by eapply (d_range _ _ _ _ 48 57 c). Qed.
  Lemma fact_derives i c : inp !! N.to_nat i = Some c -> 48 <= c <= 57 -> derives rules inp (DRef (bytes "Fact")) i (i + 1).
  Proof using fd nd.
    intros H1 H2. eapply d_ref; [rewrite fd; vm_compute; reflexivity|]. eapply d_alt; [apply elem_of_cons; right; by left|]. by apply (num_derives _ c).
  Qed.
  Lemma fact_2_5 : derives rules inp (DRef (bytes "Fact")) 2 5.
  Proof using fd nd.
    eapply d_ref; [rewrite fd; vm_compute; reflexivity|]. eapply d_alt; [by left|]. apply d_group, d_seq. apply (ds_cons _ _ _ _ 2 3 5).
    - apply (fact_derives 2 50); [done|lia].
    - apply (ds_cons _ _ _ _ 3 4 5).
      + by apply (d_literal _ _ (DQuoted [42]) [42] 3).
      + apply (ds_cons _ _ _ _ 4 5 5); [|constructor]. apply (num_derives 4 51); [done|lia].
  Qed.
  Lemma sentence_derives fa la : body_of rules (bytes "Term") = Some (DAlt [DGroup (DSeq [DRef (bytes "Term"); DQuoted [43]; DRef (bytes "Fact")]); fa; la]) ->
    DRef (bytes "Fact") = fa \/ DRef (bytes "Fact") = la ->
    body_of rules grammar_name = Some (DRef (bytes "Term")) -> derives rules inp (DRef grammar_name) 0 5.
  Proof using fd nd.
    intros Ht Hf Hg. eapply d_ref; [exact Hg|]. eapply d_ref; [exact Ht|]. eapply d_alt; [by left|]. apply d_group, d_seq. apply (ds_cons _ _ _ _ 0 1 5).
    - eapply d_ref; [exact Ht|]. apply (d_alt _ _ _ (DRef (bytes "Fact")) 0 1); [|apply (fact_derives 0 49); [done|lia]].
      apply elem_of_cons. right. destruct Hf as [<-|<-]; [by left|]. apply elem_of_cons. right. by left.
    - apply (ds_cons _ _ _ _ 1 2 5); [by apply (d_literal _ _ (DQuoted [43]) [43] 1)|]. apply (ds_cons _ _ _ _ 2 5 5); [apply fact_2_5|constructor].
  Qed.
End sentence.

(** The claim that fails: files that differ in the order of alternatives of
    which at most one can match give parsers that take the same part of the
    input - here, for these two files. *)
Definition same_prefix (p1 p2 : program unit) (entry : expr) : Prop := forall s fuel b1 q1 st1 b2 q2 st2,
  run_entry p1 tt fuel entry s = Ok ((b1, q1), st1) -> run_entry p2 tt fuel entry s = Ok ((b2, q2), st2) -> b1 = b2 /\ q1 = q2.
Definition outcome (p : program unit) (s : list N) : option (bool * N) := match run_entry p tt 100 (EVar 1 4) s with Ok (r, _) => Some r | _ => None end.
Lemma outcome_run p s r : outcome p s = Some r -> exists st, run_entry p tt 100 (EVar 1 4) s = Ok (r, st).
Proof. unfold outcome. destruct (run_entry _ _ _ _ _) as [[r' st]| |]; [|done..]. intros [= ->]. by exists st. Qed.
Theorem C64_order_refuted :
  crate_of fact_last (rules_of fact_last) (code_of fact_last) (order_table [4] false) /\
  crate_of neg_last (rules_of neg_last) (code_of neg_last) (order_table [0; 4] true) /\
  (exists r1 r2 others a x y, rules_of fact_last = r1 :: others /\ rules_of neg_last = r2 :: others /\ dr_name r1 = bytes "Term" /\ dr_name r2 = bytes "Term" /\
     dr_body r1 = DAlt [a; x; y] /\ dr_body r2 = DAlt [a; y; x]) /\
  derives (rules_of fact_last) (bytes "1+2*3") (DRef grammar_name) 0 5 /\ derives (rules_of neg_last) (bytes "1+2*3") (DRef grammar_name) 0 5 /\
  (exists st, run_entry fact_last_program tt 100 (EVar 1 4) (bytes "1+2*3") = Ok ((true, 5), st)) /\
  (exists st, run_entry neg_last_program tt 100 (EVar 1 4) (bytes "1+2*3") = Ok ((true, 3), st)) /\
  ~ same_prefix fact_last_program neg_last_program (EVar 1 4).
Proof.
  assert (H1 : exists st, run_entry fact_last_program tt 100 (EVar 1 4) (bytes "1+2*3") = Ok ((true, 5), st)) by (apply outcome_run; vm_cast_no_check (eq_refl (Some (true, 5)))).
  assert (H2 : exists st, run_entry neg_last_program tt 100 (EVar 1 4) (bytes "1+2*3") = Ok ((true, 3), st)) by (apply outcome_run; vm_cast_no_check (eq_refl (Some (true, 3)))).
  split; [exact fact_last_crate|]. split; [exact neg_last_crate|].
  split; [eexists _, _, _, _, _, _; split; [vm_compute; reflexivity|split; [vm_compute; reflexivity|split_and!; reflexivity]]|].
  split; [eapply sentence_derives; [vm_compute; reflexivity..| |vm_compute; reflexivity]; by right|].
  split; [eapply sentence_derives; [vm_compute; reflexivity..| |vm_compute; reflexivity]; by left|].
  split; [exact H1|]. split; [exact H2|]. intros H. destruct H1 as [st1 H1], H2 as [st2 H2]. destruct (H _ _ _ _ _ _ _ _ H1 H2) as [_ E]. discriminate E.
Qed.

(** What becomes of a rule in the involved set, at any position: as long as the
    recursion it is involved in is active, a call of it runs its function once
    and takes the answer, or takes what is in the memo, or fails.  It is never
    grown. *)
Theorem C64_involved_never_grows {U} (st : pstate U) fuel inv r (func : parser U) parent pos a i h o st' :
  get_current_active_lr_position (st_ctx st) = Some (a, i) -> c_heads (cx_cache (st_ctx st)) !! (a, i) = Some h -> r ∈ h_involved h ->
  var_name_kernel_indirect_left_recursion fuel inv r func parent pos st = Ok (o, st') ->
  if bool_decide (r ∈ h_eval h) then exists key st1 st2, func key pos st1 = Ok (o, st2)
  else o = match check (st_ctx st) r pos with Some (b, e, _) => (b, e) | None => (false, pos) end.
Proof.
  intros Ha Hh Hi H.
  assert (E1 : rule_in_involved_set (st_ctx st) (a, i) r = Ok true).
  { unfold rule_in_involved_set. rewrite Hh. by rewrite bool_decide_eq_true_2. }
  assert (E2 : rule_in_eval_set (st_ctx st) (a, i) r = Ok (bool_decide (r ∈ h_eval h))).
  { unfold rule_in_eval_set. by rewrite Hh. }
  unfold var_name_kernel_indirect_left_recursion in H. apply mbind_Ok_inv in H as (should & st0 & Hs & H).
  assert (should = (false, None) /\ st0 = st) as [-> ->].
  { unfold should_go_into_growth_function, mbind', get_ctx, with_ctx, mret in Hs. cbn [rbind] in Hs. rewrite Ha in Hs.
    destruct (check_head (st_ctx st) r pos); [by injection Hs|]. rewrite E1 in Hs. cbn [rbind] in Hs. injection Hs as <- <-. split; [done|]. by destruct st. }
  cbn [fst] in H. apply mbind_Ok_inv in H as (c & st1 & [= <- <-] & H). rewrite Ha in H.
  apply mbind_Ok_inv in H as (e & st2 & He & H). unfold with_ctx in He. rewrite E2 in He. cbn [rbind] in He. injection He as <- <-.
  destruct (bool_decide _).
  - apply mbind_Ok_inv in H as (k & s1 & _ & H). apply mbind_Ok_inv in H as ([] & s2 & _ & H). apply mbind_Ok_inv in H as (res & s3 & Hf & H).
    apply mbind_Ok_inv in H as ([] & s4 & _ & H). apply mbind_Ok_inv in H as ([] & s5 & _ & H). apply mbind_Ok_inv in H as ([] & s6 & _ & H). injection H as -> _. eauto.
  - apply mbind_Ok_inv in H as (c & s1 & [= <- <-] & H). cbn [st_ctx] in H. destruct (check (st_ctx st) r pos) as [[[b e] k]|].
    + apply mbind_Ok_inv in H as ([] & s2 & _ & H). by injection H.
    + by injection H.
Qed.
(** Such a state is met: Fact after the plus sign in the second file's parser
    (a state after the first round, made by hand). *)
Example C64_involved_instance : exists st : pstate unit,
  get_current_active_lr_position (st_ctx st) = Some (4, 0) /\ (exists h, c_heads (cx_cache (st_ctx st)) !! (4, 0) = Some h /\ 0 ∈ h_involved h /\ 0 ∉ h_eval h) /\
  exists st', var_name_kernel_indirect_left_recursion 9 [0] 0 (fun _ i => mret (true, i + 1)) 0 2 st = Ok ((false, 2), st').
Proof.
  set (h := Head 0 4 ({[0; 4]} : gset N) (∅ : gset N)).
  set (c := set_current_active_lr_position (with_heads (context_new 1) {[(4, 0) := h]}) (Some (4, 0))).
  assert (Hh : c_heads (cx_cache c) !! (4, 0) = Some h) by (cbn; apply lookup_singleton).
  assert (Hi : 0 ∈ h_involved h) by (cbn; set_solver). assert (He : 0 ∉ h_eval h) by (cbn; set_solver).
  exists (PState c tt). split; [reflexivity|]. split; [by exists h|]. exists (PState c tt).
  by apply (C42_reentry_fails (PState c tt) 9 [0] 0 (fun _ i => mret (true, i + 1)) 0 2 4 0 h).
Qed.
