(** Limits of the left-recursion support, each exhibited by running the model
    on a small crate; and what the code does instead. *)
From Verif Require Import SpecSession SpecLR SpecTerm SpecCfg Programs ProofBasics ProofPeg TheoremsKernel.

(** ** C42: re-entering a rule of the recursion that is being grown, at a
    position where nothing is memoised, fails without trying it. *)
Theorem C42_reentry_fails {U} (st : pstate U) fuel inv r (func : parser U) parent pos a i h :
  get_current_active_lr_position (st_ctx st) = Some (a, i) ->
  c_heads (cx_cache (st_ctx st)) !! (a, i) = Some h ->
  r ∈ h_involved h -> r ∉ h_eval h -> check (st_ctx st) r pos = None ->
  var_name_kernel_indirect_left_recursion fuel inv r func parent pos st = Ok ((false, pos), st).
Proof.
  intros Ha Hh Hi He Hc.
  assert (Hst : PState (st_ctx st) (st_user st) = st) by (by destruct st).
  assert (E1 : rule_in_involved_set (st_ctx st) (a, i) r = Ok true).
  { unfold rule_in_involved_set. rewrite Hh. by rewrite bool_decide_eq_true_2. }
  assert (E2 : rule_in_eval_set (st_ctx st) (a, i) r = Ok false).
  { unfold rule_in_eval_set. rewrite Hh. by rewrite bool_decide_eq_false_2. }
  unfold var_name_kernel_indirect_left_recursion, should_go_into_growth_function, mbind', get_ctx, with_ctx, mret.
  cbn [rbind st_ctx]. rewrite Ha.
  destruct (check_head (st_ctx st) r pos); cbn [rbind fst snd st_ctx st_user].
  - rewrite Ha, E2. cbn [rbind fst snd st_ctx st_user]. by rewrite Hc, Hst.
  - rewrite E1. cbn [rbind fst snd st_ctx st_user]. rewrite Hst, Ha, E2. cbn [rbind fst snd st_ctx st_user]. by rewrite Hst, Hc.
Qed.

(** Consequence: the textbook grammar
    [<expr> = (<expr>,'+',<term>)/<term>; <term> = ('(',<expr>,')')/<num>]
    rejects "(1)", although its iterative reading
    [expr <- term ('+' term)*] accepts it. *)
Definition paren_table : list expr :=
  [EChoice (ESub (ESeq (ESeq (ELR [1] 1 0) (ETerminal 43)) (EVar 2 1))) (EVar 2 1);   (* 0: expr, label 1 *)
   EChoice (ESub (ESeq (ESeq (ETerminal 40) (ELR [1] 1 0)) (ETerminal 41))) (EVar 3 2); (* 1: term, label 2 *)
   ERange 48 57;                                                                       (* 2: num, label 3 *)
   ELR [1] 1 0].                                                                       (* 3: Grammar, label 0 *)
Definition paren_program : program unit := table_program paren_table 0.
Definition paren_spec : pgrammar := fun A =>
  match A with
  | 0 => Some (PSeq (PRef (Some 2) 1) (PStar (PSeq (PChar 43) (PRef (Some 2) 1))))
  | 1 => Some (PAlt (PSeq (PSeq (PChar 40) (PRef (Some 1) 0)) (PChar 41)) (PRef (Some 3) 2))
  | 2 => Some (PRange 48 57)
  | 3 => Some (PRef (Some 1) 0)
  | _ => None
  end.
(** The claim that fails: a directly left-recursive rule whose tail and seed
    consume always parses like "seed, then tails", also if it is re-entered
    inside its own seed or tail. *)
Definition C42_reentrant_property : Prop := forall s fuel b q st,
  run_entry paren_program tt fuel (EVar 0 3) s = Ok ((b, q), st) ->
  peg paren_spec s (PRef (Some 0) 3) 0 (if b then Some q else None).
Theorem C42_reentrant_refuted : ~ C42_reentrant_property.
Proof.
  intros H.
  assert (Hr : exists st, run_entry paren_program tt 40 (EVar 0 3) (bytes "(1)") = Ok ((false, 0), st)).
  { eexists. vm_compute. reflexivity. }
  destruct Hr as [st Hr]. apply H in Hr. clear H. simpl in Hr.
  assert (Hn : peg paren_spec (bytes "(1)") (PRef (Some 2) 1) 1 (Some 2)).
  { eapply peg_ref; [reflexivity|]. apply peg_alt_2.
    - apply peg_seq_fail, peg_seq_fail, peg_char_fail. done.
    - eapply peg_ref; [reflexivity|]. by eapply (peg_range_ok _ _ _ _ 49 1). }
  assert (Hex : forall i j, peg paren_spec (bytes "(1)") (PRef (Some 2) 1) i (Some j) -> (i, j) ∈ [(0, 3); (1, 2)] ->
    peg paren_spec (bytes "(1)") (PRef (Some 1) 0) i (Some j)).
  { intros i j Ht Hij. eapply peg_ref; [reflexivity|]. eapply peg_seq_ok; [exact Ht|].
    apply peg_star_stop, peg_seq_fail, peg_char_fail.
    apply elem_of_cons in Hij as [[= -> ->]|Hij]; [done|]. by apply elem_of_list_singleton in Hij as [= -> ->]. }
  assert (Hok : peg paren_spec (bytes "(1)") (PRef (Some 0) 3) 0 (Some 3)).
  { eapply peg_ref; [reflexivity|]. apply Hex; [|by left]. eapply peg_ref; [reflexivity|].
    apply peg_alt_1. apply (peg_seq_ok _ _ _ _ 0 2); [|by apply (peg_char_ok _ _ 41 2)].
    apply (peg_seq_ok _ _ _ _ 0 1); [by apply (peg_char_ok _ _ 40 0)|].
    apply Hex; [done|]. right. by left. }
  pose proof (peg_det _ _ _ _ _ _ Hr Hok). done.
Qed.

(** ** C43: a right operand that is the recursive rule itself is only parsed
    once: [<E> = (<E>,'-',<E>)/<N>] answers 1 character of "1-2". *)
Definition ambiguous_table : list expr :=
  [EChoice (ESub (ESeq (ESeq (ELR [1] 1 0) (ETerminal 45)) (ELR [1] 1 0))) (EVar 2 1); ERange 48 57; ELR [1] 1 0].
Definition ambiguous_program : program unit := table_program ambiguous_table 0.
(** The claim that fails: the whole of a derivable input is consumed. *)
Definition C43_maximal_property : Prop := forall s fuel b q st,
  run_entry ambiguous_program tt fuel (EVar 0 2) s = Ok ((b, q), st) ->
  forall j, cfg (grammar_of ambiguous_program) s (PRef (Some 0) 2) 0 j -> b = true /\ j <= q.
Theorem C43_maximal_refuted : ~ C43_maximal_property.
Proof.
  intros H.
  assert (Hr : exists st, run_entry ambiguous_program tt 40 (EVar 0 2) (bytes "1-2") = Ok ((true, 1), st)).
  { eexists. vm_compute. reflexivity. }
  destruct Hr as [st Hr]. specialize (H _ _ _ _ _ Hr 3). clear Hr.
  assert (HN : forall i c, bytes "1-2" !! N.to_nat i = Some c -> 48 <= c <= 57 ->
    cfg (grammar_of ambiguous_program) (bytes "1-2") (PRef (Some 1) 0) i (i + 1)).
  { intros i c Hc Hr'. eapply cfg_ref; [reflexivity|]. apply cfg_alt_r. eapply cfg_ref; [reflexivity|]. by eapply cfg_range. }
  destruct H as [_ H]; [|by apply H].
  eapply cfg_ref; [reflexivity|]. eapply cfg_ref; [reflexivity|]. apply cfg_alt_l.
  apply (cfg_seq _ _ _ _ 0 2 3).
  - apply (cfg_seq _ _ _ _ 0 1 2); [by apply (HN 0 49)|by apply (cfg_char _ _ 45 1)].
  - by apply (HN 2 50).
Qed.

(** ** C35: left recursion through the last alternative is not recognised by
    the generator, which emits a plain rule call; such parsers recurse
    forever: the model never answers, whatever the fuel. *)
Definition last_alt_table : list expr := [EChoice (ETerminal 97) (ESub (ESeq (EVar 1 0) (ETerminal 98))); EVar 1 0].
Definition last_alt_program : program unit := table_program last_alt_table 1.
Lemma last_alt_never fuel : forall parent (st : pstate unit) r,
  check (st_ctx st) 1 0 = None -> eval last_alt_program (source_new (bytes "b")) fuel (EVar 1 0) parent 0 st <> Ok r.
Proof.
  induction fuel as [fuel IH] using lt_wf_ind; intros parent st r Hc H. destruct fuel as [|n]; [done|].
  cbn [eval] in H. unfold var_name_kernel in H. destruct r as [r st'].
  apply mbind_Ok_inv in H as (c & st1 & Hg & H). injection Hg as <- <-. rewrite Hc in H.
  unfold default_behaviour in H. apply mbind_Ok_inv in H as (k & st2 & Hk & H).
  assert (Hc2 : check (st_ctx st2) 1 0 = None).
  { revert Hk. unfold with_ctx, reserve_publisher_entry, add_node. destruct (_ <? _); [|done]. simpl. by intros [= <- <-]. }
  apply mbind_Ok_inv in H as (f & st3 & Hf & _). cbn [pr_fn last_alt_program table_program last_alt_table] in Hf. simpl in Hf.
  destruct n as [|n]; [done|]. cbn [eval] in Hf. unfold ordered_choice_kernel in Hf.
  apply mbind_Ok_inv in Hf as ([v q] & st4 & Ht & Hf).
  destruct n as [|n]; [done|]. cbn [eval] in Ht, Hf.
  assert (Ht' : terminal_kernel (source_new (bytes "b")) 97 k 0 st2 = Ok ((false, 0), st2)) by reflexivity.
  rewrite Ht' in Ht. injection Ht as <- <- <-.
  apply mbind_Ok_inv in Hf as (y & st5 & Hf & _). unfold subexpression_kernel in Hf.
  apply mbind_Ok_inv in Hf as (z & st6 & Hf & _). destruct n as [|n]; [done|]. cbn [eval] in Hf. unfold sequence_kernel in Hf.
  apply mbind_Ok_inv in Hf as (w & st7 & Hf & _). eapply (IH n); [lia|exact Hc2|exact Hf].
Qed.
Theorem C35_undetected_diverges fuel r : run_entry last_alt_program tt fuel (EVar 1 0) (bytes "b") <> Ok r.
Proof. by apply last_alt_never. Qed.
(** ... although the grammar is left recursive and "ab" is derivable. *)
Example C35_undetected_derivable : cfg (grammar_of last_alt_program) (bytes "ab") (PRef (Some 1) 0) 0 2.
Proof.
  eapply cfg_ref; [reflexivity|]. apply cfg_alt_r. apply (cfg_seq _ _ _ _ 0 1 2); [|by apply (cfg_char _ _ 98 1)].
  eapply cfg_ref; [reflexivity|]. apply cfg_alt_l. by apply (cfg_char _ _ 97 0).
Qed.

(** ** C44: repeating something that succeeds without consuming never ends. *)
Theorem C44_empty_repetition_diverges {U} (f : parser U) k p :
  (forall st, exists st', f k p st = Ok ((true, p), st')) ->
  forall fuel st, zero_or_more_kernel fuel f k p st = NoFuel /\ one_or_more_kernel fuel f k p st = NoFuel.
Proof.
  intros Hf.
  assert (Hl : forall fuel st, repeat_loop fuel f k p st = NoFuel).
  { induction fuel as [|fuel IH]; intros st; [done|]. cbn [repeat_loop]. unfold mbind'.
    destruct (Hf st) as [st' ->]. cbn [rbind negb]. apply IH. }
  intros fuel st. split; [apply Hl|]. unfold one_or_more_kernel, mbind'. destruct (Hf st) as [st' ->]. cbn [rbind negb]. apply Hl.
Qed.
(** [<Grammar> = ('a'?)*] on any input. *)
Example C44_instance fuel s : N.of_nat (length s) < u32_modulus -> s !! 0%nat <> Some 97 ->
  run_entry (table_program (U:=unit) [EStar (EOpt (ETerminal 97))] 0) tt fuel (EInline 0) s = NoFuel.
Proof.
  intros Hs Hc. unfold run_entry. do 4 (destruct fuel as [|fuel]; [reflexivity|]).
  assert (He : forall n k p st, eval (table_program (U:=unit) [EStar (EOpt (ETerminal 97))] 0) (source_new s) (S (S n)) (EInline 0) k p st
    = zero_or_more_kernel n (eval (table_program (U:=unit) [EStar (EOpt (ETerminal 97))] 0) (source_new s) n (EOpt (ETerminal 97))) k p st) by reflexivity.
  rewrite He. clear He.
  refine (proj1 (C44_empty_repetition_diverges _ _ _ _ _ _)). intros st. exists st.
  cbn [eval]. unfold optional_kernel, mbind'.
  destruct (C07_terminal s 97 0 0 st Hs) as (b & q & -> & Hb & ->). destruct b; [|done].
  by destruct Hc; apply Hb.
Qed.
