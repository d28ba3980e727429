(** Theorem C60: the release build computes what the debug build computes. *)
From Verif Require Import Release SpecProgram SpecSession SpecSafe ProofBasics ProofSound ProofSafe TheoremsKernel TheoremsLR TheoremsHook Checks Programs ExampleTables.
Local Open Scope N_scope.

(** [agrees d r]: unless the debug build stops at a check the release build does
    not have, both give the same. *)
Definition agrees {A} (d r : res A) : Prop :=
  match d with Panic POverflow | Panic PDebugAssert => True | _ => r = d end.
Definition magrees {S A} (d r : M S A) : Prop := forall s, agrees (d s) (r s).
Definition pagrees {U} (f g : parser U) : Prop := forall k i, magrees (f k i) (g k i).

Lemma agrees_refl {A} (d : res A) : agrees d d.
Proof. destruct d as [|[]|]; done. Qed.
Lemma agrees_rbind {A B} (d r : res A) (f g : A -> res B) : agrees d r -> (forall a, agrees (f a) (g a)) -> agrees (rbind d f) (rbind r g).
Proof. intros H Hf. destruct d as [a|[]|]; simpl in *; try done; subst; simpl; auto. Qed.
Lemma magrees_refl {S A} (d : M S A) : magrees d d.
Proof. intros s. apply agrees_refl. Qed.
Lemma magrees_bind {S A B} (d r : M S A) (f g : A -> M S B) : magrees d r -> (forall a, magrees (f a) (g a)) -> magrees (mbind' d f) (mbind' r g).
Proof. intros H Hf s. unfold mbind'. apply agrees_rbind; [apply H|]. intros [a s']. apply Hf. Qed.
Lemma connect_agrees c k j : agrees (ctx_connect c k j) (ctx_connect_rel c k j).
Proof. unfold ctx_connect, ctx_connect_rel, connect, connect_rel. destruct (k =? j); [done|]. apply agrees_refl. Qed.
Lemma upd_agrees {U} (f g : context -> res context) : (forall c, agrees (f c) (g c)) -> magrees (upd_ctx (U:=U) f) (upd_ctx g).
Proof. intros H s. unfold upd_ctx, with_ctx. apply agrees_rbind; [|intros []; done]. apply agrees_rbind; [apply H|done]. Qed.
Lemma incr_agrees {U} i : magrees (incr (U:=U) i) (incr_rel i).
Proof. intros s. unfold incr, incr_rel. destruct (N.ltb_spec (i + 1) u32_modulus); [|done]. by rewrite N.mod_small. Qed.

(** Walk down both programs at once. *)
Local Ltac walk := repeat (cbv beta zeta in *; first
  [ assumption | apply magrees_refl
  | match goal with
    | H : pagrees ?f ?g |- magrees (?f _ _) (?g _ _) => apply H
    | H : forall _, _ |- magrees _ _ => solve [apply H]
    | |- pagrees _ _ => intros ? ?
    | |- magrees (mbind' _ _) (mbind' _ _) => apply magrees_bind; [|intros ?]
    | |- magrees (upd_ctx _) (upd_ctx _) => apply upd_agrees; intros ?; first [apply connect_agrees|apply agrees_refl]
    | |- magrees (incr _) (incr_rel _) => apply incr_agrees
    | |- magrees (if ?b then _ else _) _ => destruct b
    | |- magrees (match ?x with _ => _ end) _ => destruct x
    end ]).

Section kernels.
  Context {U : Type}.
  Lemma loop_agrees fuel (f g : parser U) : pagrees f g -> forall k i, magrees (repeat_loop fuel f k i) (repeat_loop fuel g k i).
  Proof. intros H. induction fuel as [|n IH]; intros k i; cbn [repeat_loop]; walk. Qed.
  Lemma string_agrees src i data : forall j, magrees (string_terminal_loop (U:=U) src i data j) (string_terminal_loop_rel src i data j).
  Proof. induction data as [|c data IH]; intros j; cbn [string_terminal_loop string_terminal_loop_rel]; walk. Qed.
  Lemma var_agrees r (f g : parser U) : pagrees f g -> pagrees (var_name_kernel r f) (var_name_kernel_rel r g).
  Proof. intros H k i. unfold var_name_kernel, var_name_kernel_rel, memoized_behaviour, memoized_behaviour_rel, default_behaviour, default_behaviour_rel. walk. Qed.
  Lemma growth_agrees (f g : parser U) r parent pos prev : pagrees f g -> forall fuel last lk ck,
    magrees (growth_loop fuel r parent pos f prev last lk ck) (growth_loop_rel fuel r parent pos g prev last lk ck).
  Proof. intros H fuel. induction fuel as [|n IH]; intros last lk ck; cbn [growth_loop growth_loop_rel]; walk. Qed.
  Lemma lr_agrees fuel inv r (f g : parser U) : pagrees f g -> pagrees (var_name_kernel_indirect_left_recursion fuel inv r f) (var_name_kernel_indirect_left_recursion_rel fuel inv r g).
  Proof.
    intros H k i. pose proof (fun rr pa po pv => growth_agrees f g rr pa po pv H) as HG.
    unfold var_name_kernel_indirect_left_recursion, var_name_kernel_indirect_left_recursion_rel, growth_function, growth_function_rel. walk.
  Qed.
  (** Hand-written hooks: whatever they do, they do the same in both builds
      when the closure they wrap does. *)
  Definition hooks_agree (pr : program U) (src : source) : Prop :=
    forall h f g, pagrees f g -> pagrees (pr_hook pr h src f) (pr_hook pr h src g).
  Lemma eval_agrees pr src : hooks_agree pr src -> forall fuel e, pagrees (eval pr src fuel e) (eval_rel pr src fuel e).
  Proof.
    intros Hh. induction fuel as [|n IH]; intros e; [intros k i; apply magrees_refl|]. cbn [eval eval_rel].
    assert (Hc : forall f, pagrees (fun key position => match pr_fn pr f with Some body => eval pr src n body key position | None => mpanic PNoFunction end)
                                   (fun key position => match pr_fn pr f with Some body => eval_rel pr src n body key position | None => mpanic PNoFunction end)).
    { intros f k i. destruct (pr_fn pr f); [apply IH|apply magrees_refl]. }
    destruct e; cbv zeta.
    - unfold terminal_kernel, terminal_kernel_rel. walk.
    - intros k i. apply string_agrees.
    - unfold ordered_choice_match_range_kernel, ordered_choice_match_range_kernel_rel. walk.
    - pose proof (IH e1). pose proof (IH e2). unfold sequence_kernel. walk.
    - pose proof (IH e1). pose proof (IH e2). unfold ordered_choice_kernel. walk.
    - pose proof (IH e). unfold and_predicate_kernel. walk.
    - pose proof (IH e). unfold not_predicate_kernel. walk.
    - pose proof (IH e). pose proof (loop_agrees n _ _ (IH e)). unfold one_or_more_kernel. walk.
    - intros k i. unfold zero_or_more_kernel. by apply loop_agrees.
    - pose proof (IH e). unfold optional_kernel. walk.
    - pose proof (IH e). unfold subexpression_kernel. walk.
    - apply var_agrees, Hc.
    - apply Hc.
    - apply lr_agrees, Hc.
    - apply Hh, IH.
  Qed.
End kernels.

(** Pruning: the parent is always an older node than the child, so the check of
    the debug build never fires, whatever the store. *)
Lemma clear_kernel_rel p fuel : forall new parent index, parent < p_len new ->
  clear_false_kernel_rel fuel p new parent index = clear_false_kernel fuel p new parent index /\
  (forall new', clear_false_kernel fuel p new parent index = Ok new' -> p_len new <= p_len new').
Proof.
  induction fuel as [|fuel IH]; intros new parent index Hp; [done|]. cbn [clear_false_kernel clear_false_kernel_rel].
  destruct (get_node p index) as [n| |]; cbn [rbind]; [|done..].
  destruct (n_result n && negb (n_start n =? n_end n)); [|split; [done|by intros ? [= <-]]].
  unfold add_node. destruct (N.ltb_spec (p_len new) u32_modulus); cbn [rbind]; [|done].
  set (new1 := Publisher _ (p_len new + 1)). set (k := p_len new) in *.
  assert (Hc : connect new1 parent k = connect_rel new1 parent k).
  { unfold connect. destruct (N.eqb_spec parent k); [lia|done]. }
  rewrite <- Hc. destruct (connect new1 parent k) as [new2| |] eqn:E2; cbn [rbind]; [|done..].
  assert (H2 : p_len new2 = k + 1).
  { unfold connect in E2. destruct (parent =? k); [done|]. destruct (get_node new1 parent); simpl in E2; [|done..]. by injection E2 as <-. }
  assert (Hk : k < p_len new2) by lia. assert (Hle : p_len new <= p_len new2) by (unfold k in *; lia).
  clear E2 Hc H2. revert new2 Hk Hle.
  induction (n_children n) as [|i l IHl]; intros new2 Hk Hle; [split; [done|by intros ? [= <-]]|].
  destruct (IH new2 k i Hk) as [-> Hm]. destruct (clear_false_kernel fuel p new2 k i) as [new3| |] eqn:E3; cbn [rbind]; [|done..].
  specialize (Hm _ eq_refl). apply IHl; lia.
Qed.
Theorem C60_clear_false fuel gr p : clear_false_rel fuel gr p = clear_false fuel gr p.
Proof.
  unfold clear_false_rel, clear_false. destruct (get_node p 0) as [n| |]; cbn [rbind]; [|done..].
  destruct (n_result n); [|done]. destruct (add_node _ _ _ _ _) as [[k new]| |] eqn:E; cbn [rbind]; [|done..].
  assert (Hl : 0 < p_len new).
  { unfold add_node in E. destruct (_ <? _); [|done]. injection E as <- <-. simpl. lia. }
  clear E. revert new Hl. induction (n_children n) as [|i l IH]; intros new Hl; [done|].
  cbn [clear_false_children clear_false_children_rel]. destruct (clear_kernel_rel p fuel new 0 i Hl) as [-> Hm].
  destruct (clear_false_kernel fuel p new 0 i) as [new'| |]; cbn [rbind]; [|done..]. apply IH. specialize (Hm _ eq_refl). lia.
Qed.

(** Every call in every session, with any hooks that keep to the contract and
    do not look at the build profile. *)
Theorem C60_release_gen {U} (pr : program U) fn s u0 (Pp : panic -> Prop) st fuel e pos :
  N.of_nat (length s) < u32_modulus -> program_wf pr fn ->
  Pp PKeyOverflow -> ~ Pp POverflow -> ~ Pp PDebugAssert ->
  hooks_behave (N.of_nat (length s)) (memo_claim pr s fn) Pp pr (source_new s) -> hooks_agree pr (source_new s) ->
  session pr (expr_wf pr fn) s u0 st -> expr_wf pr fn e -> pos <= N.of_nat (length s) ->
  eval_rel pr (source_new s) fuel e 0 pos st = eval pr (source_new s) fuel e 0 pos st.
Proof.
  intros Hs Hpr HK HO HD Hh Ha HS He Hpos.
  pose proof (eval_safe pr s fn Hs Pp HK Hpr Hh fuel e He root_open st 0 pos (session_usable pr fn s u0 Hs Hpr Pp HK Hh st HS) eq_refl Hpos) as H.
  pose proof (eval_agrees pr (source_new s) Ha fuel e 0 pos st) as Hag. unfold agrees in Hag.
  destruct (eval pr (source_new s) fuel e 0 pos st) as [|[]|]; done.
Qed.
Lemma no_hooks_agree {U} (pr : program U) src : no_hooks pr -> hooks_agree pr src.
Proof. intros H h f g Hfg. by rewrite !H. Qed.

(** Every generated parser (no hooks), left recursion included. *)
Theorem C60_release {U} (pr : program U) fn s u0 st fuel e pos :
  N.of_nat (length s) < u32_modulus -> program_wf pr fn -> no_hooks pr ->
  session pr (expr_wf pr fn) s u0 st -> expr_wf pr fn e -> pos <= N.of_nat (length s) ->
  eval_rel pr (source_new s) fuel e 0 pos st = eval pr (source_new s) fuel e 0 pos st.
Proof.
  intros Hs Hpr Hnh. apply (C60_release_gen pr fn s u0 key_overflow); try done; [by apply no_hooks_behave|by apply no_hooks_agree].
Qed.

(** The whole parse: flag, end position and tree. *)
Theorem C60_parse_gen {U} (pr : program U) fn s u0 (Pp : panic -> Prop) fuel e :
  N.of_nat (length s) < u32_modulus -> program_wf pr fn ->
  Pp PKeyOverflow -> ~ Pp POverflow -> ~ Pp PDebugAssert ->
  hooks_behave (N.of_nat (length s)) (memo_claim pr s fn) Pp pr (source_new s) -> hooks_agree pr (source_new s) ->
  expr_wf pr fn e -> parse_with_rel pr u0 fuel e s = parse_with pr u0 fuel e s.
Proof.
  intros Hs Hpr HK HO HD Hh Ha He. unfold parse_with_rel, parse_with, run_entry_rel, run_entry.
  assert (Hp : 0 <= N.of_nat (length s)) by lia.
  rewrite (C60_release_gen pr fn s u0 Pp _ fuel e 0 Hs Hpr HK HO HD Hh Ha (session_fresh _ _ _ _) He Hp).
  destruct (eval _ _ _ _ _ _ _) as [[[b q] st]| |]; cbn [rbind]; [|done..]. by rewrite C60_clear_false.
Qed.
Theorem C60_parse {U} (pr : program U) fn s u0 fuel e :
  N.of_nat (length s) < u32_modulus -> program_wf pr fn -> no_hooks pr -> expr_wf pr fn e ->
  parse_with_rel pr u0 fuel e s = parse_with pr u0 fuel e s.
Proof.
  intros Hs Hpr Hnh. apply (C60_parse_gen pr fn s u0 key_overflow); try done; [by apply no_hooks_behave|by apply no_hooks_agree].
Qed.

(** Instance: the shipped crate with a hook (it slices the source, which panics
    alike in both builds). *)
Definition ex11_fn (r : N) : N := if r =? ex11_R_Grammar then ex11_f_grammar else ex11_f_unique_line_matcher.
Lemma ex11_wf : program_wf ex11_program ex11_fn.
Proof.
  intros f e He.
  assert (H : forallb (fun e => expr_wfb ex11_program ex11_fn e) ex11_table = true) by (vm_compute; reflexivity).
  apply expr_wfb_ok. rewrite forallb_forall in H. apply H. apply elem_of_list_In, elem_of_list_lookup_2 with (N.to_nat f). exact He.
Qed.
Lemma ex11_hooks_agree src : hooks_agree ex11_program src.
Proof.
  intros h f g Hfg. simpl. destruct (h =? _); [|done]. unfold unique_line_cache. walk.
Qed.
Theorem C60_hook fuel s : N.of_nat (length s) < u32_modulus ->
  parse_with_rel ex11_program [] fuel ex11_entry s = parse_with ex11_program [] fuel ex11_entry s.
Proof.
  intros Hs. apply (C60_parse_gen ex11_program ex11_fn s [] (fun p => p = PKeyOverflow \/ p = PStrSlice)); try done.
  - exact ex11_wf.
  - by left.
  - by intros [].
  - by intros [].
  - by apply C31_hook_behaves.
  - apply ex11_hooks_agree.
Qed.

(** Instances: all shipped parsers, the generator's own included. *)
Definition same_builds {U} (pr : program U) (u0 : U) (e : expr) : Prop :=
  forall fuel s, N.of_nat (length s) < u32_modulus -> parse_with_rel pr u0 fuel e s = parse_with pr u0 fuel e s.
Lemma table_same_builds table gr entries entry :
  let pr := table_program (U:=unit) table gr in let fn := fn_of table entries in
  forallb (fun x => expr_wfb pr fn (snd x)) (imap pair table) = true -> expr_wfb pr fn entry = true ->
  same_builds pr tt entry.
Proof.
  intros pr fn H1 H2 fuel s Hs. apply (C60_parse pr fn); [done|by apply check_wf|apply table_no_hooks|by apply expr_wfb_ok].
Qed.
Theorem C60_shipped :
  same_builds dsl_program tt dsl_entry /\ same_builds ex1_program tt ex1_entry /\ same_builds ex2_program tt ex2_entry /\ same_builds ex3_program tt ex3_entry /\ same_builds ex4_program tt ex4_entry /\ same_builds ex5_program tt ex5_entry /\ same_builds ex6_program tt ex6_entry /\ same_builds ex7_program tt ex7_entry /\ same_builds ex8_program tt ex8_entry /\ same_builds ex9_program tt ex9_entry /\ same_builds ex10_program tt ex10_entry /\
  same_builds ex11_program [] ex11_entry.
Proof.
  split; [exact (table_same_builds dsl_table dsl_R_Grammar [(dsl_R_Grammar, dsl_f_grammar)] dsl_entry ltac:(vm_compute; reflexivity) ltac:(vm_compute; reflexivity))|].
  split; [exact (table_same_builds ex1_table ex1_R_Grammar [(ex1_R_Grammar, ex1_f_grammar)] ex1_entry ltac:(vm_compute; reflexivity) ltac:(vm_compute; reflexivity))|].
  split; [exact (table_same_builds ex2_table ex2_R_Grammar [(ex2_R_Grammar, ex2_f_grammar)] ex2_entry ltac:(vm_compute; reflexivity) ltac:(vm_compute; reflexivity))|].
  split; [exact (table_same_builds ex3_table ex3_R_Grammar [(ex3_R_Grammar, ex3_f_grammar)] ex3_entry ltac:(vm_compute; reflexivity) ltac:(vm_compute; reflexivity))|].
  split; [exact (table_same_builds ex4_table ex4_R_Grammar [(ex4_R_Grammar, ex4_f_grammar)] ex4_entry ltac:(vm_compute; reflexivity) ltac:(vm_compute; reflexivity))|].
  split; [exact (table_same_builds ex5_table ex5_R_Grammar [(ex5_R_Grammar, ex5_f_grammar)] ex5_entry ltac:(vm_compute; reflexivity) ltac:(vm_compute; reflexivity))|].
  split; [exact (table_same_builds ex6_table ex6_R_Grammar [(ex6_R_Grammar, ex6_f_grammar)] ex6_entry ltac:(vm_compute; reflexivity) ltac:(vm_compute; reflexivity))|].
  split; [exact (table_same_builds ex7_table ex7_R_Grammar [(ex7_R_Grammar, ex7_f_grammar)] ex7_entry ltac:(vm_compute; reflexivity) ltac:(vm_compute; reflexivity))|].
  split; [exact (table_same_builds ex8_table ex8_R_Grammar [(ex8_R_Grammar, ex8_f_grammar)] ex8_entry ltac:(vm_compute; reflexivity) ltac:(vm_compute; reflexivity))|].
  split; [exact (table_same_builds ex9_table ex9_R_Grammar [(ex9_R_Grammar, ex9_f_grammar)] ex9_entry ltac:(vm_compute; reflexivity) ltac:(vm_compute; reflexivity))|].
  split; [exact (table_same_builds ex10_table ex10_R_Grammar [(ex10_R_Grammar, ex10_f_grammar)] ex10_entry ltac:(vm_compute; reflexivity) ltac:(vm_compute; reflexivity))|].
  intros fuel s. apply C60_hook.
Qed.

(** The builds are not the same outside these uses: the last position of the
    u32 range, and a node connected to itself. *)
Theorem C60_differs :
  (forall st : pstate unit, incr (u32_modulus - 1) st = Panic POverflow /\ incr_rel (u32_modulus - 1) st = Ok (0, st)) /\
  (connect (publisher_new 0) 0 0 = Panic PDebugAssert /\ exists p, connect_rel (publisher_new 0) 0 0 = Ok p /\ p_nodes p !! 0 = Some (Node 0 0 0 0 true [0])).
Proof. split; [by intros st|]. split; [done|]. by eexists. Qed.
