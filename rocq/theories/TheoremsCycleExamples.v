(** Theorems C57 on the shipped examples with indirect left recursion. *)
From Verif Require Import SpecCycle SpecCfg SpecSession ProofBasics ProofPeg ProofSound ProofCycle TheoremsCycle TheoremsGenKeys DslSources Programs.
Local Open Scope N_scope.

(** ** Checking that a table contains a cycle *)
Section check.
  Context (table : list expr) (gr : N) (fns : list N) (plains : list N) (inv : list N).
  (** [fns] lists the function of each label, [plains] the functions without
      left recursion. *)
  Definition fn_list (r : N) : N := default u32_modulus (fns !! N.to_nat r).
  Definition plain_list (g : N) : bool := existsb (N.eqb g) plains.
  Fixpoint plain_codeb (e : expr) : bool :=
    match e with
    | ETerminal _ | EString _ | ERange _ _ => true
    | ESeq l r | EChoice l r => plain_codeb l && plain_codeb r
    | EAnd e | ENot e | EPlus e | EStar e | EOpt e | ESub e => plain_codeb e
    | EVar r g => (fn_list r =? g) && plain_list g
    | EInline g => plain_list g
    | ELR _ _ _ | EHook _ _ => false
    end.
  Lemma plain_codeb_ok e : plain_codeb e = true -> plain_code fn_list plain_list e.
  Proof. induction e; simpl; rewrite ?andb_true_iff, ?N.eqb_eq; try done; tauto. Qed.
  Definition plain_alternativeb (a : alternative) : bool :=
    match a with Follow None => true | Follow (Some t) => plain_codeb t | Seed e => plain_codeb e end.
  Definition memberb (m next : member) : bool :=
    (fn_list (m_label m) =? m_fn m) && negb (plain_list (m_fn m)) &&
    match m_alts m with Follow _ :: _ => true | _ => false end && forallb plain_alternativeb (m_alts m).
  Notation pr := (table_program table gr : program unit).
  Lemma plains_ok : forallb (fun g => match table !! N.to_nat g with Some b => plain_codeb b | None => true end) plains = true ->
    forall g body, plain_list g = true -> pr_fn pr g = Some body -> plain_code fn_list plain_list body.
  Proof.
    rewrite forallb_forall. intros H g body Hg Hb. apply existsb_exists in Hg as (x & Hx & <-%N.eqb_eq). specialize (H g Hx). simpl in Hb. rewrite Hb in H. by apply plain_codeb_ok.
  Qed.
  Lemma memberb_ok m next : memberb m next = true ->
    (exists body, pr_fn pr (m_fn m) = Some body /\ alternatives inv (m_label next) (m_fn next) body = m_alts m) -> member_ok pr fn_list plain_list inv m next.
  Proof.
    unfold memberb. rewrite !andb_true_iff, N.eqb_eq, negb_true_iff, forallb_forall. intros [[[H1 H2] H3] H4] H5. split_and!; [done..| |].
    - destruct (m_alts m) as [|[t|] l]; try done. eauto.
    - apply Forall_forall. intros a Ha. specialize (H4 a Ha). destruct a as [[t|]|]; simpl in *; try done; by apply plain_codeb_ok.
  Qed.
End check.

(** ** Closed expressions *)
Definition nothing : pgrammar := fun _ => None.
Lemma star_map g g' s e e' : (forall x o, peg g s e x o -> peg g' s e' x o) -> forall x o, peg g s (PStar e) x o -> peg g' s (PStar e') x o.
Proof.
  intros H x o HP. remember (PStar e) as E eqn:EE. induction HP; try discriminate EE; injection EE as ->.
  - apply peg_star_stop. by apply H.
  - eapply peg_star_more; [by apply H|]. by apply IHHP2.
Qed.
Lemma seq_map g g' s a b a' b' : (forall x o, peg g s a x o -> peg g' s a' x o) -> (forall x o, peg g s b x o -> peg g' s b' x o) ->
  forall x o, peg g s (PSeq a b) x o -> peg g' s (PSeq a' b') x o.
Proof. intros Ha Hb x o H. inversion H; subst; [eapply peg_seq_ok; eauto|apply peg_seq_fail; auto]. Qed.
Lemma empty_seq g s b x o : peg g s (PSeq (PStr []) b) x o -> peg g s b x o.
Proof.
  inversion 1 as [| | | | | |? ? ? ? ? Ha Hb|? ? ? Ha| | | | | | | | | | | | |]; subst.
  - pose proof (peg_det _ _ _ _ _ _ Ha (peg_str_ok g s [] x (occurs_at_nil _ _))) as [= ->]. simpl in Hb. by rewrite N.add_0_r in Hb.
  - pose proof (peg_det _ _ _ _ _ _ Ha (peg_str_ok g s [] x (occurs_at_nil _ _))). done.
Qed.
Lemma ref_body g s l A body x o : g A = Some body -> peg g s (PRef l A) x o -> peg g s body x o.
Proof. intros H HP. inversion HP; subst. congruence. Qed.
Lemma range_any g g' s a b x o : peg g s (PRange a b) x o -> peg g' s (PRange a b) x o.
Proof. inversion 1; subst; econstructor; eauto. Qed.
Lemma char_any g g' s c x o : peg g s (PChar c) x o -> peg g' s (PChar c) x o.
Proof. inversion 1; subst; by constructor. Qed.

(** The crate's parser answers on every input of at most [n] bytes, with the
    longest prefix [e] describes. *)
Definition parses_exactly (n : N) (pr : program unit) (entry : expr) (e : pexp) : Prop :=
  forall s, N.of_nat (length s) <= n -> exists fuel0 (b : bool) q st,
    peg nothing s e 0 (if b then Some q else None) /\ (b = false -> q = 0) /\
    forall fuel, (fuel0 <= fuel)%nat -> run_entry pr tt fuel entry s = Ok ((b, q), st).

(** *** Example 2: [A = B 'a' / 'a'; B = A 'b' / 'b'] *)
Definition ex2_inv : list N := [ex2_R_A; ex2_R_B].
Definition ex2_A : member := Member ex2_R_A ex2_f_a [Follow (Some (ETerminal 97)); Seed (ETerminal 97)].
Definition ex2_B : member := Member ex2_R_B ex2_f_b [Follow (Some (ETerminal 98)); Seed (ETerminal 98)].
Lemma ex2_cycle : left_cycle ex2_program (fn_list [ex2_f_a; ex2_f_b; ex2_f_grammar]) (plain_list []) ex2_inv ex2_A [ex2_B].
Proof.
  split.
  - by apply plains_ok.
  - apply (bool_decide_unpack _). vm_compute. done.
  - done.
  - split; [|split; [|done]]; (apply memberb_ok; [done|]); (eexists; split; vm_compute; reflexivity).
Qed.
(** *** Example 7 *)
Definition ex7_inv : list N := [ex7_R_Expr; ex7_R_Intermediate].
Definition ex7_num : expr := EVar ex7_R_Num ex7_f_num.
Definition ex7_expr : member := Member ex7_R_Expr ex7_f_expr [Follow (Some (ESeq (ETerminal 45) ex7_num)); Seed ex7_num].
Definition ex7_intermediate : member := Member ex7_R_Intermediate ex7_f_intermediate [Follow None].
Lemma ex7_cycle : left_cycle ex7_program (fn_list [ex7_f_grammar; ex7_f_expr; ex7_f_intermediate; ex7_f_num]) (plain_list [ex7_f_num]) ex7_inv ex7_expr [ex7_intermediate].
Proof.
  split.
  - by apply plains_ok.
  - apply (bool_decide_unpack _). vm_compute. done.
  - done.
  - split; [|split; [|done]]; (apply memberb_ok; [done|]); (eexists; split; vm_compute; reflexivity).
Qed.
(** The same cycle, entered at <intermediate>. *)
Lemma ex7_cycle_2 : left_cycle ex7_program (fn_list [ex7_f_grammar; ex7_f_expr; ex7_f_intermediate; ex7_f_num]) (plain_list [ex7_f_num]) ex7_inv ex7_intermediate [ex7_expr].
Proof.
  split.
  - by apply plains_ok.
  - apply (bool_decide_unpack _). vm_compute. done.
  - intros r. unfold ex7_inv. simpl. set_solver.
  - split; [|split; [|done]]; (apply memberb_ok; [done|]); (eexists; split; vm_compute; reflexivity).
Qed.
(** *** Examples 8 and 9 *)
Definition ex8_inv : list N := [ex8_R_Test_indirect_three_level_A; ex8_R_Test_indirect_three_level_B; ex8_R_Test_indirect_three_level_C].
Definition ex8_num : expr := EVar ex8_R_Test_LR_num ex8_f_test_lr_num.
Definition ex8_A : member := Member ex8_R_Test_indirect_three_level_A ex8_f_test_indirect_three_level_a [Follow (Some (ESeq (ETerminal 45) ex8_num)); Seed ex8_num].
Definition ex8_B : member := Member ex8_R_Test_indirect_three_level_B ex8_f_test_indirect_three_level_b [Follow None].
Definition ex8_C : member := Member ex8_R_Test_indirect_three_level_C ex8_f_test_indirect_three_level_c [Follow None].
Definition ex8_fn : N -> N := fn_list [ex8_f_grammar; ex8_f_num; ex8_f_test_lr_num; ex8_f_test_indirect_three_level_a; ex8_f_test_indirect_three_level_b; ex8_f_test_indirect_three_level_c].
Lemma ex8_cycle : left_cycle ex8_program ex8_fn (plain_list [ex8_f_num; ex8_f_test_lr_num]) ex8_inv ex8_A [ex8_B; ex8_C].
Proof.
  split.
  - by apply plains_ok.
  - apply (bool_decide_unpack _). vm_compute. done.
  - done.
  - split; [|split; [|split; [|done]]]; (apply memberb_ok; [done|]); (eexists; split; vm_compute; reflexivity).
Qed.
Definition ex9_inv : list N := [ex9_R_Test_indirect_three_level_A; ex9_R_Test_indirect_three_level_B; ex9_R_Test_indirect_three_level_C; ex9_R_Test_indirect_three_level_D; ex9_R_Test_indirect_three_level_E].
Definition ex9_num : expr := EVar ex9_R_Test_LR_num ex9_f_test_lr_num.
Definition ex9_A : member := Member ex9_R_Test_indirect_three_level_A ex9_f_test_indirect_three_level_a [Follow (Some (ESeq (ETerminal 45) ex9_num)); Seed ex9_num].
Definition ex9_B : member := Member ex9_R_Test_indirect_three_level_B ex9_f_test_indirect_three_level_b [Follow None].
Definition ex9_C : member := Member ex9_R_Test_indirect_three_level_C ex9_f_test_indirect_three_level_c [Follow None].
Definition ex9_D : member := Member ex9_R_Test_indirect_three_level_D ex9_f_test_indirect_three_level_d [Follow None].
Definition ex9_E : member := Member ex9_R_Test_indirect_three_level_E ex9_f_test_indirect_three_level_e [Follow None].
Definition ex9_fn : N -> N := fn_list [ex9_f_grammar; ex9_f_num; ex9_f_test_lr_num; ex9_f_test_indirect_three_level_a; ex9_f_test_indirect_three_level_b;
  ex9_f_test_indirect_three_level_c; ex9_f_test_indirect_three_level_d; ex9_f_test_indirect_three_level_e].
Lemma ex9_cycle : left_cycle ex9_program ex9_fn (plain_list [ex9_f_num; ex9_f_test_lr_num]) ex9_inv ex9_A [ex9_B; ex9_C; ex9_D; ex9_E].
Proof.
  split.
  - by apply plains_ok.
  - apply (bool_decide_unpack _). vm_compute. done.
  - done.
  - split; [|split; [|split; [|split; [|split; [|done]]]]]; (apply memberb_ok; [done|]); (eexists; split; vm_compute; reflexivity).
Qed.

(** ** What they parse *)
Definition a_ba_star : pexp := PSeq (PChar 97) (PStar (PSeq (PChar 98) (PChar 97))).
Definition digits_minus : pexp := PSeq (PRange 48 57) (PStar (PSeq (PChar 45) (PRange 48 57))).

Lemma char_consumes g s c x y : peg g s (PChar c) x (Some y) -> y = x + 1 /\ s !! N.to_nat x = Some c.
Proof. inversion 1; subst; done. Qed.
Lemma range_consumes g s a b x y : peg g s (PRange a b) x (Some y) -> y = x + 1.
Proof. inversion 1; subst; done. Qed.
Lemma seq_some g s a b x y : peg g s (PSeq a b) x (Some y) -> exists z, peg g s a x (Some z) /\ peg g s b z (Some y).
Proof. inversion 1; subst; eauto. Qed.

Lemma ex2_exact s o : cycle_means (grammar_of ex2_program) s 0 (map m_alts [ex2_A; ex2_B]) o -> peg nothing s a_ba_star 0 o.
Proof.
  intros H. apply (C57_seed_then_tails _ s 0 [Some (ETerminal 97)] [ETerminal 97] [([Some (ETerminal 98)], [ETerminal 98])] o) in H.
  - cbn [choice_of map pexp_of round_exp tail_exp fst] in H. revert H. apply seq_map; [apply char_any|]. apply star_map. intros x o' H.
    assert (H' : peg (grammar_of ex2_program) s (PSeq (PChar 98) (PChar 97)) x o').
    { revert H. apply seq_map; [|done]. intros x' o2. apply empty_seq. }
    revert H'. apply seq_map; apply char_any.
  - cbn [choice_of map pexp_of]. intros q Hq. apply char_consumes in Hq as [-> Hq]. split; [lia|]. intros y e Hy He.
    apply elem_of_list_singleton in Hy as ->. apply elem_of_list_singleton in He as ->. simpl. constructor. congruence.
  - cbn [choice_of map pexp_of round_exp tail_exp fst]. intros x y Hy. apply seq_some in Hy as (z & Hz & [-> _]%char_consumes).
    apply seq_some in Hz as (w & Hw & [-> _]%char_consumes). inversion Hw; subst. simpl. lia.
Qed.
(** Both the digit rule and the round are seen through. *)
Lemma digits_exact g s num l o :
  (forall x o, peg g s (pexp_of num) x o -> peg nothing s (PRange 48 57) x o) ->
  Forall (fun a => a = [Follow None]) l ->
  cycle_means g s 0 ([Follow (Some (ESeq (ETerminal 45) num)); Seed num] :: l) o -> peg nothing s digits_minus 0 o.
Proof.
  intros Hnum Hl H.
  assert (Hr : forall x o, peg g s (round_exp ([Some (ESeq (ETerminal 45) num)] :: map (fun _ => [None]) l)) x o -> peg nothing s (PSeq (PChar 45) (PRange 48 57)) x o).
  { intros x o' Hx. cbn [round_exp] in Hx.
    assert (He : forall x o, peg g s (round_exp (map (fun _ : list alternative => [None]) l)) x o -> o = Some x).
    { clear. induction l as [|a l IH]; cbn [map round_exp]; intros x o Hx.
      - pose proof (peg_det _ _ _ _ _ _ Hx (peg_str_ok g s [] x (occurs_at_nil _ _))) as ->. simpl. by rewrite N.add_0_r.
      - inversion Hx; subst.
        + match goal with H : peg _ _ (round_exp _) _ _ |- _ => apply IH in H as [= ->] end. cbn [map choice_of tail_exp] in *.
          match goal with H : peg _ _ (PStr []) _ _ |- _ => pose proof (peg_det _ _ _ _ _ _ H (peg_str_ok g s [] x (occurs_at_nil _ _))) as -> end. simpl. by rewrite N.add_0_r.
        + match goal with H : peg _ _ (round_exp _) _ _ |- _ => apply IH in H end. done. }
    cbn [map choice_of tail_exp pexp_of] in Hx. inversion Hx; subst.
    - match goal with H : peg _ _ (round_exp _) _ _ |- _ => apply He in H as [= ->] end. match goal with H : peg _ _ (PSeq (PChar 45) _) _ _ |- _ => revert H end.
      apply seq_map; [apply char_any|apply Hnum].
    - match goal with H : peg _ _ (round_exp _) _ _ |- _ => apply He in H end. done. }
  assert (Hshape : [Follow (Some (ESeq (ETerminal 45) num)); Seed num] :: l =
    map (fun x => map Follow (fst x) ++ map Seed (snd x)) (([Some (ESeq (ETerminal 45) num)], [num]) :: map (fun _ => ([None], [])) l)).
  { cbn [map fst snd app]. f_equal. clear -Hl. induction Hl as [|a l -> _ IH]; [done|]. cbn [map]. f_equal. exact IH. }
  rewrite Hshape in H. apply C57_seed_then_tails in H.
  - rewrite map_map in H. cbn [fst] in H. revert H. apply seq_map; [|by apply star_map]. intros x o' Hx. cbn [map choice_of] in Hx. by apply Hnum.
  - cbn [map choice_of]. intros q Hq. apply Hnum, range_consumes in Hq. split; [lia|]. intros y e Hy He. apply elem_of_list_In, in_map_iff in Hy as (a & <- & _). by apply elem_of_nil in He.
  - rewrite map_map. cbn [fst]. intros x y Hy. apply Hr in Hy. apply seq_some in Hy as (z & [-> _]%char_consumes & ->%range_consumes). lia.
Qed.

Lemma exactly n file table gr v f fn pl inv m0 rest e : n < u32_modulus ->
  answers_within n file table gr v f -> left_cycle (table_program table gr : program unit) fn pl inv m0 rest ->
  pr_fn (table_program table gr : program unit) f = Some (ELR inv (m_label m0) (m_fn m0)) ->
  (forall s o, cycle_means (grammar_of (table_program table gr : program unit)) s 0 (map m_alts (m0 :: rest)) o -> peg nothing s e 0 o) ->
  parses_exactly n (table_program table gr) (EVar v f) e.
Proof.
  intros Hn [_ HA] HC Hf He s Hl. destruct (HA s Hl) as (fuel0 & b & q & st & _ & Hq & H). exists fuel0, b, q, st. split; [|done].
  apply He. eapply (C57_entry (table_program table gr) fn pl inv s tt ltac:(lia) m0 rest HC v f fuel0 b q st Hf). by apply H.
Qed.

(** Example 2 matches an 'a' and then pairs "ba" (texts beginning with 'b' are
    refused, although 'ba' can be derived); examples 7, 8 and 9 match digits
    separated by '-'. *)
Theorem C57_example_2 : parses_exactly 21000 ex2_program ex2_entry a_ba_star.
Proof. eapply exactly; [done|apply C56_examples|apply ex2_cycle|done|apply ex2_exact]. Qed.
Theorem C57_example_7 : parses_exactly 18000 ex7_program ex7_entry digits_minus.
Proof.
  eapply exactly; [done|apply C56_examples|apply ex7_cycle|done|]. intros s o. apply digits_exact; [|repeat constructor].
  intros x o' H. eapply ref_body in H; [|vm_compute; reflexivity]. by eapply range_any.
Qed.
Theorem C57_example_8 : parses_exactly 13000 ex8_program ex8_entry digits_minus.
Proof.
  eapply exactly; [done|apply C56_examples|apply ex8_cycle|done|]. intros s o. apply digits_exact; [|repeat constructor].
  intros x o' H. eapply ref_body in H; [|vm_compute; reflexivity]. eapply ref_body in H; [|vm_compute; reflexivity]. by eapply range_any.
Qed.
Theorem C57_example_9 : parses_exactly 9000 ex9_program ex9_entry digits_minus.
Proof.
  eapply exactly; [done|apply C56_examples|apply ex9_cycle|done|]. intros s o. apply digits_exact; [|repeat constructor].
  intros x o' H. eapply ref_body in H; [|vm_compute; reflexivity]. eapply ref_body in H; [|vm_compute; reflexivity]. by eapply range_any.
Qed.
(** A rule of the cycle without a seed of its own never matches when it is the
    one that is called first: <intermediate> = <expr> of example 7 refuses
    every input, though it derives what <expr> does. *)
Theorem C57_intermediate_fails s fuel b q st : N.of_nat (length s) < u32_modulus ->
  run_entry ex7_program tt fuel (ELR ex7_inv ex7_R_Intermediate ex7_f_intermediate) s = Ok ((b, q), st) -> b = false /\ q = 0.
Proof.
  intros Hs Hev. destruct (C57_cycle _ _ _ _ s tt Hs _ _ ex7_cycle_2 _ _ _ _ _ _ (session_fresh _ _ _ _) Hev) as [H1 H2].
  apply C57_seedless in H1; [|intros e He; cbn [m_alts ex7_intermediate] in He; apply elem_of_list_singleton in He; done]. destruct b; [done|]. auto.
Qed.
Theorem C57_intermediate_derives : exists s, N.of_nat (length s) = 1 /\
  cfg (grammar_of ex7_program) s (pexp_of (ELR ex7_inv ex7_R_Intermediate ex7_f_intermediate)) 0 1.
Proof.
  exists (bytes "1"). split; [done|]. eapply cfg_ref; [vm_compute; reflexivity|]. eapply cfg_ref; [vm_compute; reflexivity|]. apply cfg_alt_r.
  eapply cfg_ref; [vm_compute; reflexivity|]. by eapply (cfg_range _ _ _ _ 49 0).
Qed.
