(** Theorem C62 on example 6: terms and factors. *)
From Verif Require Import SpecSafe SpecSession ProofBasics ProofPeg ProofSound ProofTree ProofTree2 Programs Checks TheoremsKernel TheoremsPackrat TheoremsDeriv TheoremsExact TheoremsKeys
  SpecLevels ProofCalcTree.
From Verif Require Import ProofCycle TheoremsCycle TheoremsCycleTree TheoremsCycleExamples TheoremsCycleTreeExamples ProofLevels TheoremsLevels.
Local Open Scope N_scope.

Definition ex6_num : expr := EVar ex6_R_Num ex6_f_num.
Definition ex6_fact : member := Member ex6_R_Fact ex6_f_fact [Follow (Some (ESeq (ETerminal 42) ex6_num)); Follow (Some (ESeq (ETerminal 47) ex6_num)); Seed ex6_num].
Definition ex6_facts : level := Level [ex6_R_Fact] ex6_fact [].
Definition ex6_term : member := Member ex6_R_Term ex6_f_term
  [Follow (Some (ESeq (ETerminal 43) (lv_call ex6_facts))); Follow (Some (ESeq (ETerminal 45) (lv_call ex6_facts))); Seed (lv_call ex6_facts)].
Definition ex6_terms : level := Level [ex6_R_Term] ex6_term [].
Definition ex6_fns : list N := [ex6_f_grammar; ex6_f_fact; ex6_f_num; ex6_f_term].
Notation fn6 := (fn_list ex6_fns).
Notation pl6 := (plain_list [ex6_f_num]).
Notation nr6 := (in_list []).

Lemma ex6_levels : levels_ok ex6_program fn6 pl6 nr6 [ex6_terms; ex6_facts].
Proof.
  split; [|split; [|done]].
  - split.
    + apply (bool_decide_unpack _). vm_compute. done.
    + done.
    + split; [|done]. split; [done|]. split; [done|]. split; [eexists; split; vm_compute; reflexivity|]. split; [by eexists _, _|].
      assert (Hc : level_code fn6 pl6 [ex6_facts] (lv_call ex6_facts)) by (right; exists ex6_facts; split; [by left|done]).
      assert (Hs : forall x, level_code fn6 pl6 [ex6_facts] (ESeq (ETerminal x) (lv_call ex6_facts))) by (intros x; right; split; [by left|done]).
      cbn [m_alts lv_first ex6_terms ex6_term]. repeat (apply List.Forall_cons); [..|apply List.Forall_nil]; cbn [level_alternative]; (split; [done|split; reflexivity]).
    + intros c' r Hc. apply elem_of_list_singleton in Hc as ->. cbn [lv_inv ex6_facts ex6_terms]. intros Hr. apply elem_of_list_singleton in Hr as ->.
      intros H. apply elem_of_list_singleton in H. discriminate H.
  - split.
    + apply (bool_decide_unpack _). vm_compute. done.
    + done.
    + split; [|done]. split; [done|]. split; [done|]. split; [eexists; split; vm_compute; reflexivity|]. split; [by eexists _, _|].
      assert (Hs : forall x, level_code fn6 pl6 [] (ESeq (ETerminal x) ex6_num)) by (intros x; left; done).
      cbn [m_alts lv_first ex6_facts ex6_fact]. repeat (apply List.Forall_cons); [..|apply List.Forall_nil]; cbn [level_alternative]; (split; [first [apply Hs|by left]|split; reflexivity]).
    + intros c' r Hc. by apply elem_of_nil in Hc.
Qed.
Lemma ex6_plain : plain_part ex6_program fn6 pl6 nr6.
Proof.
  split.
  - by apply plains_ok.
  - apply plains_tidy. vm_compute. reflexivity.
  - done.
Qed.
Lemma ex6_wf : program_wf ex6_program fn6.
Proof. apply check_wf. vm_compute. reflexivity. Qed.

Section trees.
  Context (s : list N).
  Notation g := (grammar_of ex6_program).
  Notation runs ls := (SpecLevels.runs g s fn6 pl6 ls).
  Notation byte_at := (byte_at s).
  Notation digit_at := (digit_at s).
  Notation digit_tree := (digit_tree ex6_R_Num).
  Notation product := (product ex6_R_Fact ex6_R_Num s).
  Notation whole_product := (whole_product ex6_R_Fact ex6_R_Num s).
  Notation sum := (sum ex6_R_Fact ex6_R_Num ex6_R_Term s).
  Notation whole_sum := (whole_sum ex6_R_Fact ex6_R_Num ex6_R_Term s).

  (** *** The pieces *)
  Definition char_answer c i (o : answer) : Prop :=
    match o with Some (j, D) => byte_at i = Some c /\ j = i + 1 /\ D = [] | None => byte_at i <> Some c end.
  Lemma plain_char c i o : runs [] (ETerminal c) i o -> char_answer c i o.
  Proof.
    intros [_ H]. destruct o as [[j D]|]; simpl in H |- *; [by apply deriv_char in H|]. inversion H; subst; done.
  Qed.
  Lemma above_char c i o : runs [ex6_facts] (ETerminal c) i o -> char_answer c i o.
  Proof. intros H. inversion H; subst. by apply plain_char. Qed.
  Definition digit_answer i (o : answer) : Prop :=
    match o with Some (j, D) => digit_at i /\ j = i + 1 /\ D = [digit_tree i] | None => ~ digit_at i end.
  Lemma num_runs i o : runs [] ex6_num i o -> digit_answer i o.
  Proof.
    intros [_ H]. destruct o as [[j D]|]; simpl in H |- *; inversion H; subst; match goal with H : grammar_of _ _ = Some _ |- _ => vm_compute in H; injection H as <- end;
      match goal with H : _ _ _ (PRange _ _) _ _ |- _ => inversion H; subst | H : _ _ _ (PRange _ _) _ _ _ |- _ => inversion H; subst end.
    - split; [|done]. eexists. split; [eassumption|lia].
    - intros (c & Hc & Hr). unfold SpecLevels.byte_at in Hc. naive_solver lia.
  Qed.
  Definition op_answer x i (o : answer) : Prop :=
    match o with Some (j, D) => byte_at i = Some x /\ digit_at (i + 1) /\ j = i + 2 /\ D = [digit_tree (i + 1)] | None => ~ (byte_at i = Some x /\ digit_at (i + 1)) end.
  Lemma op_num_runs x i o : runs [] (ESeq (ETerminal x) ex6_num) i o -> op_answer x i o.
  Proof.
    intros [_ H]. destruct o as [[j D]|]; cbn [pexp_of] in H.
    - inversion H as [| | |? ? ? k ? D1 D2 Ha Hb| | | | | | | | | | |]; subst. pose proof (plain_char x i (Some (k, D1)) (conj I Ha)) as (H1 & -> & ->).
      assert (Hn : runs [] ex6_num (i + 1) (Some (j, D2))) by done. apply num_runs in Hn as (H2 & -> & ->). split; [done|]. split; [done|]. split; [lia|done].
    - inversion H as [| | | | | |? ? ? k ? Ha Hb|? ? ? Ha| | | | | | | | | | | | |]; subst.
      + assert (Hn : runs [] ex6_num k None) by done. apply num_runs in Hn.
        assert (Ec : byte_at i = Some x /\ k = i + 1) by (inversion Ha; subst; done). destruct Ec as [_ ->]. by intros [_ ?].
      + pose proof (plain_char x i None (conj I Ha)) as Hc. by intros [? _].
  Qed.

  (** *** Facts *)
  Definition goes_on (n : ptree) : Prop := (byte_at (t_end n) = Some 42 \/ byte_at (t_end n) = Some 47) /\ digit_at (t_end n + 1).
  Lemma fact_first p o : tries (runs []) p None (m_alts ex6_fact) o -> digit_answer p o.
  Proof.
    intros H. inversion H; subst; [done|]. match goal with H : tries _ _ _ _ _ |- _ => rename H into H' end.
    inversion H'; subst; [done|]. match goal with H : tries _ _ _ [_] _ |- _ => rename H into H'' end.
    inversion H''; subst; [by apply num_runs|]. match goal with H : tries _ _ _ [] _ |- _ => inversion H; subst end.
    match goal with H : runs [] ex6_num _ _ |- _ => by apply num_runs in H end.
  Qed.
  Lemma fact_next p n o : tries (runs []) p (Some n) (m_alts ex6_fact) o ->
    (goes_on n /\ o = Some (t_end n + 2, [digit_tree (t_end n + 1)])) \/ (~ goes_on n /\ match o with Some (j, _) => j = p + 1 | None => True end).
  Proof.
    intros H. inversion H as [|n1 t1 l1 j1 D1 E1 T1|t1 l1 o1 T1 H1| |]; subst; cbn [tail_runs] in T1.
    { injection E1 as <-. apply op_num_runs in T1 as (A1 & A2 & -> & ->). left. split; [split; [by left|done]|done]. }
    apply op_num_runs in T1. simpl in T1. inversion H1 as [|n2 t2 l2 j2 D2 E2 T2|t2 l2 o2 T2 H2| |]; subst; cbn [tail_runs] in T2.
    { injection E2 as <-. apply op_num_runs in T2 as (A1 & A2 & -> & ->). left. split; [split; [by right|done]|done]. }
    apply op_num_runs in T2. simpl in T2. right. split; [intros [[A|A] B]; auto|].
    inversion H2 as [| | |e3 l3 j3 D3 T3|e3 l3 o3 T3 H3]; subst; [by apply num_runs in T3 as (_ & -> & _)|]. by inversion H3; subst.
  Qed.
  Lemma product_size t : product t -> exists k, t_end t = t_start t + 2 * k + 1 /\ tsize t = 2 * k + 2 /\ t_end t <= N.of_nat (length s) /\ prune_forest [t] = [t].
  Proof.
    assert (Hd : forall i, digit_at i -> i + 1 <= N.of_nat (length s)) by (intros i (c & Hc & _); by apply at_length in Hc).
    induction 1 as [i Hi|t _ (k & IH1 & IH2 & IH3 & IH4) _ Hi].
    - exists 0. cbn [t_end t_start]. split_and!; [lia|done|by apply Hd|]. apply prune_one; [lia|]. by apply prune_one; [lia|].
    - exists (k + 1). apply Hd in Hi. cbn [t_end t_start]. split_and!; [lia| |lia|].
      + rewrite tsize_eq. change (fsize [?a; ?b]) with (tsize a + (tsize b + 0)). rewrite IH2. change (tsize (digit_tree _)) with 1. lia.
      + apply prune_one; [lia|]. apply two_trees; [done|]. by apply prune_one; [lia|].
  Qed.
  Lemma fact_grows p t z : grows (runs []) p [ex6_fact] t z -> product t -> t_start t = p -> whole_product z /\ t_start z = p.
  Proof.
    induction 1 as [x y (x' & o & -> & Ho & ->) Hstop|x y z (x' & o & -> & Ho & E) Hlt _ IH]; intros Ht Hp.
    - split; [|done]. split; [done|]. intros Hon. apply fact_next in Ho as [[_ ->]|[Hn _]]; [|done]. simpl in Hstop. lia.
    - apply fact_next in Ho as [[[Hop Hd] ->]|[_ Ho]].
      + cbn [SpecCycleTree.node_of first_child app m_label ex6_fact] in E. injection E as ->. apply IH; [|done]. rewrite <- Hp. by apply product_more.
      + exfalso. destruct o as [[j D]|]; [|done]. injection E as ->. subst j. cbn [t_end] in Hlt. destruct (product_size _ Ht) as (k & Hk & _). lia.
  Qed.
  Definition fact_answer p (y : option ptree) : Prop := match y with Some f => whole_product f /\ t_start f = p | None => ~ digit_at p end.
  Lemma fact_gives p y : cycle_gives (runs []) p (lv_members ex6_facts) y -> fact_answer p y.
  Proof.
    intros (m & rest & o & [= <- <-] & Ho & H). apply fact_first in Ho. destruct o as [[j D]|]; [|by simpl in H; subst y].
    destruct Ho as (Hd & -> & ->). unfold SpecCycleTree.node_of in H. cbn [t_end] in H. destruct (N.leb_spec (p + 1) p) as [|_]; [lia|]. destruct H as (z & Hg & ->).
    eapply fact_grows; [exact Hg|by apply product_digit|done].
  Qed.

  (** *** Terms *)
  Lemma call_runs i o : runs [ex6_facts] (lv_call ex6_facts) i o -> exists y, o = called_tree y /\ fact_answer i y.
  Proof.
    intros H. inversion H as [e i' o' Hb|i' y Hy| | | | | |]; subst; [by destruct Hb as [Hb _]|]. exists y. split; [done|]. by apply fact_gives.
  Qed.
  Definition first_fact i (o : answer) : Prop := match o with Some (j, D) => exists f, whole_product f /\ t_start f = i /\ j = t_end f /\ D = [f] | None => ~ digit_at i end.
  Lemma call_answer i o : runs [ex6_facts] (lv_call ex6_facts) i o -> first_fact i o.
  Proof. intros (y & -> & H)%call_runs. destruct y as [f|]; [|done]. destruct H as [H1 H2]. by exists f. Qed.
  Definition op_fact x i (o : answer) : Prop :=
    match o with Some (j, D) => byte_at i = Some x /\ first_fact (i + 1) o | None => ~ (byte_at i = Some x /\ digit_at (i + 1)) end.
  Lemma op_call_runs x i o : runs [ex6_facts] (ESeq (ETerminal x) (lv_call ex6_facts)) i o -> op_fact x i o.
  Proof.
    intros H. inversion H as [e i' o' Hb| |a b i' j k D1 D2 Ha Hb|a b i' Ha|a b i' j D Ha Hb| | |]; subst.
    - destruct Hb as [Hb _]. destruct Hb as [_ Hb]. done.
    - apply above_char in Ha as (Hc & -> & ->). split; [done|]. by apply call_answer in Hb.
    - apply above_char in Ha. by intros [? _].
    - apply above_char in Ha as (_ & -> & _). apply call_answer in Hb. by intros [_ ?].
  Qed.
  Definition continues (n : ptree) : Prop := (byte_at (t_end n) = Some 43 \/ byte_at (t_end n) = Some 45) /\ digit_at (t_end n + 1).
  Lemma whole_starts f : whole_product f -> digit_at (t_start f).
  Proof. intros [H _]. induction H as [i Hi|t _ IH _ _]; [done|exact IH]. Qed.
  Lemma term_first p o : tries (runs [ex6_facts]) p None (m_alts ex6_term) o -> first_fact p o.
  Proof.
    intros H. inversion H; subst; [done|]. match goal with H : tries _ _ _ _ _ |- _ => rename H into H' end.
    inversion H'; subst; [done|]. match goal with H : tries _ _ _ [_] _ |- _ => rename H into H'' end.
    inversion H''; subst; [by apply call_answer|]. match goal with H : tries _ _ _ [] _ |- _ => inversion H; subst end.
    match goal with H : SpecLevels.runs _ _ _ _ _ (lv_call _) _ _ |- _ => by apply call_answer in H end.
  Qed.
  Lemma term_next p n o : tries (runs [ex6_facts]) p (Some n) (m_alts ex6_term) o ->
    ((byte_at (t_end n) = Some 43 \/ byte_at (t_end n) = Some 45) /\ exists f, whole_product f /\ t_start f = t_end n + 1 /\ o = Some (t_end f, [f])) \/
    (~ continues n /\ first_fact p o).
  Proof.
    intros H. inversion H as [|n1 t1 l1 j1 D1 E1 T1|t1 l1 o1 T1 H1| |]; subst; cbn [tail_runs] in T1.
    { injection E1 as <-. apply op_call_runs in T1 as (A1 & f & A2 & A3 & -> & ->). left. split; [by left|]. by exists f. }
    apply op_call_runs in T1. simpl in T1. inversion H1 as [|n2 t2 l2 j2 D2 E2 T2|t2 l2 o2 T2 H2| |]; subst; cbn [tail_runs] in T2.
    { injection E2 as <-. apply op_call_runs in T2 as (A1 & f & A2 & A3 & -> & ->). left. split; [by right|]. by exists f. }
    apply op_call_runs in T2. simpl in T2. right. split; [intros [[A|A] B]; auto|].
    inversion H2 as [| | |e3 l3 j3 D3 T3|e3 l3 o3 T3 H3]; subst; [by apply call_answer|]. inversion H3; subst. by apply call_answer in T3.
  Qed.
  Lemma product_longest f1 f2 : product f1 -> whole_product f2 -> t_start f1 = t_start f2 -> t_end f1 <= t_end f2.
  Proof.
    intros H1 [H2 Hw] E. destruct (product_size _ H2) as (k2 & E2 & _). induction H1 as [i Hi|t Ht IH Hop Hd]; cbn [t_end t_start] in *; [lia|].
    specialize (IH E). destruct (product_size _ Ht) as (k1 & E1 & _). destruct (N.eq_dec (t_end t) (t_end f2)) as [Eq|Ne]; [|lia]. exfalso. apply Hw. rewrite <- Eq. done.
  Qed.
  Lemma sum_facts t : sum t -> (exists f, whole_product f /\ t_start f = t_start t /\ t_end f <= t_end t) /\
    t_start t < t_end t /\ tsize t <= 3 * (t_end t - t_start t) /\ t_end t <= N.of_nat (length s) /\ prune_forest [t] = [t].
  Proof.
    induction 1 as [f Hf|t f Ht ((f0 & I1 & I2 & I3) & I4 & I5 & I6 & I7) Hop Hf E].
    - destruct (product_size _ (proj1 Hf)) as (k & K1 & K2 & K3 & K4). cbn [t_start t_end]. split_and!; [by exists f|lia| |done|].
      + rewrite tsize_eq, fsize_one. lia.
      + apply prune_one; [lia|done].
    - destruct (product_size _ (proj1 Hf)) as (k & K1 & K2 & K3 & K4). cbn [t_start t_end]. split_and!; [exists f0; split_and!; [done|done|lia]|lia| |done|].
      + rewrite tsize_eq. change (fsize [?a; ?b]) with (tsize a + (tsize b + 0)). lia.
      + apply prune_one; [lia|]. by apply two_trees.
  Qed.
  Lemma term_grows p t z : grows (runs [ex6_facts]) p [ex6_term] t z -> sum t -> t_start t = p -> whole_sum z /\ t_start z = p.
  Proof.
    induction 1 as [x y (x' & o & -> & Ho & ->) Hstop|x y z (x' & o & -> & Ho & E) Hlt _ IH]; intros Ht Hp.
    - split; [|done]. split; [done|]. intros Hon. apply term_next in Ho as [(_ & f & Hf & Hst & ->)|[Hn _]]; [|done]. simpl in Hstop.
      destruct (product_size _ (proj1 Hf)) as (k & Hk & _). lia.
    - apply term_next in Ho as [(Hop & f & Hf & Hst & ->)|[_ Ho]].
      + injection E as ->. apply IH; [|done]. rewrite <- Hp. by apply sum_more.
      + exfalso. destruct o as [[j D]|]; [|done]. injection E as ->. cbn [t_end] in Hlt. destruct Ho as (f & Hf & Hst & -> & _).
        destruct (sum_facts _ Ht) as ((f0 & F1 & F2 & F3) & _). pose proof (product_longest f f0 (proj1 Hf) F1). lia.
  Qed.
  Lemma term_gives p y : levels_give g s fn6 pl6 p [ex6_terms; ex6_facts] y -> match y with Some t => whole_sum t /\ t_start t = p | None => ~ digit_at p end.
  Proof.
    intros (m & rest & o & [= <- <-] & Ho & H). apply term_first in Ho. destruct o as [[j D]|]; [|by simpl in H; subst y].
    destruct Ho as (f & Hf & Hst & -> & ->). unfold SpecCycleTree.node_of in H. cbn [t_end] in H. destruct (product_size _ (proj1 Hf)) as (k & Hk & _).
    destruct (N.leb_spec (t_end f) p) as [|_]; [lia|]. destruct H as (z & Hg & ->).
    eapply term_grows; [exact Hg| |done]. rewrite <- Hst. by apply sum_product.
  Qed.
End trees.

(** On every input of at most 13000 bytes example 6's parser answers with the
    tree of the longest sum of products at its start, or, when it does not start
    with a digit, with failure and an empty tree. *)
Theorem C62_example_6 s : N.of_nat (length s) <= 13000 -> exists fuel0 p',
  (exists t, whole_sum ex6_R_Fact ex6_R_Num ex6_R_Term s t /\ t_start t = 0 /\
     (forall fuel, (fuel0 <= fuel)%nat -> parse_with ex6_program tt fuel ex6_entry s = Ok (true, t_end t, p')) /\
     denotes p' (TNode ex6_R_Grammar 0 0 true [TNode ex6_R_Grammar 0 (t_end t) true [t]])) \/
  (~ digit_at s 0 /\
     (forall fuel, (fuel0 <= fuel)%nat -> parse_with ex6_program tt fuel ex6_entry s = Ok (false, 0, p')) /\
     denotes p' (TNode ex6_R_Grammar 0 0 true [])).
Proof.
  intros Hl. assert (Hbig : 1000000 < u32_modulus) by done. destruct (C54_example_6 s tt Hl) as (f0 & b & q & st & Hrun & _).
  destruct (C62_raw ex6_program fn6 pl6 nr6 s tt ltac:(lia) ex6_terms [ex6_facts] ex6_levels ex6_plain ex6_wf (table_no_hooks _ _) ex6_R_Grammar ex6_f_grammar f0 b q st)
    as (l & i & j & F & y & Hd & Hy & He & Hq & HP); [vm_compute; reflexivity|reflexivity|by apply (Hrun f0)|].
  apply term_gives in Hy.
  destruct (C17_clear_false_prunes _ ex6_R_Grammar _ _ _ _ Hd) as (f1 & p' & Hc & Hd').
  { rewrite HP. destruct y as [t|]; [|simpl; lia]. destruct Hy as [[Hsum _] Hst]. destruct (sum_facts _ _ Hsum) as (_ & H1 & H2 & H3 & H4).
    cbn in He. destruct b; [|done]. injection He as ->. rewrite (prune_one _ 0 (t_end t) [t] [t] ltac:(lia) H4). rewrite fsize_one, tsize_eq, fsize_one. lia. }
  rewrite HP in Hd'. exists (f0 `max` f1)%nat, p'.
  assert (Hp : forall fuel, (f0 `max` f1 <= fuel)%nat -> parse_with ex6_program tt fuel ex6_entry s = Ok (b, q, p')).
  { intros fuel Hle. unfold parse_with. unfold ex6_entry in Hrun |- *. rewrite (Hrun fuel ltac:(lia)). cbn [rbind]. change (pr_grammar ex6_program) with ex6_R_Grammar. rewrite Hc by lia. done. }
  destruct b, y as [t|]; cbn in He; try discriminate He.
  - left. injection He as ->. destruct Hy as [Hy Hst]. destruct (sum_facts _ _ (proj1 Hy)) as (_ & H1 & _ & _ & H4). exists t. split; [done|]. split; [done|]. split; [done|].
    by rewrite (prune_one _ 0 (t_end t) [t] [t] ltac:(lia) H4) in Hd'.
  - right. rewrite (Hq eq_refl) in Hp. done.
Qed.
(** A sum and its tree. *)
Example C62_example_6_run :
  exists p', parse_with ex6_program tt 200 ex6_entry (bytes "1+2*3-4-*") = Ok (true, 7, p') /\
    TheoremsPackrat.read_tree 200 p' 0 =
      let num i := TNode ex6_R_Num i (i + 1) true [] in
      let fact i := TNode ex6_R_Fact i (i + 1) true [num i] in
      Some (TNode ex6_R_Grammar 0 0 true [TNode ex6_R_Grammar 0 7 true
        [TNode ex6_R_Term 0 7 true [TNode ex6_R_Term 0 5 true [TNode ex6_R_Term 0 1 true [fact 0]; TNode ex6_R_Fact 2 5 true [fact 2; num 4]]; fact 6]]]).
Proof. eexists. split; vm_compute; reflexivity. Qed.
