(** Theorems C61 on the shipped examples with indirect left recursion. *)
From Verif Require Import SpecSafe SpecSession ProofBasics ProofPeg ProofSound ProofTree ProofTree2 Programs Checks TheoremsKernel TheoremsPackrat TheoremsDeriv TheoremsExact TheoremsGenKeys
  DslSources SpecCycleTree Letters ProofCalcTree.
From Verif Require Import ProofCycle TheoremsCycle TheoremsCycleTree TheoremsCycleExamples.
Local Open Scope N_scope.
Notation nokey := SpecProgram.nothing.

(** Cycle, tree and clear_false together. *)
Lemma tree_total n file table gr v f fn pl Nr inv m0 rest : n < u32_modulus ->
  answers_within n file table gr v f ->
  let pr := (table_program table gr : program unit) in
  left_cycle pr fn pl inv m0 rest -> program_wf pr fn -> clean_cycle pr pl Nr (m0 :: rest) ->
  pr_fn pr f = Some (ELR inv (m_label m0) (m_fn m0)) -> fn v = f ->
  (forall s t, N.of_nat (length s) <= n -> cycle_tree (grammar_of pr) s 0 (m0 :: rest) (Some t) -> 3 + fsize (prune_forest [t]) <= u32_modulus) ->
  forall s, N.of_nat (length s) <= n -> exists fuel0 b q st p' y,
    cycle_tree (grammar_of pr) s 0 (m0 :: rest) y /\ outcome b q = t_end <$> y /\ (b = false -> q = 0) /\
    denotes p' (TNode gr 0 0 true (prune_forest (match y with Some t => [TNode v 0 q true [t]] | None => [] end))) /\
    forall fuel, (fuel0 <= fuel)%nat -> run_entry pr tt fuel (EVar v f) s = Ok ((b, q), st) /\ clear_false fuel gr (cx_pub (st_ctx st)) = Ok p'.
Proof.
  intros Hn [_ HA] pr HC Hwf Hcc Hf Hv Hsz s Hl. destruct (HA s Hl) as (f0 & b & q & st & _ & Hq & Hrun).
  destruct (C61_raw pr fn pl Nr inv s tt ltac:(lia) m0 rest HC Hwf (table_no_hooks _ _) Hcc v f f0 b q st Hf Hv (Hrun f0 (Nat.le_refl _))) as (l & i & j & F & y & Hd & Hy & He & _ & HP).
  destruct (C17_clear_false_prunes _ gr _ _ _ _ Hd) as (f1 & p' & Hc & Hd').
  { assert (2 <= u32_modulus) by done. rewrite HP. destruct y as [t|]; [|simpl; lia]. specialize (Hsz s t Hl Hy). cbn [prune_forest]. destruct (keep _); [|simpl; lia]. rewrite prune_eq.
    change (fsize [?x]) with (tsize x + 0). rewrite tsize_eq. lia. }
  exists (f0 `max` f1)%nat, b, q, st, p', y. rewrite <- HP. split_and!; try done. intros fuel Hle. split; [apply Hrun; lia|apply Hc; lia].
Qed.

(** ** Example 2 *)
Lemma ex2_wf : program_wf ex2_program (fn_list [ex2_f_a; ex2_f_b; ex2_f_grammar]).
Proof. apply check_wf. vm_compute. reflexivity. Qed.
Lemma ex2_clean : clean_cycle ex2_program (plain_list []) (in_list []) [ex2_A; ex2_B].
Proof. split; [done|done|]. intros m Hm. rewrite !elem_of_cons, elem_of_nil in Hm. by destruct Hm as [->|[->|[]]]. Qed.

(** Trees in which every node has at most one child; the letter of each node's
    rule, innermost first. *)
Inductive chain : ptree -> list N -> Prop :=
  | chain_leaf r i j b c : (r, c) ∈ [(ex2_R_A, 97); (ex2_R_B, 98)] -> chain (TNode r i j b []) [c]
  | chain_node r i j b c t w : (r, c) ∈ [(ex2_R_A, 97); (ex2_R_B, 98)] -> chain t w -> chain (TNode r i j b [t]) (w ++ [c]).
Lemma chain_kernel p t w : chain t w -> forall k, unfolds nokey p k t -> exists f0, forall fuel, (f0 <= fuel)%nat ->
  forall n, n_children n = [k] -> letters_kernel p (S fuel) n = Ok w.
Proof.
  assert (Hrule : forall (x : res (list N)) r c, (r, c) ∈ [(ex2_R_A, 97); (ex2_R_B, 98)] ->
    (if r =? ex2_R_Grammar then x else if r =? ex2_R_A then (let! y := x in Ok (y ++ [97])) else if r =? ex2_R_B then (let! y := x in Ok (y ++ [98])) else Panic PExplicit) = (let! y := x in Ok (y ++ [c]))).
  { intros x r c H. rewrite !elem_of_cons, elem_of_nil in H. by destruct H as [[= -> ->]|[[= -> ->]|[]]]. }
  induction 1 as [r i j b c Hc|r i j b c t w Hc _ IH]; intros k Hk; apply unfolds_inv in Hk as (m & Hm & <- & _ & _ & HF).
  - exists 1%nat. intros [|fuel] Hle n Hn; [lia|]. inversion HF as [E|]; subst. cbn [letters_kernel]. rewrite Hn, (get_ok _ _ _ Hm). cbn [rbind].
    rewrite Hrule with (c := c) by done. rewrite <- E. done.
  - inversion HF as [|k' ks t' F' Hk' HF' E1 E2]; subst. inversion HF' as [E|]; subst. destruct (IH k' Hk') as [f0 Hf]. exists (S f0). intros [|fuel] Hle n Hn; [lia|].
    assert (Hx : letters_kernel p (S fuel) m = Ok w) by (apply Hf; [lia|done]).
    remember (S fuel) as fuel' eqn:Ef. cbn [letters_kernel]. rewrite Hn, (get_ok _ _ _ Hm). cbn [rbind]. rewrite Hx. rewrite Hrule with (c := c) by done. done.
Qed.
Lemma deriv_char g s c i j D : deriv g s (PChar c) i j D -> s !! N.to_nat i = Some c /\ j = i + 1 /\ D = [].
Proof. inversion 1; subst. done. Qed.
Lemma take_next (s : list N) i c : s !! N.to_nat i = Some c -> take (N.to_nat (i + 1)) s = take (N.to_nat i) s ++ [c].
Proof. intros H. replace (N.to_nat (i + 1)) with (S (N.to_nat i)) by lia. by apply take_S_r. Qed.
Lemma fsize_one t : fsize [t] = tsize t.
Proof. change (fsize [t]) with (tsize t + 0). lia. Qed.
Lemma prune_one r i j D D' : i < j -> prune_forest D = D' -> prune_forest [TNode r i j true D] = [TNode r i j true D'].
Proof. intros H <-. cbn [prune_forest keep t_ok t_start t_end]. unfold keep. simpl. destruct (N.eqb_spec i j); [lia|done]. Qed.
Lemma at_length {A} (s : list A) i c : s !! N.to_nat i = Some c -> i + 1 <= N.of_nat (length s).
Proof. intros H. apply lookup_lt_Some in H. lia. Qed.

Lemma ex2_tree s t : cycle_tree (grammar_of ex2_program) s 0 [ex2_A; ex2_B] (Some t) ->
  chain t (take (N.to_nat (t_end t)) s) /\ prune_forest [t] = [t] /\ tsize t = t_end t /\ 0 < t_end t <= N.of_nat (length s).
Proof.
  intros H.
  assert (Hseed : forall l x, Seed x ∈ [Follow (Some (ETerminal l)); Seed (ETerminal l)] -> x = ETerminal l).
  { intros l x Hx. rewrite !elem_of_cons, elem_of_nil in Hx. destruct Hx as [[=]|[[= ->]|[]]]. done. }
  assert (Htail : forall l x, Follow x ∈ [Follow (Some (ETerminal l)); Seed (ETerminal l)] -> x = Some (ETerminal l)).
  { intros l x Hx. rewrite !elem_of_cons, elem_of_nil in Hx. destruct Hx as [[= ->]|[[=]|[]]]. done. }
  assert (Hfirst : s !! 0%nat = Some 97).
  { destruct H as (m & rest & o & [= <- <-] & H1 & H2). destruct o as [[j D]|]; [|done]. destruct (builds_some _ _ _ _ _ _ _ H1) as [(n & x & ? & _)|(e & He & Hd & _)]; [done|].
    apply Hseed in He as ->. by apply deriv_char in Hd as (? & _). }
  apply C61_left_nested in H.
  2: { intros m e Hm He. apply elem_of_list_singleton in Hm as ->. apply Hseed in He as ->. simpl. constructor. simpl. congruence. }
  induction H as [e j D He Hd Hj|n t _ (IH1 & IH2 & IH3 & IH4) Hw Hlt].
  - apply Hseed in He as ->. apply deriv_char in Hd as (Hc & -> & ->). cbn [t_end]. split; [|split; [|split]].
    + rewrite (take_next s 0 _ Hc). simpl. apply chain_leaf. by left.
    + by apply prune_one.
    + done.
    + apply at_length in Hc. lia.
  - destruct Hw as (z & tl & j & D & (z' & tl' & j' & D' & Hz' & Ht' & Hd' & ->) & Ht & Hd & ->). simpl in Hz'. subst z'.
    apply Htail in Ht as ->. apply Htail in Ht' as ->. apply deriv_char in Hd' as (Hc' & -> & ->). apply deriv_char in Hd as (Hc & -> & ->). cbn [t_end m_label ex2_A ex2_B] in *.
    split; [|split; [|split]].
    + rewrite (take_next _ _ _ Hc), (take_next _ _ _ Hc'). apply chain_node; [by left|]. apply chain_node; [by right; left|done].
    + apply prune_one; [lia|]. apply prune_one; [lia|done].
    + rewrite tsize_eq, fsize_one, tsize_eq, fsize_one. lia.
    + apply at_length in Hc. lia.
Qed.
(** Example 2's evaluator gives back the text the parser matched: for every
    input up to 21000 bytes the longest prefix a(ba)*, or nothing at all. *)
Theorem C61_example_2 s : N.of_nat (length s) <= 21000 -> exists fuel0 (b : bool) q,
  peg TheoremsCycleExamples.nothing s a_ba_star 0 (if b then Some q else None) /\ (b = false -> q = 0) /\
  forall fuel, (fuel0 <= fuel)%nat -> ex2_spell fuel s = Ok (b, q, Ok (take (N.to_nat q) s)).
Proof.
  intros Hl. destruct (tree_total 21000 ex2_source ex2_table ex2_R_Grammar ex2_R_Grammar ex2_f_grammar _ _ _ _ _ _ ltac:(done) ltac:(apply C56_examples) ex2_cycle ex2_wf ex2_clean) with (s := s)
    as (f0 & b & q & st & p' & y & Hy & He & Hq & Hd & Hrun); [vm_compute; reflexivity|reflexivity| |done|].
  { intros s' t Hs' Ht. apply ex2_tree in Ht as (_ & Ht & Hsz & Hlt). rewrite Ht, fsize_one, Hsz. assert (30000 <= u32_modulus) by done. lia. }
  assert (Hpeg : peg TheoremsCycleExamples.nothing s a_ba_star 0 (if b then Some q else None)).
  { apply ex2_exact. apply C61_matches in Hy. rewrite <- He in Hy. by destruct b. }
  assert (Hk : exists n f1, get_node p' 0 = Ok n /\ forall fuel, (f1 <= fuel)%nat -> letters_kernel p' fuel n = Ok (take (N.to_nat q) s)).
  { destruct b, y as [t|]; cbn in He; try discriminate He.
    - injection He as ->. destruct (ex2_tree _ _ Hy) as (Hch & Hpr & _ & Hlt). rewrite (prune_one _ _ _ _ _ (proj1 Hlt) Hpr) in Hd.
      apply unfolds_inv in Hd as (n & Hn & _ & _ & _ & HF). inversion HF as [|k ks t1 F1 Hk HF' E1 E2]; subst. inversion HF' as [E|]; subst.
      apply unfolds_inv in Hk as (m & Hm & Er & _ & _ & HF2). inversion HF2 as [|k2 ks2 t2 F2 Hk2 HF2' E3 E4]; subst. inversion HF2' as [E'|]; subst.
      destruct (chain_kernel p' t _ Hch k2 Hk2) as [f1 Hf1]. exists n, (S (S f1)). split; [by apply get_ok|]. intros [|[|fuel]] Hle; [lia|lia|].
      assert (Hx : letters_kernel p' (S fuel) m = Ok (take (N.to_nat (t_end t)) s)) by (apply Hf1; [lia|done]).
      remember (S fuel) as fuel' eqn:Ef. cbn [letters_kernel]. rewrite <- E1, (get_ok _ _ _ Hm). cbn [rbind]. rewrite Er, N.eqb_refl, Hx. done.
    - rewrite (Hq eq_refl). apply unfolds_inv in Hd as (n & Hn & _ & _ & _ & HF). inversion HF as [E|]; subst. exists n, 1%nat. split; [by apply get_ok|].
      intros [|fuel] Hle; [lia|]. cbn [letters_kernel]. by rewrite <- E. }
  destruct Hk as (n & f1 & Hn & Hk). exists (f0 `max` f1)%nat, b, q. split; [done|]. split; [done|]. intros fuel Hle.
  destruct (Hrun fuel ltac:(lia)) as [HR HCl]. unfold ex2_spell, ex2_evaluate.
  change (run_entry ex2_program tt fuel ex2_entry s) with (run_entry (table_program ex2_table ex2_R_Grammar : program unit) tt fuel (EVar ex2_R_Grammar ex2_f_grammar) s).
  rewrite HR. cbn [rbind]. rewrite HCl. cbn [rbind]. rewrite Hn. cbn [rbind]. rewrite Hk by lia. done.
Qed.
(** The crate's own test. *)
Example C61_example_2_run : ex2_spell 100 (bytes "ababababa") = Ok (true, 9, Ok (bytes "ababababa")).
Proof. vm_compute. reflexivity. Qed.

(** ** Examples 7, 8 and 9 *)
Section digits.
  Context (g : pgrammar) (num : expr) (nt : N -> ptree) (r f : N) (rest : list member).
  Context (Hnum : forall s i j D, deriv g s (pexp_of num) i j D -> j = i + 1 /\ i < N.of_nat (length s) /\ D = [nt i]).
  Context (Hnt : forall i, prune_forest [nt i] = [nt i] /\ tsize (nt i) <= 2).
  Context (Hrest : Forall (fun m => m_alts m = [Follow None]) rest).
  Notation m0 := (Member r f [Follow (Some (ESeq (ETerminal 45) num)); Seed num]).
  Notation ls := (map m_label rest).
  Notation dt := (difference_tree r ls nt).
  Lemma wraps_end l t : t_end (wraps l t) = t_end t.
  Proof. by destruct l. Qed.
  Lemma dt_end k : t_end (dt k) = 2 * N.of_nat k + 1.
  Proof. destruct k; cbn [difference_tree t_end]; lia. Qed.
  Lemma wrapped_rest s l n z : Forall (fun m => m_alts m = [Follow None]) l -> wrapped g s 0 l n z -> z = wraps (map m_label l) n.
  Proof using.
    revert z. induction l as [|m l IH]; intros z HF; simpl; [done|]. intros (y & tl & j & D & H1 & H2 & H3 & ->). inversion HF as [|? ? Hm HF']; subst.
    rewrite Hm in H2. apply elem_of_list_singleton in H2. injection H2 as ->. destruct H3 as [-> ->]. rewrite (IH _ HF' H1). by rewrite wraps_end.
  Qed.
  Lemma difference s t : cycle_tree g s 0 (m0 :: rest) (Some t) -> exists k, t = dt k /\ 2 * N.of_nat k + 1 <= N.of_nat (length s).
  Proof using Hnum Hrest.
    intros H. apply C61_left_nested in H.
    2: { intros m e Hm He. apply (proj1 (list.Forall_forall _ _) Hrest) in Hm. rewrite Hm in He. by apply elem_of_list_singleton in He. }
    induction H as [e j D He Hd Hj|n t _ (k & -> & IH) Hw Hlt].
    - cbn [m_alts] in He. rewrite !elem_of_cons, elem_of_nil in He. destruct He as [[=]|[[= ->]|[]]]. apply Hnum in Hd as (-> & Hi & ->). exists 0%nat. split; [done|lia].
    - destruct Hw as (z & tl & j & D & Hz & Ht & Hd & ->). apply wrapped_rest in Hz; [|done]. subst z. rewrite wraps_end, dt_end in Hd.
      cbn [m_alts] in Ht. rewrite !elem_of_cons, elem_of_nil in Ht. destruct Ht as [[= ->]|[[=]|[]]].
      cbn [tail_builds pexp_of] in Hd. inversion Hd as [| | |? ? ? x ? D1 D2 Ha Hb| | | | | | | | | | |]; subst. apply deriv_char in Ha as (_ & -> & ->). apply Hnum in Hb as (-> & Hi & ->).
      exists (S k). split; [|lia]. cbn [difference_tree m_label app]. f_equal; [lia|]. f_equal. f_equal. f_equal. lia.
  Qed.
  Lemma wraps_prune l t : 0 < t_end t -> prune_forest [t] = [t] -> prune_forest [wraps l t] = [wraps l t].
  Proof using. intros Ht Hp. induction l as [|x l IH]; [done|]. by apply prune_one. Qed.
  Lemma wraps_size l t : tsize (wraps l t) = N.of_nat (length l) + tsize t.
  Proof using. induction l as [|x l IH]; [simpl; lia|]. cbn [wraps length]. rewrite tsize_eq, fsize_one, IH. lia. Qed.
  Lemma two_trees a b : prune_forest [a] = [a] -> prune_forest [b] = [b] -> prune_forest [a; b] = [a; b].
  Proof using. cbn [prune_forest]. destruct (keep a), (keep b); congruence. Qed.
  Lemma dt_prune k : prune_forest [dt k] = [dt k].
  Proof using Hnt.
    induction k as [|k IH]; cbn [difference_tree].
    - apply prune_one; [lia|]. apply Hnt.
    - apply prune_one; [lia|]. apply two_trees; [|apply Hnt]. apply wraps_prune; [|done]. rewrite dt_end. lia.
  Qed.
  Lemma dt_size k : tsize (dt k) <= 3 + N.of_nat k * (3 + N.of_nat (length rest)).
  Proof using Hnt.
    induction k as [|k IH]; cbn [difference_tree]; rewrite tsize_eq.
    - rewrite fsize_one. pose proof (proj2 (Hnt 0)). lia.
    - change (fsize [?a; ?b]) with (tsize a + (tsize b + 0)). rewrite wraps_size, map_length. pose proof (proj2 (Hnt (2 * N.of_nat k + 2))). lia.
  Qed.
End digits.

(** For every input of at most [n] bytes the parser answers: with the tree of a
    difference, for the longest prefix "d-d-..-d", or, when there is none, with
    failure and an empty tree. *)
Definition parses_differences (n : N) (pr : program unit) (v f r : N) (ls : list N) (num : N -> ptree) : Prop :=
  forall s, N.of_nat (length s) <= n -> exists fuel0 p',
    (exists k, peg TheoremsCycleExamples.nothing s digits_minus 0 (Some (2 * N.of_nat k + 1)) /\
       (forall fuel, (fuel0 <= fuel)%nat -> parse_with pr tt fuel (EVar v f) s = Ok (true, 2 * N.of_nat k + 1, p')) /\
       denotes p' (TNode (pr_grammar pr) 0 0 true [TNode v 0 (2 * N.of_nat k + 1) true [difference_tree r ls num k]])) \/
    (peg TheoremsCycleExamples.nothing s digits_minus 0 None /\
       (forall fuel, (fuel0 <= fuel)%nat -> parse_with pr tt fuel (EVar v f) s = Ok (false, 0, p')) /\
       denotes p' (TNode (pr_grammar pr) 0 0 true [])).

Lemma differences n file table gr v f fn pl inv num nt r f0 rest :
  let pr := (table_program table gr : program unit) in
  n <= 100000 -> (length rest <= 5)%nat -> answers_within n file table gr v f ->
  left_cycle pr fn pl inv (Member r f0 [Follow (Some (ESeq (ETerminal 45) num)); Seed num]) rest -> program_wf pr fn ->
  clean_cycle pr pl (in_list []) (Member r f0 [Follow (Some (ESeq (ETerminal 45) num)); Seed num] :: rest) ->
  pr_fn pr f = Some (ELR inv r f0) -> fn v = f ->
  (forall s i j D, deriv (grammar_of pr) s (pexp_of num) i j D -> j = i + 1 /\ i < N.of_nat (length s) /\ D = [nt i]) ->
  (forall i, prune_forest [nt i] = [nt i] /\ tsize (nt i) <= 2) -> Forall (fun m => m_alts m = [Follow None]) rest ->
  parses_exactly n pr (EVar v f) digits_minus ->
  parses_differences n pr v f r (map m_label rest) nt.
Proof.
  intros pr Hn Hlen HA HC Hwf Hcc Hf Hv Hnum Hnt Hrest Hex s Hl. assert (Hbig : 1000000 < u32_modulus) by done.
  destruct (tree_total n file table gr v f fn pl (in_list []) inv _ rest ltac:(lia) HA HC Hwf Hcc Hf Hv) with (s := s) as (f1 & b & q & st & p' & y & Hy & He & Hq & Hd & Hrun); [|done|].
  { intros s' t Hs' Ht. destruct (difference _ _ nt _ _ _ Hnum Hrest _ _ Ht) as (k & -> & Hk). rewrite (dt_prune nt r rest Hnt), fsize_one.
    pose proof (dt_size nt r rest Hnt k). assert (N.of_nat k * (3 + N.of_nat (length rest)) <= N.of_nat k * 8) by (apply N.mul_le_mono_l; lia). lia. }
  destruct (Hex s Hl) as (f2 & b2 & q2 & st2 & Hpeg & Hq2 & Hrun2).
  assert (E : (b, q) = (b2, q2)).
  { destruct (Hrun (f1 `max` f2)%nat ltac:(lia)) as [H1 _]. pose proof (Hrun2 (f1 `max` f2)%nat ltac:(lia)) as H2. assert (E : Ok (b, q, st) = Ok (b2, q2, st2)) by (etrans; [symmetry; exact H1|exact H2]). by injection E as -> -> _. }
  injection E as <- <-.
  assert (Hp : forall fuel, (f1 <= fuel)%nat -> parse_with pr tt fuel (EVar v f) s = Ok (b, q, p')).
  { intros fuel Hle. destruct (Hrun fuel Hle) as [H1 H2]. unfold parse_with. fold pr in H1. rewrite H1. cbn [rbind]. change (pr_grammar pr) with gr. rewrite H2. done. }
  exists f1, p'. destruct b, y as [t|]; cbn in He; try discriminate He.
  - left. injection He as ->. destruct (difference _ _ nt _ _ _ Hnum Hrest _ _ Hy) as (k & -> & Hk). rewrite dt_end in Hd, Hp, Hpeg. exists k. split; [done|]. split; [done|].
    rewrite (prune_one v 0 (2 * N.of_nat k + 1) _ _ ltac:(lia) (dt_prune nt r rest Hnt k)) in Hd. done.
  - right. rewrite (Hq eq_refl) in Hp. done.
Qed.

Lemma clean_minus {U} (pr : program U) pl num r f rest :
  (forall h e, pl h = true -> pr_fn pr h = Some e -> tidy (in_list []) e = true) -> tidy (in_list []) num && fails_clean (in_list []) num = true ->
  Forall (fun m => m_alts m = [Follow None]) rest ->
  clean_cycle pr pl (in_list []) (Member r f [Follow (Some (ESeq (ETerminal 45) num)); Seed num] :: rest).
Proof.
  intros H1 [H2 H2']%andb_true_iff H3. split; [done|done|]. intros m [->|Hm]%elem_of_cons.
  - cbn [m_alts forallb clean_alternative tidy fails_clean callless]. by rewrite H2, H2'.
  - by rewrite (proj1 (list.Forall_forall _ _) H3 m Hm).
Qed.
Lemma plains_tidy table gr pl : forallb (fun h => match table !! N.to_nat h with Some e => tidy (in_list []) e | None => true end) pl = true ->
  forall h e, plain_list pl h = true -> pr_fn (table_program table gr : program unit) h = Some e -> tidy (in_list []) e = true.
Proof.
  rewrite forallb_forall. intros H h e Hh He. apply existsb_exists in Hh as (x & Hx & <-%N.eqb_eq). specialize (H h Hx). simpl in He. by rewrite He in H.
Qed.
Lemma deriv_ref_digit g s l A a b i j D : g A = Some (PRange a b) -> deriv g s (PRef (Some l) A) i j D -> j = i + 1 /\ i < N.of_nat (length s) /\ D = [TNode l i (i + 1) true []].
Proof.
  intros HA H. inversion H; subst. rewrite HA in *. match goal with H : Some _ = Some _ |- _ => injection H as <- end.
  match goal with H : deriv _ _ (PRange _ _) _ _ _ |- _ => inversion H as [|a' b' x i' Hx Hr| | | | | | | | | | | | |]; subst end. apply at_length in Hx. split; [done|]. split; [lia|done].
Qed.
Theorem C61_example_7 : parses_differences 18000 ex7_program ex7_R_Grammar ex7_f_grammar ex7_R_Expr [ex7_R_Intermediate] (fun i => TNode ex7_R_Num i (i + 1) true []).
Proof.
  assert (HF : Forall (fun m => m_alts m = [Follow None]) [ex7_intermediate]) by (repeat constructor).
  eapply (differences 18000 ex7_source ex7_table ex7_R_Grammar _ _ _ _ _ ex7_num _ _ ex7_f_expr [ex7_intermediate]).
  - lia.
  - simpl. lia.
  - apply C56_examples.
  - apply ex7_cycle.
  - apply check_wf. vm_compute. reflexivity.
  - apply clean_minus; [|reflexivity|done]. apply plains_tidy. vm_compute. reflexivity.
  - vm_compute. reflexivity.
  - reflexivity.
  - intros s i j D. apply (deriv_ref_digit _ _ _ _ 48 57). vm_compute. reflexivity.
  - intros i. split; [apply prune_one; [lia|done]|done].
  - done.
  - apply C57_example_7.
Qed.
(** In examples 8 and 9 a digit is a rule that names a rule. *)
Lemma deriv_ref_ref_digit g s l l' A B a b i j D : g A = Some (PRef (Some l') B) -> g B = Some (PRange a b) -> deriv g s (PRef (Some l) A) i j D ->
  j = i + 1 /\ i < N.of_nat (length s) /\ D = [TNode l i (i + 1) true [TNode l' i (i + 1) true []]].
Proof.
  intros HA HB H. inversion H; subst. rewrite HA in *. match goal with H : Some _ = Some _ |- _ => injection H as <- end.
  match goal with H : deriv _ _ (PRef (Some l') B) _ _ _ |- _ => destruct (deriv_ref_digit _ _ _ _ _ _ _ _ _ HB H) as (-> & H1 & ->) end. done.
Qed.
Theorem C61_example_8 : parses_differences 13000 ex8_program ex8_R_Grammar ex8_f_grammar ex8_R_Test_indirect_three_level_A
  [ex8_R_Test_indirect_three_level_B; ex8_R_Test_indirect_three_level_C] (fun i => TNode ex8_R_Test_LR_num i (i + 1) true [TNode ex8_R_Num i (i + 1) true []]).
Proof.
  assert (HF : Forall (fun m => m_alts m = [Follow None]) [ex8_B; ex8_C]) by (repeat constructor).
  eapply (differences 13000 ex8_source ex8_table ex8_R_Grammar _ _ _ _ _ ex8_num _ _ ex8_f_test_indirect_three_level_a [ex8_B; ex8_C]).
  - lia.
  - simpl. lia.
  - apply C56_examples.
  - apply ex8_cycle.
  - apply check_wf. vm_compute. reflexivity.
  - apply clean_minus; [|reflexivity|done]. apply plains_tidy. vm_compute. reflexivity.
  - vm_compute. reflexivity.
  - reflexivity.
  - intros s i j D. eapply (deriv_ref_ref_digit _ _ _ _ _ ex8_f_num 48 57); vm_compute; reflexivity.
  - intros i. split; [apply prune_one; [lia|]; apply prune_one; [lia|done]|rewrite tsize_eq; vm_compute; discriminate].
  - done.
  - apply C57_example_8.
Qed.
Theorem C61_example_9 : parses_differences 9000 ex9_program ex9_R_Grammar ex9_f_grammar ex9_R_Test_indirect_three_level_A
  [ex9_R_Test_indirect_three_level_B; ex9_R_Test_indirect_three_level_C; ex9_R_Test_indirect_three_level_D; ex9_R_Test_indirect_three_level_E]
  (fun i => TNode ex9_R_Test_LR_num i (i + 1) true [TNode ex9_R_Num i (i + 1) true []]).
Proof.
  assert (HF : Forall (fun m => m_alts m = [Follow None]) [ex9_B; ex9_C; ex9_D; ex9_E]) by (repeat constructor).
  eapply (differences 9000 ex9_source ex9_table ex9_R_Grammar _ _ _ _ _ ex9_num _ _ ex9_f_test_indirect_three_level_a [ex9_B; ex9_C; ex9_D; ex9_E]).
  - lia.
  - simpl. lia.
  - apply C56_examples.
  - apply ex9_cycle.
  - apply check_wf. vm_compute. reflexivity.
  - apply clean_minus; [|reflexivity|done]. apply plains_tidy. vm_compute. reflexivity.
  - vm_compute. reflexivity.
  - reflexivity.
  - intros s i j D. eapply (deriv_ref_ref_digit _ _ _ _ _ ex9_f_num 48 57); vm_compute; reflexivity.
  - intros i. split; [apply prune_one; [lia|]; apply prune_one; [lia|done]|rewrite tsize_eq; vm_compute; discriminate].
  - done.
  - apply C57_example_9.
Qed.
(** Example 5: the rule calls itself. *)
Definition ex5_num : expr := EVar ex5_R_Num ex5_f_num.
Definition ex5_expr : member := Member ex5_R_Expr ex5_f_expr [Follow (Some (ESeq (ETerminal 45) ex5_num)); Seed ex5_num].
Definition ex5_fn : N -> N := fn_list (map (fn_of ex5_table [(ex5_R_Grammar, ex5_f_grammar)]) [0; 1; 2]).
Lemma ex5_cycle : left_cycle ex5_program ex5_fn (plain_list [ex5_f_num]) [ex5_R_Expr] ex5_expr [].
Proof.
  split.
  - by apply plains_ok.
  - apply (bool_decide_unpack _). vm_compute. done.
  - done.
  - split; [|done]. apply memberb_ok; [vm_compute; reflexivity|]. eexists; split; vm_compute; reflexivity.
Qed.
Theorem C61_example_5 : parses_differences 26000 ex5_program ex5_R_Grammar ex5_f_grammar ex5_R_Expr [] (fun i => TNode ex5_R_Num i (i + 1) true []).
Proof.
  eapply (differences 26000 ex5_source ex5_table ex5_R_Grammar _ _ _ _ _ ex5_num _ _ ex5_f_expr []).
  - lia.
  - simpl. lia.
  - apply C56_examples.
  - apply ex5_cycle.
  - apply check_wf. vm_compute. reflexivity.
  - apply clean_minus; [|reflexivity|constructor]. apply plains_tidy. vm_compute. reflexivity.
  - vm_compute. reflexivity.
  - vm_compute. reflexivity.
  - intros s i j D. apply (deriv_ref_digit _ _ _ _ 48 57). vm_compute. reflexivity.
  - intros i. split; [apply prune_one; [lia|done]|done].
  - constructor.
  - eapply exactly; [done|apply C56_examples|apply ex5_cycle|done|]. intros s o. apply digits_exact; [|repeat constructor].
    intros x o' H. eapply ref_body in H; [|vm_compute; reflexivity]. by eapply range_any.
Qed.
(** "1-2-3" in example 8: ((1-2)-3). *)
Example C61_example_8_run :
  exists p', parse_with ex8_program tt 200 (EVar ex8_R_Grammar ex8_f_grammar) (bytes "1-2-3") = Ok (true, 5, p') /\
    TheoremsPackrat.read_tree 200 p' 0 =
      let num i := TNode ex8_R_Test_LR_num i (i + 1) true [TNode ex8_R_Num i (i + 1) true []] in
      let up t := TNode ex8_R_Test_indirect_three_level_B 0 (t_end t) true [TNode ex8_R_Test_indirect_three_level_C 0 (t_end t) true [t]] in
      let A := ex8_R_Test_indirect_three_level_A in
      Some (TNode ex8_R_Grammar 0 0 true [TNode ex8_R_Grammar 0 5 true [TNode A 0 5 true [up (TNode A 0 3 true [up (TNode A 0 1 true [num 0]); num 2]); num 4]]]).
Proof. eexists. split; vm_compute; reflexivity. Qed.
