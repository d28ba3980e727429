(** The symbol table built from the tree of a grammar file. *)
From Verif Require Import SpecCompile ProofPeg ProofTree ProofTrace ProofDsl ProofBuild ProofRules.
From Coq Require Import Sorting.Sorted.

(** ** Labels that occur below a right-hand side *)
Definition rhs_label (l : N) : bool :=
  negb (bool_decide (l ∈ [dsl_R_Var_Name_Decl; dsl_R_Rule; dsl_R_Grammar; dsl_R_Semantic_Instructions; dsl_R_LHS; dsl_R_Comment])).
Lemma tree_in_impl (L L' : N -> bool) t : (forall l, L l = true -> L' l = true) -> tree_in L t = true -> tree_in L' t = true.
Proof.
  intros HL. induction t as [l i j b F IH] using ptree_ind'. simpl. intros [H1 H2]%andb_true_iff. rewrite (HL _ H1). simpl.
  rewrite forallb_forall in *. intros x Hx. apply IH; [by apply elem_of_list_In|]. by apply H2.
Qed.
Lemma leaf_rhs_label l : leaf_label l = true -> rhs_label l = true.
Proof.
  unfold leaf_label. rewrite !orb_true_iff, !N.eqb_eq. unfold rhs_label.
  intros [[[[->| ->]| ->]| ->]| ->]; reflexivity.
Qed.
Lemma leaves_in L F : (forall l, leaf_label l = true -> L l = true) -> leaves F -> forallb (tree_in L) F = true.
Proof.
  intros HL. rewrite !forallb_forall. intros H x Hx. eapply tree_in_impl; [exact HL|]. by apply H.
Qed.
Lemma leaves_rhs F : leaves F -> forallb (tree_in rhs_label) F = true.
Proof. apply leaves_in, leaf_rhs_label. Qed.
Lemma ascii_nodes_in src cs l : Forall2 (ascii_node src) cs l -> forallb (tree_in rhs_label) cs = true.
Proof. induction 1 as [|t c cs l [i c' _ _] _ IH]; [done|]. simpl. exact IH. Qed.
Lemma bound_rep_in src t x : bound_rep src t x -> tree_in rhs_label t = true.
Proof. intros []; simpl; by apply leaves_rhs. Qed.

Section rep.
  Context (src : list N).
  Scheme rep_mut := Minimality for rep Sort Prop with reps_mut := Minimality for reps Sort Prop.
  Lemma rep_in t e : rep src t e -> tree_in rhs_label t = true.
  Proof.
    revert t e. apply (rep_mut src (fun t _ => tree_in rhs_label t = true) (fun cs _ => forallb (tree_in rhs_label) cs = true));
      intros; simpl; repeat match goal with H : _ = true |- _ => rewrite H; clear H end; try reflexivity; try done;
      try by apply leaves_rhs.
    - rewrite (bound_rep_in _ _ _ H), (bound_rep_in _ _ _ H0). done.
    - by eapply ascii_nodes_in.
    - rewrite andb_true_r. by apply leaves_rhs.
    - rewrite andb_true_r. by apply leaves_rhs.
  Qed.
End rep.

(** ** Walking the tree *)
Definition not_decl (l : N) : bool := negb (l =? dsl_R_Var_Name_Decl).
Lemma rhs_not_decl l : rhs_label l = true -> not_decl l = true.
Proof. unfold rhs_label, not_decl. intros H. destruct (N.eqb_spec l dsl_R_Var_Name_Decl) as [->|]; [done|done]. Qed.

Section symbols.
  Context (src : list N).
  Lemma kernel_node sib l i j b F st : not_decl l = true ->
    symbol_kernel src sib (TNode l i j b F) st =
      (fix go (l : list ptree) (st : symbol_table) : res symbol_table :=
        match l with [] => Ok st | c :: l => let! st := symbol_kernel src F c st in go l st end) F st.
  Proof. unfold not_decl. intros H. cbn. apply negb_true_iff in H. rewrite H. done. Qed.
  Lemma symbol_skip t : forall sib st, tree_in not_decl t = true -> symbol_kernel src sib t st = Ok st.
  Proof.
    induction t as [l i j b F IH] using ptree_ind'. intros sib st H. simpl in H. apply andb_true_iff in H as [H1 H2].
    rewrite kernel_node by done.
    assert (HG : forall G, (forall t, t ∈ G -> t ∈ F) -> forall st,
      (fix go (l : list ptree) (st : symbol_table) : res symbol_table :=
        match l with [] => Ok st | c :: l => let! st := symbol_kernel src F c st in go l st end) G st = Ok st).
    { induction G as [|c G IHG]; intros HG st'; [done|]. rewrite IH; [|apply HG; by left|].
      - simpl. apply IHG. intros t Ht. apply HG. by right.
      - rewrite forallb_forall in H2. apply H2. apply elem_of_list_In, HG. by left. }
    by apply HG.
  Qed.
  Lemma comment_in t l : comment_rep src t l -> tree_in not_decl t = true.
  Proof.
    intros [i j a b cs l' _ _ HF _]. simpl. assert (H := ascii_nodes_in _ _ _ HF). rewrite forallb_forall in *.
    intros x Hx. eapply tree_in_impl; [apply rhs_not_decl|]. by apply H.
  Qed.

  Definition add_decl (n : name) (b : bool) (st : symbol_table) : symbol_table :=
    SymTable (sy_names st ++ [n]) (if b then {[n]} ∪ sy_inline st else sy_inline st).

  Lemma leaves_skip F sib : leaves F -> forall G st, (forall t, t ∈ G -> t ∈ F) ->
      (fix go (l : list ptree) (st : symbol_table) : res symbol_table :=
        match l with [] => Ok st | c :: l => let! st := symbol_kernel src sib c st in go l st end) G st = Ok st.
  Proof.
    intros H. induction G as [|c G IHG]; intros st HG; [done|].
    rewrite symbol_skip. { simpl. apply IHG. intros t Ht. apply HG. by right. }
    rewrite forallb_forall in H. eapply tree_in_impl; [|apply H; apply elem_of_list_In, HG; by left].
    intros l Hl. by apply rhs_not_decl, leaf_rhs_label.
  Qed.
  Lemma decl_node sib i j F n st st' : leaves F -> text src i j (60 :: n ++ [62]) ->
    symbol_kernel src sib (TNode dsl_R_Var_Name_Decl i j true F) st = Ok st' ->
    exists inl_, check_semantic_instructions n sib (sy_inline st) = Ok inl_ /\ st' = SymTable (sy_names st ++ [n]) inl_.
  Proof.
    intros HF Ht H. cbn in H. apply rbind_Ok_inv in H as (st1 & H1 & H).
    rewrite (leaves_skip F F HF) in H by done. injection H as <-.
    apply rbind_Ok_inv in H1 as (m & H1 & H2). apply (inner_text_eq _ _ _ _ _ _ 60 n 62) in H1 as ->; [|done].
    apply rbind_Ok_inv in H2 as (x & H2 & H3). injection H3 as <-. by exists x.
  Qed.
  Lemma symbol_lhs t n b sib st st' : lhs_rep src t n b -> symbol_kernel src sib t st = Ok st' -> st' = add_decl n b st.
  Proof.
    intros H. destruct H as [i j n F HF Ht Hv|i a j x y n F G HF HG Ht Hv]; rewrite kernel_node by done; intros H.
    - apply rbind_Ok_inv in H as (st1 & H1 & H). injection H as <-.
      apply (decl_node _ _ _ _ _ _ _ HF Ht) in H1 as (s' & H1 & ->). cbn in H1. injection H1 as <-. done.
    - apply rbind_Ok_inv in H as (st1 & H1 & H).
      apply (decl_node _ _ _ _ _ _ _ HF Ht) in H1 as (s' & H1 & ->). cbn in H1. injection H1 as <-.
      rewrite symbol_skip in H.
      2: { simpl. rewrite !andb_true_r. eapply leaves_in; [|done]. intros l Hl. by apply rhs_not_decl, leaf_rhs_label. }
      cbn [rbind] in H. injection H as <-. done.
  Qed.
  Lemma symbol_rule t r sib st st' : rule_rep src t r -> symbol_kernel src sib t st = Ok st' ->
    st' = add_decl (dr_name r) (dr_inline r) st.
  Proof.
    intros [i j lhs rhs cs n inl_ e comments Hl Hrl Hrep Hcs]. rewrite kernel_node by done. intros H.
    apply rbind_Ok_inv in H as (st1 & H1 & H). apply (symbol_lhs _ _ _ _ _ _ Hl) in H1 as ->.
    rewrite symbol_skip in H by (eapply tree_in_impl; [apply rhs_not_decl|by eapply rep_in]). cbn [rbind] in H.
    simpl. revert H. generalize (lhs :: rhs :: cs). intros sib'.
    induction Hcs as [|t1 l cs1 comments1 Ht Hcs IH]; intros H; [by injection H as <-|].
    rewrite symbol_skip in H by (by eapply comment_in). cbn [rbind] in H. auto.
  Qed.
  Definition declare (st : symbol_table) (r : drule) : symbol_table := add_decl (dr_name r) (dr_inline r) st.
  Lemma symbol_children_eq ts rules st st' : Forall2 (rule_rep src) ts rules -> symbol_children src ts st = Ok st' ->
    st' = fold_left declare rules st.
  Proof.
    intros HF. revert st. induction HF as [|t r ts rules Ht HF IH]; intros st H; simpl in H; [by injection H as <-|].
    apply rbind_Ok_inv in H as (st1 & H1 & H). apply (symbol_rule _ _ _ _ _ Ht) in H1 as ->. by apply IH.
  Qed.
  Lemma declare_names rules st : sy_names (fold_left declare rules st) = sy_names st ++ map dr_name rules.
  Proof.
    revert st. induction rules as [|r rules IH]; intros st; simpl; [by rewrite app_nil_r|].
    rewrite IH. simpl. by rewrite <- app_assoc.
  Qed.
  Lemma declare_inline rules st n : n ∈ sy_inline (fold_left declare rules st) <->
    n ∈ sy_inline st \/ exists r, r ∈ rules /\ dr_name r = n /\ dr_inline r = true.
  Proof.
    revert st. induction rules as [|r rules IH]; intros st; simpl.
    - split; [by left|]. intros [?|(r & Hr & _)]; [done|]. by apply elem_of_nil in Hr.
    - rewrite IH. unfold declare at 1. simpl. split.
      + intros [H|(r' & Hr & H)].
        * destruct (dr_inline r) eqn:E; [|by left]. apply elem_of_union in H as [H|H]; [|by left].
          apply elem_of_singleton in H as ->. right. exists r. split; [by left|done].
        * right. exists r'. split; [by right|done].
      + intros [H|(r' & Hr & Hn & Hi)].
        * left. destruct (dr_inline r); set_solver.
        * apply elem_of_cons in Hr as [->|Hr].
          -- left. rewrite Hi, Hn. set_solver.
          -- right. by exists r'.
  Qed.
End symbols.

(** ** Sorting *)
Lemma bytes_leb_total a b : bytes_leb a b = false -> bytes_leb b a = true.
Proof.
  revert b. induction a as [|x a IH]; intros [|y b] H; simpl in *; try done.
  destruct (N.ltb_spec x y); [done|]. destruct (N.ltb_spec y x); [done|]. auto.
Qed.
Lemma bytes_leb_antisym a b : bytes_leb a b = true -> bytes_leb b a = true -> a = b.
Proof.
  revert b. induction a as [|x a IH]; intros [|y b] H1 H2; simpl in *; try done.
  destruct (N.ltb_spec x y); destruct (N.ltb_spec y x); try lia; try done.
  assert (x = y) as -> by lia. f_equal. auto.
Qed.
Lemma bytes_leb_trans a b c : bytes_leb a b = true -> bytes_leb b c = true -> bytes_leb a c = true.
Proof.
  revert b c. induction a as [|x a IH]; intros [|y b] [|z c] H1 H2; simpl in *; try done.
  destruct (N.ltb_spec x y), (N.ltb_spec y x); destruct (N.ltb_spec y z), (N.ltb_spec z y); try lia; try done;
    destruct (N.ltb_spec x z), (N.ltb_spec z x); try lia; try done. eauto.
Qed.
Lemma bytes_leb_refl a : bytes_leb a a = true.
Proof. induction a as [|x a IH]; [done|]. simpl. rewrite N.ltb_irrefl. done. Qed.
Notation leb_rel := (fun a b => bytes_leb a b = true).

Lemma insert_sorted_sorted x l : StronglySorted leb_rel l -> StronglySorted leb_rel (insert_sorted x l).
Proof.
  induction 1 as [|y l Hl IH Hy]; simpl; [repeat constructor|].
  destruct (bytes_leb x y) eqn:E.
  - constructor; [by constructor|]. constructor; [done|]. eapply list.Forall_impl; [exact Hy|].
    intros z Hz. by eapply bytes_leb_trans.
  - constructor; [done|]. rewrite insert_sorted_perm. constructor; [by apply bytes_leb_total|done].
Qed.
Lemma sort_names_sorted l : StronglySorted leb_rel (sort_names l).
Proof. induction l as [|x l IH]; [constructor|]. by apply insert_sorted_sorted. Qed.

(** Sorted without duplicates. *)
Definition bytes_lt (a b : name) : Prop := bytes_leb a b = true /\ a <> b.
Lemma dedup_elem x l : x ∈ dedup l <-> x ∈ l.
Proof.
  induction l as [|y l IH]; [done|]. simpl. destruct (dedup l) as [|z l'] eqn:E.
  - rewrite elem_of_list_singleton, elem_of_cons, <- IH. rewrite elem_of_nil. tauto.
  - case_bool_decide.
    + subst z. rewrite IH, elem_of_cons. split; [by right|]. intros [->|?]; [|done]. apply IH. by left.
    + rewrite elem_of_cons, IH, elem_of_cons. done.
Qed.
Lemma dedup_sorted l : StronglySorted leb_rel l -> StronglySorted bytes_lt (dedup l).
Proof.
  induction 1 as [|x l Hl IH Hx]; [constructor|]. simpl. destruct (dedup l) as [|y l'] eqn:E; [repeat constructor|].
  case_bool_decide as Hxy; [done|]. constructor; [done|].
  assert (HF : Forall (fun z => bytes_leb x z = true) (y :: l')).
  { apply list.Forall_forall. intros z Hz. rewrite <- E in Hz. rewrite list.Forall_forall in Hx. apply Hx. by apply dedup_elem. }
  inversion IH as [|? ? _ Hy]; subst. inversion HF as [|? ? Hxy' HF']; subst.
  constructor; [done|]. apply list.Forall_forall. intros z Hz. rewrite list.Forall_forall in Hy, HF'.
  split; [by apply HF'|]. intros ->. destruct (Hy _ Hz) as [Hyz Hne]. apply Hne. by apply bytes_leb_antisym.
Qed.
Lemma sorted_lt_nodup l : StronglySorted bytes_lt l -> NoDup l.
Proof.
  induction 1 as [|x l Hl IH Hx]; constructor; [|done]. intros Hin. rewrite list.Forall_forall in Hx.
  by destruct (Hx _ Hin) as [_ ?].
Qed.
(** A strictly sorted list is determined by its elements. *)
Lemma sorted_unique l : StronglySorted bytes_lt l -> forall l', StronglySorted bytes_lt l' ->
  (forall n, n ∈ l <-> n ∈ l') -> l = l'.
Proof.
  induction 1 as [|x l Hl IH Hx]; intros l' Hl' Heq.
  - destruct l' as [|y l']; [done|]. exfalso. apply (elem_of_nil y), Heq. by left.
  - destruct Hl' as [|y l' Hl' Hy]; [exfalso; apply (elem_of_nil x), Heq; by left|].
    rewrite list.Forall_forall in Hx, Hy.
    assert (x = y) as ->.
    { assert (H1 : x ∈ y :: l') by (apply Heq; by left). assert (H2 : y ∈ x :: l) by (apply Heq; by left).
      apply elem_of_cons in H1 as [->|H1]; [done|]. apply elem_of_cons in H2 as [->|H2]; [done|].
      destruct (Hy _ H1), (Hx _ H2). by apply bytes_leb_antisym. }
    f_equal. apply IH; [done|]. intros n. specialize (Heq n). rewrite !elem_of_cons in Heq. split; intros Hn.
    + destruct (proj1 Heq) as [->|]; [by right| |done]. by destruct (Hx _ Hn).
    + destruct (proj2 Heq) as [->|]; [by right| |done]. by destruct (Hy _ Hn).
Qed.
