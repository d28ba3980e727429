(** The cycle detector computes left recursion as defined in SpecLeft. *)
From Verif Require Import SpecUtf8 SpecLeft SpecCompile ProofPeg ProofTree ProofTrace ProofDsl ProofBuild ProofRules ProofSymbols ProofUtf8 ProofGraph.
From stdpp Require Import relations gmap.
Local Open Scope N_scope.

Notation set_of l := (list_to_set l : name_set).

(** ** Reading references off the tree *)
Section trees.
  Context (src : list N) (Hu : utf8 src).

  Definition ref_child (c : ptree) (acc : name_set) : res name_set :=
    let! acc := if t_label c =? dsl_R_Var_Name_Ref
                then (let! n := ref_name src c in Ok ({[n]} ∪ acc)) else Ok acc in
    referenced src c acc.
  Fixpoint ref_children (l : list ptree) (acc : name_set) : res name_set :=
    match l with [] => Ok acc | c :: l => let! acc := ref_child c acc in ref_children l acc end.
  Lemma referenced_eq l i j b F acc : referenced src (TNode l i j b F) acc = ref_children F acc.
  Proof.
    cbn. revert acc. induction F as [|c F IH]; intros acc; [done|]. cbn [ref_children]. unfold ref_child.
    destruct (if t_label c =? _ then _ else _) as [a| |]; cbn [rbind]; [|done|done].
    destruct (referenced src c a); cbn [rbind]; [apply IH|done|done].
  Qed.
  Definition not_ref (l : N) : bool := negb (l =? dsl_R_Var_Name_Ref).
  Lemma ref_skip t acc : tree_in not_ref t = true -> ref_child t acc = Ok acc.
  Proof.
    revert acc. induction t as [l i j b F IH] using ptree_ind'. intros acc H. cbn [tree_in] in H. apply andb_true_iff in H as [H1 H2].
    unfold ref_child. cbn [t_label]. unfold not_ref in H1. apply negb_true_iff in H1. rewrite H1. cbn [rbind]. rewrite referenced_eq.
    induction F as [|c F IHF]; [done|]. cbn [forallb] in H2. apply andb_true_iff in H2 as [H2 H3]. cbn [ref_children].
    rewrite IH by (done || by left). cbn [rbind]. apply IHF; [|done]. intros t Ht. apply IH. by right.
  Qed.
  Lemma ref_skips F acc : forallb (tree_in not_ref) F = true -> ref_children F acc = Ok acc.
  Proof.
    induction F as [|c F IH]; [done|]. cbn [forallb ref_children]. intros [H1 H2]%andb_true_iff. rewrite ref_skip by done.
    cbn [rbind]. by apply IH.
  Qed.
  Lemma leaf_not_ref l : leaf_label l = true -> not_ref l = true.
  Proof.
    unfold leaf_label. rewrite !orb_true_iff, !N.eqb_eq. intros [[[[->| ->]| ->]| ->]| ->]; reflexivity.
  Qed.
  Lemma leaves_not_ref F : leaves F -> forallb (tree_in not_ref) F = true.
  Proof. apply leaves_in, leaf_not_ref. Qed.
  Lemma ascii_not_ref cs l : Forall2 (ascii_node src) cs l -> forallb (tree_in not_ref) cs = true.
  Proof. induction 1 as [|t c cs l [i c' _ _] _ IH]; [done|]. simpl. exact IH. Qed.
  Lemma bound_not_ref t x : bound_rep src t x -> tree_in not_ref t = true.
  Proof. intros []; simpl; by apply leaves_not_ref. Qed.

  Lemma ref_node l i j b F acc : not_ref l = true -> ref_child (TNode l i j b F) acc = ref_children F acc.
  Proof.
    intros H. unfold ref_child. cbn [t_label]. unfold not_ref in H. apply negb_true_iff in H. rewrite H. cbn [rbind]. apply referenced_eq.
  Qed.
  Lemma ref_one c acc : ref_children [c] acc = ref_child c acc.
  Proof. cbn [ref_children]. by destruct (ref_child c acc). Qed.
  Scheme rep_mut := Minimality for rep Sort Prop with reps_mut := Minimality for reps Sort Prop.
  Lemma ref_rep t e : rep src t e -> forall acc, ref_child t acc = Ok (set_of (refs e) ∪ acc).
  Proof.
    revert t e. apply (rep_mut src (fun t e => forall acc, ref_child t acc = Ok (set_of (refs e) ∪ acc))
      (fun cs es => forall acc, ref_children cs acc = Ok (set_of (concat (map refs es)) ∪ acc)));
      intros; try (rewrite ref_node, ref_one by done; auto; fail).
    - rewrite ref_node by done. auto.
    - rewrite ref_node by done. auto.
    - rewrite ref_node by done. rewrite ref_skips; [f_equal; simpl; set_solver|]. simpl.
      rewrite (bound_not_ref _ _ H), (bound_not_ref _ _ H0). done.
    - rewrite ref_node by done. rewrite ref_skips; [f_equal; simpl; set_solver|]. by apply leaves_not_ref.
    - rewrite ref_node by done. rewrite ref_skips; [f_equal; simpl; set_solver|]. by eapply ascii_not_ref.
    - rewrite ref_node by done. rewrite ref_skips; [f_equal; simpl; set_solver|]. simpl. rewrite andb_true_r. by apply leaves_not_ref.
    - rewrite ref_node by done. rewrite ref_skips; [f_equal; simpl; set_solver|]. simpl. rewrite andb_true_r. by apply leaves_not_ref.
    - unfold ref_child. cbn [t_label]. change (dsl_R_Var_Name_Ref =? dsl_R_Var_Name_Ref) with true. cbv iota.
      rewrite (ref_name_ok _ _ _ _ _ _ _ Hu H0 H1). cbn [rbind].
      rewrite referenced_eq, ref_skips by (by apply leaves_not_ref). f_equal. simpl. set_solver.
    - cbn [ref_children map concat]. f_equal. simpl. set_solver.
    - cbn [ref_children map concat]. rewrite H1. cbn [rbind]. rewrite H3. f_equal. rewrite list_to_set_app_L. set_solver.
  Qed.

  (** ** The tables *)
  Definition not_rule (l : N) : bool := negb (l =? dsl_R_Rule).
  Definition walk_child (c : ptree) (ct : call_table) : res call_table :=
    let! ct :=
      if t_label c =? dsl_R_Rule then
        let! n := get_rules_name src c in
        let! rhs := child 1 c in
        let! refs := referenced src c ∅ in
        Ok (CallTable (<[n := rhs]> (ct_rhs ct)) (<[n := refs]> (ct_refs ct)))
      else Ok ct in
    walk_node_children src c ct.
  Fixpoint walk_children (l : list ptree) (ct : call_table) : res call_table :=
    match l with [] => Ok ct | c :: l => let! ct := walk_child c ct in walk_children l ct end.
  Lemma walk_eq l i j b F ct : walk_node_children src (TNode l i j b F) ct = walk_children F ct.
  Proof.
    cbn. revert ct. induction F as [|c F IH]; intros ct; [done|]. cbn [walk_children]. unfold walk_child.
    destruct (if t_label c =? _ then _ else _) as [a| |]; cbn [rbind]; [|done|done].
    destruct (walk_node_children src c a); cbn [rbind]; [apply IH|done|done].
  Qed.
  Lemma walk_skip t ct : tree_in not_rule t = true -> walk_child t ct = Ok ct.
  Proof.
    revert ct. induction t as [l i j b F IH] using ptree_ind'. intros ct H. cbn [tree_in] in H. apply andb_true_iff in H as [H1 H2].
    unfold walk_child. cbn [t_label]. unfold not_rule in H1. apply negb_true_iff in H1. rewrite H1. cbn [rbind]. rewrite walk_eq.
    induction F as [|c F IHF]; [done|]. cbn [forallb] in H2. apply andb_true_iff in H2 as [H2 H3]. cbn [walk_children].
    rewrite IH by (done || by left). cbn [rbind]. apply IHF; [|done]. intros t Ht. apply IH. by right.
  Qed.
  Lemma walk_skips F ct : forallb (tree_in not_rule) F = true -> walk_children F ct = Ok ct.
  Proof.
    induction F as [|c F IH]; [done|]. cbn [forallb walk_children]. intros [H1 H2]%andb_true_iff. rewrite walk_skip by done.
    cbn [rbind]. by apply IH.
  Qed.
  Lemma rhs_not_rule l : rhs_label l = true -> not_rule l = true.
  Proof. unfold rhs_label, not_rule. intros H. destruct (N.eqb_spec l dsl_R_Rule) as [->|]; [done|done]. Qed.
  Lemma leaf_not_rule l : leaf_label l = true -> not_rule l = true.
  Proof. intros H. by apply rhs_not_rule, leaf_rhs_label. Qed.
  Lemma lhs_facts t n b : lhs_rep src t n b ->
    tree_in not_rule t = true /\ tree_in not_ref t = true /\ valid_name n /\
    t_label t = dsl_R_LHS /\ exists i j F, child 0 t = Ok (TNode dsl_R_Var_Name_Decl i j true F) /\ text src i j (60 :: n ++ [62]).
  Proof.
    intros [i j n' F HF Ht Hv|i a j x y n' F G HF HG Ht Hv].
    - split; [cbn; rewrite (leaves_in _ _ leaf_not_rule HF); done|]. split; [cbn; rewrite (leaves_in _ _ leaf_not_ref HF); done|].
      split; [done|]. split; [done|]. exists i, j, F. done.
    - split; [cbn; rewrite (leaves_in _ _ leaf_not_rule HF), (leaves_in _ _ leaf_not_rule HG); done|].
      split; [cbn; rewrite (leaves_in _ _ leaf_not_ref HF), (leaves_in _ _ leaf_not_ref HG); done|].
      split; [done|]. split; [done|]. exists i, a, F. done.
  Qed.
  Lemma comment_facts cs ls : Forall2 (comment_rep src) cs ls ->
    forallb (tree_in not_rule) cs = true /\ forallb (tree_in not_ref) cs = true.
  Proof.
    induction 1 as [|t l cs ls Ht _ [IH1 IH2]]; [done|]. cbn [forallb]. rewrite IH1, IH2, !andb_true_r.
    destruct Ht as [i j a b cs' l' _ _ HF _]. cbn. split.
    - pose proof (ascii_nodes_in _ _ _ HF) as H. rewrite forallb_forall in *. intros x Hx.
      eapply tree_in_impl; [apply rhs_not_rule|by apply H].
    - by eapply ascii_not_ref.
  Qed.
  Lemma walk_rule t r ct : rule_rep src t r -> exists rhs, rep src rhs (dr_body r) /\ t_label rhs = dsl_R_RHS /\
    walk_child t ct = Ok (CallTable (<[dr_name r := rhs]> (ct_rhs ct)) (<[dr_name r := set_of (refs (dr_body r))]> (ct_refs ct))).
  Proof.
    intros [i j lhs rhs cs n inl_ e comments Hl Hrl Hrep Hcs]. exists rhs. split; [done|]. split; [done|]. simpl dr_body. simpl dr_name.
    destruct (lhs_facts _ _ _ Hl) as (H1 & H2 & Hv & H3 & (i' & j' & F & H4 & H5)).
    destruct (comment_facts _ _ Hcs) as [H6 H7].
    unfold walk_child. cbn [t_label]. change (dsl_R_Rule =? dsl_R_Rule) with true. cbn [rbind].
    assert (Hn : get_rules_name src (TNode dsl_R_Rule i j true (lhs :: rhs :: cs)) = Ok n).
    { unfold get_rules_name. cbn [child t_children lookup list_lookup]. cbn [rbind]. rewrite H3. cbn [negb N.eqb].
      change (negb (dsl_R_LHS =? dsl_R_LHS)) with false. cbv iota. rewrite H4. cbn [rbind t_label].
      change (negb (dsl_R_Var_Name_Decl =? dsl_R_Var_Name_Decl)) with false. cbv iota. by apply ref_name_ok. }
    rewrite Hn. cbn [rbind]. cbn [child t_children lookup list_lookup]. cbn [rbind].
    rewrite referenced_eq. cbn [ref_children]. rewrite ref_skip by done. cbn [rbind]. rewrite (ref_rep _ _ Hrep). cbn [rbind].
    rewrite ref_skips by done. cbn [rbind]. rewrite walk_eq. cbn [walk_children]. rewrite walk_skip by done. cbn [rbind].
    rewrite walk_skip by (eapply tree_in_impl; [apply rhs_not_rule|by eapply rep_in]). cbn [rbind].
    rewrite walk_skips by done. rewrite right_id_L by apply _. done.
  Qed.

  Definition table_for (rules : list drule) (ct : call_table) : Prop :=
    forall n, match body_of rules n with
      | None => ct_rhs ct !! n = None /\ ct_refs ct !! n = None
      | Some e => ct_refs ct !! n = Some (set_of (refs e)) /\ exists t, ct_rhs ct !! n = Some t /\ t_label t = dsl_R_RHS /\ rep src t e
      end.
  Lemma body_of_snoc rules r n : body_of (rules ++ [r]) n = if bool_decide (dr_name r = n) then Some (dr_body r) else body_of rules n.
  Proof. unfold body_of. rewrite rev_app_distr. simpl. by case_bool_decide. Qed.
  Lemma walk_rules ts rules : Forall2 (rule_rep src) ts rules -> forall done ct, table_for done ct ->
    exists ct', walk_children ts ct = Ok ct' /\ table_for (done ++ rules) ct'.
  Proof.
    induction 1 as [|t r ts rules Ht HF IH]; intros done ct Hct.
    - exists ct. rewrite app_nil_r. done.
    - cbn [walk_children]. destruct (walk_rule _ _ ct Ht) as (rhs & Hrep & Hl & ->). cbn [rbind].
      destruct (IH (done ++ [r]) (CallTable (<[dr_name r := rhs]> (ct_rhs ct)) (<[dr_name r := set_of (refs (dr_body r))]> (ct_refs ct)))) as (ct' & -> & H').
      + intros n. rewrite body_of_snoc. simpl. case_bool_decide as Hn.
        * subst n. rewrite !lookup_insert. eauto.
        * rewrite !lookup_insert_ne by done. apply Hct.
      + exists ct'. split; [reflexivity|]. by rewrite <- app_assoc in H'.
  Qed.
  Lemma walk_tree i j b ts rules : Forall2 (rule_rep src) ts rules ->
    exists ct, walk_node_children src (TNode dsl_R_Grammar i j b ts) (CallTable ∅ ∅) = Ok ct /\ table_for rules ct.
  Proof.
    intros H. rewrite walk_eq. apply (walk_rules _ _ H []). intros n. unfold body_of. simpl. by rewrite !lookup_empty.
  Qed.

  (** ** Leftmost references *)
  Lemma left_descend l i j b c F acc : descend (t_label c) = true -> t_label c =? dsl_R_Ordered_Choice = false ->
    left_most src (TNode l i j b (c :: F)) acc = left_most src c acc.
  Proof. intros H H'. cbn [left_most]. rewrite H', H. done. Qed.
  Lemma left_skip l i j b c acc : descend (t_label c) = false -> t_label c =? dsl_R_Ordered_Choice = false ->
    t_label c =? dsl_R_Var_Name_Ref = false -> left_most src (TNode l i j b [c]) acc = Ok acc.
  Proof. intros H H' H''. cbn [left_most]. rewrite H', H, H''. done. Qed.

  (** [holds t e]: looking for leftmost references in a node whose only child
      is [t], and in [t] itself when [t] has one child. *)
  Definition left_ok (c : ptree) (e : dexp) : Prop :=
    forall l i j b acc, left_most src (TNode l i j b [c]) acc = Ok (set_of (lefts e) ∪ acc).
  Definition left_in (t : ptree) (e : dexp) : Prop := forall acc, left_most src t acc = Ok (set_of (lefts e) ∪ acc).
  Lemma left_ok_in t e : descend (t_label t) = true -> t_label t =? dsl_R_Ordered_Choice = false -> left_in t e -> left_ok t e.
  Proof. intros H1 H2 H l i j b acc. rewrite left_descend by done. apply H. Qed.
  Definition left_alts (G : list ptree) (acc : name_set) : res name_set :=
           (fix alts (G : list ptree) (acc : name_set) : res name_set :=
              match G with
              | [] => Ok acc
              | g :: G =>
                match G with
                | [] => Ok acc
                | _ => let! acc := left_most src g acc in alts G acc
                end
              end) G acc.
  Lemma left_alts_eq g G acc : left_alts (g :: G) acc =
    match G with [] => Ok acc | _ => let! acc := left_most src g acc in left_alts G acc end.
  Proof. done. Qed.
  Lemma removelast_cons {A} (x : A) l : removelast (x :: l) = match l with [] => [] | _ => x :: removelast l end.
  Proof. done. Qed.
  Lemma left_alts_spec cs es : Forall2 left_in cs es -> forall acc,
    left_alts cs acc = Ok (set_of (concat (removelast (map lefts es))) ∪ acc).
  Proof.
    induction 1 as [|c e cs es Hc HF IH]; intros acc; [simpl; f_equal; set_solver|].
    rewrite left_alts_eq. change (map lefts (e :: es)) with (lefts e :: map lefts es). rewrite removelast_cons.
    destruct HF as [|c' e' cs es Hc' HF]; [simpl; f_equal; set_solver|].
    cbn [map]. rewrite Hc. cbn [rbind]. rewrite IH. f_equal. cbn [concat]. rewrite list_to_set_app_L. set_solver.
  Qed.

  Lemma left_rep t e : rep src t e -> left_ok t e /\ (t_label t = dsl_R_Atom \/ t_label t = dsl_R_RHS -> left_in t e).
  Proof.
    revert t e. apply (rep_mut src (fun t e => left_ok t e /\ (t_label t = dsl_R_Atom \/ t_label t = dsl_R_RHS -> left_in t e))
      (fun cs es => Forall2 left_in cs es)).
    - intros i j c e _ _ [IH _]. assert (left_in (TNode dsl_R_RHS i j true [c]) e) by (intros acc; apply IH).
      split; [by apply left_ok_in|done].
    - intros i j cs es Hr IH Hlen. split; [|by intros [?|?]]. intros l i' j' b acc. cbn [left_most t_label].
      change (dsl_R_Ordered_Choice =? dsl_R_Ordered_Choice) with true. cbv iota.
      destruct cs as [|c cs]; [by inversion IH; subst; simpl in Hlen; lia|]. exact (left_alts_spec _ _ IH acc).
    - intros i j cs es Hr IH Hlen. split; [|by intros [?|?]]. apply left_ok_in; [done|done|]. intros acc.
      destruct IH as [|c e cs es Hc IH]; [simpl in Hlen; lia|].
      inversion Hr as [|? ? ? ? Hl' Hr' HF']; subst. rewrite left_descend by (by rewrite Hl').
      rewrite Hc. done.
    - intros i j c e _ _ [IH _]. assert (left_in (TNode dsl_R_Atom i j true [c]) e) by (intros acc; apply IH).
      split; [by apply left_ok_in|done].
    - intros i j c e _ _ [IH _]. split; [|by intros [?|?]]. apply left_ok_in; [done|done|]. intros acc. apply IH.
    - intros i j c e _ _ [IH _]. split; [|by intros [?|?]]. apply left_ok_in; [done|done|]. intros acc. apply IH.
    - intros i j c e _ _ [IH _]. split; [|by intros [?|?]]. apply left_ok_in; [done|done|]. intros acc. apply IH.
    - intros i j c e _ _ [IH _]. split; [|by intros [?|?]]. intros l i' j' b acc. rewrite left_skip by done. f_equal. simpl. set_solver.
    - intros i j c e _ _ [IH _]. split; [|by intros [?|?]]. intros l i' j' b acc. rewrite left_skip by done. f_equal. simpl. set_solver.
    - intros i j c e _ _ [IH _]. split; [|by intros [?|?]]. apply left_ok_in; [done|done|]. intros acc. apply IH.
    - intros. split; [|by intros [?|?]]. intros l i' j' b' acc. rewrite left_skip by done. f_equal. simpl. set_solver.
    - intros i a j c n e _ _ _ _ _ [IH _]. split; [|by intros [?|?]]. apply left_ok_in; [done|done|]. intros acc. apply IH.
    - intros i j c e _ _ [IH _]. split; [|by intros [?|?]]. apply left_ok_in; [done|done|]. intros acc. apply IH.
    - intros. split; [|by intros [?|?]]. intros l i' j' b' acc. rewrite left_skip by done. f_equal. simpl. set_solver.
    - intros. split; [|by intros [?|?]]. intros l' i' j' b' acc. rewrite left_skip by done. f_equal. simpl. set_solver.
    - intros. split; [|by intros [?|?]]. intros l i' j' b' acc. rewrite left_skip by done. f_equal. simpl. set_solver.
    - intros. split; [|by intros [?|?]]. intros l i' j' b' acc. rewrite left_skip by done. f_equal. simpl. set_solver.
    - intros i j F n HL Ht Hv. split; [|by intros [?|?]]. intros l i' j' b' acc. cbn [left_most t_label].
      change (dsl_R_Var_Name_Ref =? dsl_R_Ordered_Choice) with false. change (descend dsl_R_Var_Name_Ref) with false.
      change (dsl_R_Var_Name_Ref =? dsl_R_Var_Name_Ref) with true. cbv iota.
      rewrite (ref_name_ok _ _ _ _ _ _ _ Hu Ht Hv). cbn [rbind]. f_equal. simpl. set_solver.
    - constructor.
    - intros c cs e es Hl _ [_ IH] _ IH2. constructor; [|done]. apply IH. by left.
  Qed.
End trees.

(** ** Abstract syntax *)
Lemma dexp_ind' (P : dexp -> Prop) :
  (forall c, P (DQuoted c)) -> (forall l, P (DString l)) -> (forall ds, P (DHexLit ds)) -> (forall ds, P (DIntLit ds)) ->
  (forall a b, P (DRange a b)) -> (forall n, P (DRef n)) -> (forall e, P e -> P (DGroup e)) ->
  (forall n e, P e -> P (DHook n e)) -> (forall e, P e -> P (DAnd e)) -> (forall e, P e -> P (DNot e)) ->
  (forall e, P e -> P (DPlus e)) -> (forall e, P e -> P (DStar e)) -> (forall e, P e -> P (DOpt e)) ->
  (forall es, Forall P es -> P (DSeq es)) -> (forall es, Forall P es -> P (DAlt es)) -> forall e, P e.
Proof.
  intros H1 H2 H3 H4 H5 H6 H7 H8 H9 H10 H11 H12 H13 H14 H15. fix IH 1.
  intros [c|l|ds|ds|a b|n|e|n e|e|e|e|e|e|es|es];
    [apply H1|apply H2|apply H3|apply H4|apply H5|apply H6|apply H7; apply IH|apply H8; apply IH|apply H9; apply IH
    |apply H10; apply IH|apply H11; apply IH|apply H12; apply IH|apply H13; apply IH| | ].
  - apply H14. induction es as [|e es IHes]; constructor; [apply IH|exact IHes].
  - apply H15. induction es as [|e es IHes]; constructor; [apply IH|exact IHes].
Qed.
Lemma lefts_refs e m : m ∈ lefts e -> m ∈ refs e.
Proof.
  induction e using dexp_ind'; simpl; try done; auto; try (intros Hm; by apply elem_of_nil in Hm).
  - destruct H as [|e es He Hes]; simpl; [done|]. intros Hm. apply elem_of_app. left. by apply He.
  - intros Hm. apply elem_of_list_In in Hm. apply in_concat in Hm as (l & Hl & Hm).
    assert (Hl' : In l (map lefts es)).
    { clear -Hl. revert Hl. generalize (map lefts es). intros L. induction L as [|x L IH]; [done|].
      rewrite removelast_cons. destruct L; [done|]. intros [->|H]; [by left|right; auto]. }
    apply in_map_iff in Hl' as (e & <- & He). apply elem_of_list_In. apply in_concat. exists (refs e). split; [by apply in_map|].
    apply elem_of_list_In. rewrite list.Forall_forall in H. apply H; [by apply elem_of_list_In|by apply elem_of_list_In].
Qed.

(** ** Grounded rules: every chain of leftmost references ends *)
Section grounded.
  Context (rules : list drule).
  Inductive grounded : name -> Prop :=
    | gr n e : body_of rules n = Some e -> (forall m, m ∈ lefts e -> grounded m) -> grounded n.
  Lemma grounded_step n m : grounded n -> left_calls rules n m -> grounded m.
  Proof. intros [n' e He H] (e' & He' & Hm). apply H. congruence. Qed.
  Lemma grounded_reaches n m : grounded n -> reaches rules n m -> grounded m.
  Proof. intros H Hr. induction Hr; [done|]. apply IHHr. by eapply grounded_step. Qed.
  Lemma grounded_acyclic n : grounded n -> ~ on_left_cycle rules n.
  Proof.
    intros H. induction H as [n e He Hg IH]. intros Hc.
    unfold on_left_cycle in Hc.
    inversion Hc as [? ? Hs|? m ? Hs Ht]; subst.
    - destruct Hs as (e' & He' & Hm). assert (e' = e) as -> by congruence. by eapply IH.
    - pose proof Hs as (e' & He' & Hm). assert (e' = e) as -> by congruence. apply (IH m Hm).
      unfold on_left_cycle. eapply tc_r; [exact Ht|]. done.
  Qed.
  Lemma grounded_not_lr n : grounded n -> ~ left_recursive rules n.
  Proof. intros H (m & Hr & Hc). eapply grounded_acyclic; [|exact Hc]. by eapply grounded_reaches. Qed.

  (** A finite set of names closed under "has a leftmost reference inside the
      set" contains a cycle. *)
  Context (D : name_set) (HD : forall n, n ∈ D -> exists m, left_calls rules n m /\ m ∈ D).
  Lemma path_cycle k : forall n (V : name_set), (size (D ∖ V) <= k)%nat -> n ∈ D -> n ∉ V ->
    (forall v, v ∈ V -> tc (left_calls rules) v n) -> left_recursive rules n.
  Proof using HD.
    induction k as [|k IH]; intros n V Hk Hn HnV HV.
    - exfalso. assert (Hin : n ∈ D ∖ V) by set_solver. assert (E : D ∖ V ≡ ∅) by (apply size_empty_inv; lia). set_solver.
    - destruct (HD n Hn) as (m & Hm & HmD). destruct (decide (m ∈ {[n]} ∪ V)) as [HmV|HmV].
      + exists n. split; [apply rtc_refl|]. apply elem_of_union in HmV as [->%elem_of_singleton|HmV].
        * by apply tc_once.
        * unfold on_left_cycle. eapply tc_l; [exact Hm|]. by apply HV.
      + destruct (IH m ({[n]} ∪ V)) as (x & Hx & Hc).
        * assert (E : (size (D ∖ ({[n]} ∪ V)) < size (D ∖ V))%nat). { apply subset_size. split; [set_solver|]. intros H'. assert (Hx : n ∈ D ∖ V) by (by apply elem_of_difference). apply H' in Hx. clear -Hx. apply elem_of_difference in Hx as [_ Hx]. apply Hx. apply elem_of_union_l. by apply elem_of_singleton. }
          lia.
        * done.
        * done.
        * intros v [->%elem_of_singleton|Hv]%elem_of_union; [by apply tc_once|].
          eapply tc_r; [by apply HV|done].
        * exists x. split; [|done]. eapply rtc_l; [exact Hm|exact Hx].
  Qed.
End grounded.

(** ** The detector *)
Section detector.
  Context (src : list N) (Hu : utf8 src) (rules : list drule) (ho : hash_orders) (Hho : orders_ok ho).
  Context (i j : N) (b : bool) (ts : list ptree) (Hts : Forall2 (rule_rep src) ts rules).
  Notation tree := (TNode dsl_R_Grammar i j b ts).

  Lemma left_most_table entries : NoDup (entries.*1) ->
    Forall (fun x => t_label (x.2) = dsl_R_RHS /\ exists e, body_of rules (x.1) = Some e /\ rep src (x.2) e) entries -> forall acc,
    exists m, left_most_of_rules src entries acc = Ok m /\ forall n,
      (n ∈ entries.*1 -> exists e, body_of rules n = Some e /\ m !! n = Some (set_of (lefts e))) /\
      (n ∉ entries.*1 -> m !! n = acc !! n).
  Proof using Hu.
    clear ho Hho Hts. induction entries as [|[n t] es IH]; intros Hnd HF acc.
    - exists acc. split; [done|]. intros n. split; [intros Hn; by apply elem_of_nil in Hn|done].
    - simpl in Hnd. apply NoDup_cons in Hnd as [Hn Hnd]. apply list.Forall_cons in HF as [(Hl & e & He & Hr) HF]. simpl in Hl, He, Hr.
      cbn [left_most_of_rules]. rewrite Hl. change (negb (dsl_R_RHS =? dsl_R_RHS)) with false. cbv iota.
      destruct (left_rep src Hu _ _ Hr) as [_ Hin]. rewrite Hin by (by right). cbn [rbind].
      destruct (IH Hnd HF (<[n := set_of (lefts e) ∪ ∅]> acc)) as (m & -> & Hm). exists m. split; [done|].
      intros k. destruct (Hm k) as [Hm1 Hm2]. simpl. split.
      + intros [->|Hk]%elem_of_cons; [|by apply Hm1]. exists e. split; [done|]. rewrite Hm2 by done. rewrite lookup_insert. f_equal. by rewrite right_id_L by apply _.
      + intros [Hk1 Hk2]%not_elem_of_cons. rewrite Hm2 by done. by rewrite lookup_insert_ne.
  Qed.
  Lemma lefts_table ct M : table_for src rules ct ->
    exists lm, get_left_most_called_rules_of_all_rules src ho M (ct_rhs ct) = Ok lm /\ forall n,
      lm !! n = match body_of rules n with Some e => if bool_decide (n ∈ M) then None else Some (set_of (lefts e)) | None => None end.
  Proof using Hu Hho.
    intros Hct. unfold get_left_most_called_rules_of_all_rules. destruct Hho as (_ & Hp & _).
    set (es := filter _ _).
    assert (Hes : forall n t, (n, t) ∈ es <-> n ∉ M /\ ct_rhs ct !! n = Some t).
    { intros n t. unfold es. rewrite elem_of_list_filter, (Hp _ _), elem_of_map_to_list. done. }
    destruct (left_most_table es) with (acc := ∅ : name_map name_set) as (lm & -> & Hlm).
    - unfold es. assert (Hnd : NoDup ((ho_keys ho ptree (map_to_list (ct_rhs ct))).*1)).
      { rewrite (Hp _ _). apply NoDup_fst_map_to_list. }
      revert Hnd. generalize (ho_keys ho ptree (map_to_list (ct_rhs ct))). intros L. induction L as [|[n t] L IH]; [done|].
      simpl. intros [H1 H2]%NoDup_cons. rewrite filter_cons. destruct (decide _); [|by apply IH].
      simpl. constructor; [|by apply IH]. intros ([k t'] & -> & Hk)%elem_of_list_fmap. apply H1. apply elem_of_list_filter in Hk as [_ Hk].
      apply elem_of_list_fmap. by exists (k, t').
    - apply list.Forall_forall. intros [n t] Hx. apply Hes in Hx as [_ Hx]. specialize (Hct n). simpl.
      destruct (body_of rules n) as [e|]; [|destruct Hct; congruence]. destruct Hct as (_ & t' & Ht' & Hl & Hr).
      assert (t' = t) as -> by congruence. eauto.
    - exists lm. split; [done|]. intros n. destruct (Hlm n) as [H1 H2]. specialize (Hct n).
      assert (Hin : n ∈ es.*1 <-> n ∉ M /\ is_Some (ct_rhs ct !! n)).
      { rewrite elem_of_list_fmap. split.
        - intros ([k t] & -> & Hk). apply Hes in Hk as [? Hk]. simpl. rewrite Hk. by eauto.
        - intros [Hk [t Ht]]. exists (n, t). split; [done|]. by apply Hes. }
      destruct (body_of rules n) as [e|] eqn:Eb.
      + destruct Hct as (_ & t & Ht & _). case_bool_decide as HM.
        * rewrite H2, lookup_empty; [done|]. rewrite Hin. tauto.
        * destruct H1 as (e' & He' & ->); [apply Hin; split; [done|by rewrite Ht]|]. congruence.
      + rewrite H2, lookup_empty; [done|]. rewrite Hin. destruct Hct as [-> _]. intros [_ [? ?]]. done.
  Qed.

  (** All leftmost references go to declared rules. *)
  Notation lefts_declared := (lefts_declared rules).

  (** Everything before the merge loop. *)
  Lemma detector_prefix : exists fuel0 inv, owned inv /\
    (forall fuel, (fuel0 <= fuel)%nat -> left_recursion_rules fuel ho src tree = merge_loop fuel inv) /\
    (forall fuel r, left_recursion_rules fuel ho src tree = Ok r -> merge_loop fuel inv = Ok r) /\
    (forall n S, inv !! n = Some S -> declared rules n /\ ~ grounded rules n /\ forall m, m ∈ S <-> m = n \/ left_calls rules n m /\ ~ grounded rules m) /\
    (forall n, declared rules n -> grounded rules n \/ is_Some (inv !! n)) /\
    (forall n, grounded rules n -> inv !! n = None) /\
    (forall n, grounded rules n \/ ~ grounded rules n).
  Proof using Hu Hho Hts.
    destruct (walk_tree src Hu i j b ts rules Hts) as (ct & Ew & Hct).
    pose proof Hho as (Hp1 & Hp2 & Hp3 & Hp4).
    destruct (mark_loop_total (ho_refs ho) (ct_refs ct) Hp1 (S (size (dom (ct_refs ct) ∖ ∅))) 0 ∅ ltac:(lia)) as (M1 & E1).
    pose proof (mark_loop_spec _ _ Hp1 _ _ _ _ E1) as HM1.
    destruct (lefts_table ct M1 Hct) as (lm & El & Hlm).
    destruct (mark_loop_total (ho_left ho) lm Hp3 (S (size (dom lm ∖ M1))) 0 M1 ltac:(lia)) as (M2 & E2).
    pose proof (mark_loop_spec _ _ Hp3 _ _ _ _ E2) as HM2.
    assert (Hrefs : forall n s, ct_refs ct !! n = Some s -> exists e, body_of rules n = Some e /\ s = set_of (refs e)).
    { intros n s Hs. specialize (Hct n). destruct (body_of rules n) as [e|]; [|destruct Hct; congruence].
      destruct Hct as [Hct _]. exists e. split; [done|]. congruence. }
    assert (HG1 : forall n, n ∈ M1 -> grounded rules n).
    { intros n Hn. apply HM1 in Hn. induction Hn as [n Hn|n s Hs _ IH]; [set_solver|].
      apply Hrefs in Hs as (e & He & ->). econstructor; [exact He|]. intros m Hm. apply IH. apply elem_of_list_to_set. by apply lefts_refs. }
    assert (HG : forall n, n ∈ M2 <-> grounded rules n).
    { intros n. rewrite HM2. split.
      - induction 1 as [n Hn|n s Hs _ IH]; [by apply HG1|]. rewrite Hlm in Hs.
        destruct (body_of rules n) as [e|] eqn:Eb; [|done]. case_bool_decide; [done|]. injection Hs as <-.
        econstructor; [exact Eb|]. intros m Hm. apply IH. by apply elem_of_list_to_set.
      - induction 1 as [n e He _ IH]. destruct (decide (n ∈ M1)) as [HnM|HnM]; [by apply mk_0|].
        eapply (mk_1 _ _ _ (set_of (lefts e))); [rewrite Hlm, He; by rewrite bool_decide_eq_false_2|].
        intros m Hm. apply IH. by apply elem_of_list_to_set in Hm. }
    set (inv := create_involved_sets ho M2 lm).
    assert (Hinv : forall n, inv !! n = match body_of rules n with
      | Some e => if bool_decide (n ∈ M1) then None else
          if bool_decide (set_of (lefts e) ∖ M2 = ∅) then None else Some ({[n]} ∪ set_of (lefts e) ∖ M2)
      | None => None end).
    { intros n. unfold inv. rewrite (create_involved_spec _ _ _ _ Hp4), Hlm. destruct (body_of rules n); [|done]. by case_bool_decide. }
    exists (Nat.max (S (size (dom (ct_refs ct) ∖ ∅))) (S (size (dom lm ∖ M1)))), inv.
    split. { intros n S HS. rewrite Hinv in HS. destruct (body_of rules n) as [e|]; [|done]. repeat (case_bool_decide; [done|]). injection HS as <-. set_solver. }
    split. { intros fuel Hf. unfold left_recursion_rules. rewrite Ew. cbn [rbind].
      rewrite (mark_loop_mono _ _ _ _ _ _ E1) by lia. cbn [rbind]. rewrite El. cbn [rbind].
      rewrite (mark_loop_mono _ _ _ _ _ _ E2) by lia. done. }
    split. { intros fuel r H. unfold left_recursion_rules in H. rewrite Ew in H. cbn [rbind] in H.
      destruct (mark_loop fuel (ho_refs ho) 0 (ct_refs ct) ∅) as [M1'| |] eqn:E1'; cbn [rbind] in H; [|done|done].
      assert (M1' = M1) as ->. { apply leibniz_equiv. intros x. rewrite HM1. apply (mark_loop_spec _ _ Hp1 _ _ _ _ E1'). }
      rewrite El in H. cbn [rbind] in H.
      destruct (mark_loop fuel (ho_left ho) 0 lm M1) as [M2'| |] eqn:E2'; cbn [rbind] in H; [|done|done].
      assert (M2' = M2) as ->. { apply leibniz_equiv. intros x. rewrite HM2. apply (mark_loop_spec _ _ Hp3 _ _ _ _ E2'). }
      done. }
    split. { intros n S HS. rewrite Hinv in HS. destruct (body_of rules n) as [e|] eqn:Eb; [|done].
      case_bool_decide as Hb1; [done|]. case_bool_decide as Hb2; [done|]. injection HS as <-.
      assert (Hng : ~ grounded rules n).
      { intros Hg. destruct Hg as [n e' He' Hg]. assert (e' = e) as -> by congruence. apply Hb2. apply leibniz_equiv. intros m. split; [|set_solver].
        intros [Hm1 Hm2]%elem_of_difference. exfalso. apply Hm2, HG, Hg. by apply elem_of_list_to_set in Hm1. }
      split; [by exists e|]. split; [done|]. intros m. rewrite elem_of_union, elem_of_singleton, elem_of_difference, elem_of_list_to_set, HG.
      split; (intros [?|[H1 H2]]; [by left|right]); (split; [|done]).
      - by exists e.
      - destruct H1 as (e' & He' & H1). congruence. }
    split. { intros n [e He]. rewrite <- HG. destruct (decide (n ∈ M2)) as [Hn|Hn]; [by left|right]. rewrite Hinv, He.
      assert (HnM1 : n ∉ M1). { intros Hn1. apply Hn, HG. by apply HG1. }
      rewrite bool_decide_eq_false_2 by done. case_bool_decide as Hb; [|by eexists]. exfalso. apply Hn, HG. econstructor; [exact He|].
      intros m Hm. apply HG. destruct (decide (m ∈ M2)); [done|]. exfalso. assert (Hx : m ∈ set_of (lefts e) ∖ M2) by (apply elem_of_difference; split; [by apply elem_of_list_to_set|done]).
      rewrite Hb in Hx. set_solver. }
    split. 2: { intros n. rewrite <- HG. destruct (decide (n ∈ M2)); [by left|by right]. }
    intros n Hg. rewrite Hinv. destruct (body_of rules n) as [e|] eqn:Eb; [|done]. case_bool_decide; [done|].
    rewrite bool_decide_eq_true_2; [done|]. apply leibniz_equiv. intros m. split; [|set_solver].
    intros [Hm1 Hm2]%elem_of_difference. exfalso. apply Hm2, HG. apply elem_of_list_to_set in Hm1. eapply grounded_step; [exact Hg|]. by exists e.
  Qed.


  Lemma lr_not_grounded n : left_recursive rules n -> declared rules n /\ ~ grounded rules n.
  Proof using.
    intros H. split; [|intros Hg; by eapply grounded_not_lr].
    destruct H as (m & Hr & Hc). unfold reaches in Hr. inversion Hr as [|? ? ? Hs _]; subst.
    - unfold on_left_cycle in Hc. inversion Hc as [? ? Hs|? ? ? Hs _]; subst; destruct Hs as (e & He & _); by exists e.
    - destruct Hs as (e & He & _). by exists e.
  Qed.

  Lemma dangling_iff (inv : name_map name_set) :
    (forall n S, inv !! n = Some S -> declared rules n /\ ~ grounded rules n /\ forall m, m ∈ S <-> m = n \/ left_calls rules n m /\ ~ grounded rules m) ->
    (forall n, declared rules n -> grounded rules n \/ is_Some (inv !! n)) ->
    (forall n, grounded rules n \/ ~ grounded rules n) ->
    no_dangling inv <-> lefts_declared.
  Proof using.
    intros H1 H2 Hdec. split.
    - intros Hnd n m Hnm. destruct (H2 n) as [Hg|[S HS]]; [destruct Hnm as (e & He & _); by exists e| |].
      + assert (Hgm : grounded rules m) by (by eapply grounded_step). destruct Hgm as [m e He _]. by exists e.
      + destruct (H1 _ _ HS) as (_ & Hng & HH).
        destruct (Hdec m) as [Hg|Hg]; [destruct Hg as [m e He _]; by exists e|].
        destruct (Hnd n S m HS) as [Sm Em]; [apply HH; by right|]. by apply H1 in Em as [? _].
    - intros Hd n S m HS Hm. destruct (H1 _ _ HS) as (_ & _ & HH). apply HH in Hm as [->|[Hm Hg]]; [by rewrite HS|].
      destruct (H2 m) as [?|?]; [by eapply Hd|done|done].
  Qed.

  Lemma not_grounded_lr (inv : name_map name_set) :
    (forall n S, inv !! n = Some S -> declared rules n /\ ~ grounded rules n /\ forall m, m ∈ S <-> m = n \/ left_calls rules n m /\ ~ grounded rules m) ->
    (forall n, declared rules n -> grounded rules n \/ is_Some (inv !! n)) ->
    (forall n, grounded rules n \/ ~ grounded rules n) -> lefts_declared ->
    forall n, is_Some (inv !! n) -> left_recursive rules n.
  Proof using.
    intros H1 H2 Hdec Hd n Hn. apply (path_cycle rules (dom inv)) with (k := size (dom inv)) (V := ∅).
    - intros x [Sx Hx]%elem_of_dom. destruct (H1 _ _ Hx) as ((e & He) & Hng & _).
      assert (Hex : Exists (fun m => ~ grounded rules m) (lefts e) \/ Forall (grounded rules) (lefts e)).
      { generalize (lefts e). intros L. induction L as [|m L [IH|IH]]; [by right|left; by right|].
        destruct (Hdec m); [right; by constructor|left; by left]. }
      destruct Hex as [Hex|Hall].
      + apply list.Exists_exists in Hex as (m & Hm & Hg). exists m. split; [by exists e|]. apply elem_of_dom.
        destruct (H2 m) as [?|?]; [eapply Hd; by exists e|done|done].
      + exfalso. apply Hng. econstructor; [exact He|]. by apply list.Forall_forall.
    - rewrite difference_empty_L. done.
    - by apply elem_of_dom.
    - apply not_elem_of_empty.
    - intros v Hv. by apply elem_of_empty in Hv.
  Qed.

  Theorem detector_spec fuel lr : left_recursion_rules fuel ho src tree = Ok lr ->
    lefts_declared /\
    (forall n, is_Some (lr !! n) <-> left_recursive rules n) /\
    (forall n S, lr !! n = Some S -> forall m, m ∈ S <-> reaches rules n m /\ left_recursive rules m).
  Proof using Hu Hho Hts.
    intros H. destruct detector_prefix as (fuel0 & inv & Ho & _ & H0 & H1 & H2 & H3 & Hdec). apply H0 in H. clear H0.
    destruct fuel as [|fuel]; [done|].
    assert (Hnd : no_dangling inv).
    { destruct (decide (map_Forall (fun (n : name) (S : name_set) => set_Forall (fun m : name => is_Some (inv !! m)) S) inv)) as [Hd|Hd].
      - intros n S m HS Hm. apply (map_Forall_lookup_1 _ _ _ _ Hd HS m Hm).
      - exfalso. rewrite merge_loop_panic in H; [by inversion H|]. intros Hnd. apply Hd. intros n S HS m Hm. by eapply Hnd. }
    destruct (merge_loop_spec _ _ _ Ho Hnd H) as [Hdom Hset]. clear H.
    assert (Hdecl : lefts_declared) by (by eapply dangling_iff).
    pose proof (not_grounded_lr _ H1 H2 Hdec Hdecl) as Hlr.
    assert (Hiff : forall n, is_Some (inv !! n) <-> left_recursive rules n).
    { intros n. split; [apply Hlr|]. intros HL. apply lr_not_grounded in HL as [HL Hng]. destruct (H2 n HL); [done|done]. }
    split; [done|]. split.
    - intros n. rewrite <- Hiff, <- !elem_of_dom, Hdom. done.
    - intros n S HS m. rewrite (Hset _ _ HS).
      assert (Hin : is_Some (inv !! n)). { rewrite <- elem_of_dom, <- Hdom. by apply elem_of_dom_2 in HS. }
      clear HS Hset Hdom. split.
      + intros Hr. induction Hr as [x|x y z Hxy Hyz IH].
        * split; [apply rtc_refl|by apply Hiff].
        * destruct Hxy as (Sx & HSx & Hy). pose proof (Hnd _ _ _ HSx Hy) as Hyi. destruct (IH Hyi) as [HR HL]. split; [|done].
          destruct (H1 _ _ HSx) as (_ & _ & HH). apply HH in Hy as [->|[Hy _]]; [done|]. eapply rtc_l; [exact Hy|exact HR].
      + intros [HR HL]. unfold reaches in HR. clear Hin. induction HR as [x|x y z Hxy Hyz IH].
        * apply rtc_refl.
        * specialize (IH HL). eapply rtc_l; [|exact IH].
          assert (HLy : left_recursive rules y). { destruct HL as (c & Hc1 & Hc2). exists c. split; [|done]. etransitivity; [exact Hyz|exact Hc1]. }
          assert (HLx : left_recursive rules x). { destruct HLy as (c & Hc1 & Hc2). exists c. split; [|done]. eapply rtc_l; [exact Hxy|exact Hc1]. }
          apply Hiff in HLx as [Sx HSx]. exists Sx. split; [done|]. apply (H1 _ _ HSx). right. split; [done|]. by apply lr_not_grounded in HLy as [_ ?].
  Qed.

  Theorem detector_total : lefts_declared -> exists fuel0 lr, forall fuel, (fuel0 <= fuel)%nat -> left_recursion_rules fuel ho src tree = Ok lr.
  Proof using Hu Hho Hts.
    intros Hd. destruct detector_prefix as (fuel0 & inv & Ho & H0 & _ & H1 & H2 & H3 & Hdec).
    assert (Hnd : no_dangling inv) by (by eapply dangling_iff).
    set (k := S (size (dom inv) * size (dom inv) - involved_rule_count inv)).
    destruct (merge_loop_total k inv Ho Hnd (Nat.lt_succ_diag_r _)) as (lr & Hlr).
    exists (Nat.max fuel0 k), lr. intros fuel Hf. rewrite H0 by lia. eapply merge_loop_mono; [exact Hlr|]. lia.
  Qed.
  Theorem detector_panics : ~ lefts_declared -> exists fuel0, forall fuel, (fuel0 <= fuel)%nat -> left_recursion_rules fuel ho src tree = Panic PExplicit.
  Proof using Hu Hho Hts.
    intros Hd. destruct detector_prefix as (fuel0 & inv & Ho & H0 & _ & H1 & H2 & H3 & Hdec).
    exists (S fuel0). intros fuel Hf. destruct fuel as [|fuel]; [lia|]. rewrite H0 by lia. apply merge_loop_panic. intros Hnd. apply Hd.
    by eapply dangling_iff.
  Qed.
End detector.
