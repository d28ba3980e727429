(** Compiled right-hand sides and the meaning of grammar files. *)
From Verif Require Import SpecGenerator SpecMeaning SpecProgram SpecCfg ProofPeg ProofLeft SpecLR SpecTerm.
From stdpp Require Import relations gmap.
Local Open Scope N_scope.

Scheme means_mind := Minimality for means Sort Prop
  with means_seq_mind := Minimality for means_seq Sort Prop
  with means_alt_mind := Minimality for means_alt Sort Prop.
Combined Scheme means_mutind from means_mind, means_seq_mind, means_alt_mind.

Section stands.
  Context {U : Type} (pr : program U) (rules : list drule).
  (** [refok n e]: [e] is how a reference to [n] is compiled. *)
  Context (refok : list N -> expr -> Prop).

  Inductive stands : dexp -> expr -> Prop :=
    | st_char e c : literal e = Some [c] -> stands e (ETerminal c)
    | st_string e l : literal e = Some l -> stands e (EString l)
    | st_range a b x y : bound_byte a = Some x -> bound_byte b = Some y -> stands (DRange a b) (ERange x y)
    | st_ref n e : refok n e -> stands (DRef n) e
    | st_group e e' : stands e e' -> stands (DGroup e) (ESub e')
    | st_and e e' : stands e e' -> stands (DAnd e) (EAnd e')
    | st_not e e' : stands e e' -> stands (DNot e) (ENot e')
    | st_opt e e' : stands e e' -> stands (DOpt e) (EOpt e')
    | st_star e e' : stands e e' -> stands (DStar e) (EStar e')
    | st_plus e e' : stands e e' -> stands (DPlus e) (EPlus e')
    | st_seq e es e' es' : stands e e' -> stands_all es es' -> stands (DSeq (e :: es)) (fold_left ESeq es' e')
    | st_alt e es e' es' : stands e e' -> stands_all es es' -> stands (DAlt (e :: es)) (fold_left EChoice es' e')
  with stands_all : list dexp -> list expr -> Prop :=
    | sta_nil : stands_all [] []
    | sta_cons e e' es es' : stands e e' -> stands_all es es' -> stands_all (e :: es) (e' :: es').

  Lemma stands_all_snoc es es' x' : stands_all es (es' ++ [x']) ->
    exists es0 x, es = es0 ++ [x] /\ stands_all es0 es' /\ stands x x'.
  Proof.
    revert es. induction es' as [|y es' IH]; intros es H; simpl in H.
    - inversion H as [|x ? es1 ? Hx H1]; subst. inversion H1; subst. exists [], x. split; [done|]. split; [constructor|done].
    - inversion H as [|x ? es1 ? Hx H1]; subst. apply IH in H1 as (es0 & z & -> & H1 & H2).
      exists (x :: es0), z. split; [done|]. split; [by constructor|done].
  Qed.

  (** Every reference finds the function of the rule it names. *)
  Context (Href : forall n e, refok n e -> exists body l f body',
    body_of rules n = Some body /\ pexp_of e = PRef l f /\ pr_fn pr f = Some body' /\ stands body body').
  Notation g := (grammar_of pr).
  Context (s : list N).

  Lemma means_seq_snoc es x i j o : means_seq rules s es i (Some j) -> means rules s x j o -> means_seq rules s (es ++ [x]) i o.
  Proof.
    revert i. induction es as [|e es IH]; intros i H Hx; inversion H; subst; simpl.
    - destruct o; [eapply ms_cons; [exact Hx|constructor]|by apply ms_fail].
    - eapply ms_cons; [done|]. by eapply IH.
  Qed.
  Lemma means_seq_snoc_fail es x i : means_seq rules s es i None -> means_seq rules s (es ++ [x]) i None.
  Proof.
    revert i. induction es as [|e es IH]; intros i H; inversion H; subst; simpl; [by apply ms_fail|].
    eapply ms_cons; [done|]. by apply IH.
  Qed.
  Lemma means_alt_snoc es x i o : means_alt rules s es i None -> means rules s x i o -> means_alt rules s (es ++ [x]) i o.
  Proof.
    revert i. induction es as [|e es IH]; intros i H Hx; inversion H; subst; simpl.
    - destruct o; [by apply ma_take|]. apply ma_next; [done|constructor].
    - apply ma_next; [done|]. by eapply IH.
  Qed.
  Lemma means_alt_snoc_ok es x i j : means_alt rules s es i (Some j) -> means_alt rules s (es ++ [x]) i (Some j).
  Proof.
    revert i. induction es as [|e es IH]; intros i H; inversion H; subst; simpl; [by apply ma_take|].
    apply ma_next; [done|]. by apply IH.
  Qed.

  Lemma occurs_char i c : occurs_at s i [c] <-> s !! N.to_nat i = Some c.
  Proof.
    unfold occurs_at. assert (E : s !! N.to_nat i = drop (N.to_nat i) s !! 0%nat) by (rewrite lookup_drop; f_equal; lia).
    rewrite E. destruct (drop (N.to_nat i) s) as [|x l]; simpl; split; intros H; try done; [by injection H as ->|by injection H as ->].
  Qed.

  Lemma literal_not e l : literal e = Some l -> (exists c, e = DQuoted c) \/ (exists c, e = DString c) \/ (exists c, e = DHexLit c).
  Proof. destruct e; simpl; intros H; try done; eauto. Qed.

  (** Outcome of a left-nested sequence or choice. *)
  Lemma singles e o i : means rules s e i o -> means rules s (DSeq [e]) i o /\ means rules s (DAlt [e]) i o.
  Proof.
    intros H. split; constructor.
    - apply (means_seq_snoc [] e i i o); [constructor|done].
    - apply (means_alt_snoc [] e i o); [constructor|done].
  Qed.

  Theorem peg_means p i o : peg g s p i o -> forall e e', stands e e' -> p = pexp_of e' -> means rules s e i o.
  Proof using Href.
    intros H. induction H as [c i Hc|c i Hc|a b x i Hc Hr|a b i Hc|l i Hl|l i Hl|p1 p2 i j o H1 IH1 H2 IH2|p1 p2 i H1 IH1|p1 p2 i j H1 IH1
      |p1 p2 i o H1 IH1 H2 IH2|p i j H IH|p i H IH|p i H IH|p i j H IH|p i H IH|p i j o H1 IH1 H2 IH2|p i H IH|p i j o H1 IH1 H2 IH2
      |p i j H IH|p i H IH|lb A body i o Hg H IH]; intros e e' Hst; remember Hst as Hst0 eqn:E0; clear E0; revert Hst0;
      (induction Hst as [e c' El|e l' El|a' b' x' y' Ea Eb|n e' Hn|e e' Hs IHe|e e' Hs IHe|e e' Hs IHe|e e' Hs IHe|e e' Hs IHe|e e' Hs IHe
         |e es e' es' Hs IHe Hall|e es e' es' Hs IHe Hall]; intros Hst0 Ep;
       [simpl in Ep; try done| simpl in Ep; try done|simpl in Ep; try done
       |try (destruct (Href _ _ Hn) as (bd & l0 & f & bd' & Eb & Ee & Ef & Hbd); rewrite Ee in Ep; done)
       |simpl in Ep; try (apply m_group; by apply IHe)|simpl in Ep; try done|simpl in Ep; try done|simpl in Ep; try done|simpl in Ep; try done|simpl in Ep; try done
       |destruct es' as [|z' es' _] using rev_ind;
         [inversion Hall; subst; simpl in Ep; apply singles; by apply IHe
         |rewrite fold_left_app in Ep; simpl in Ep; try done]
       |destruct es' as [|z' es' _] using rev_ind;
         [inversion Hall; subst; simpl in Ep; apply singles; by apply IHe
         |rewrite fold_left_app in Ep; simpl in Ep; try done]]).
    - injection Ep as ->. apply (m_literal _ _ _ [c'] i El). by apply occurs_char.
    - injection Ep as ->. apply (m_literal_fail _ _ _ [c'] i El). by rewrite occurs_char.
    - injection Ep as -> ->. by eapply m_range.
    - injection Ep as -> ->. by eapply m_range_fail.
    - injection Ep as ->. by apply m_literal.
    - injection Ep as ->. by eapply m_literal_fail.
    - injection Ep as -> ->. apply stands_all_snoc in Hall as (es0 & x & -> & Ha & Hx). constructor. 
      pose proof (IH1 _ _ (st_seq _ _ _ _ Hs Ha) eq_refl) as M1. inversion M1; subst; [done|].
      rewrite app_comm_cons. eapply means_seq_snoc; [done|]. by eapply IH2.
    - injection Ep as -> ->. apply stands_all_snoc in Hall as (es0 & x & -> & Ha & Hx). constructor. 
      pose proof (IH1 _ _ (st_seq _ _ _ _ Hs Ha) eq_refl) as M1. inversion M1; subst; [done|].
      rewrite app_comm_cons. by apply means_seq_snoc_fail.
    - injection Ep as -> ->. apply stands_all_snoc in Hall as (es0 & x & -> & Ha & Hx). constructor. 
      pose proof (IH1 _ _ (st_alt _ _ _ _ Hs Ha) eq_refl) as M1. inversion M1; subst; [done|].
      rewrite app_comm_cons. by apply means_alt_snoc_ok.
    - injection Ep as -> ->. apply stands_all_snoc in Hall as (es0 & x & -> & Ha & Hx). constructor. 
      pose proof (IH1 _ _ (st_alt _ _ _ _ Hs Ha) eq_refl) as M1. inversion M1; subst; [done|].
      rewrite app_comm_cons. eapply means_alt_snoc; [done|]. by eapply IH2.
    - injection Ep as ->. eapply m_and. by eapply IH.
    - injection Ep as ->. eapply m_and_fail. by eapply IH.
    - injection Ep as ->. eapply m_not. by eapply IH.
    - injection Ep as ->. eapply m_not_fail. by eapply IH.
    - injection Ep as ->. eapply m_star_stop. by eapply IH.
    - injection Ep as ->. eapply m_star_more; [by eapply IH1|]. by eapply IH2.
    - injection Ep as ->. eapply m_plus_fail. by eapply IH.
    - injection Ep as ->. eapply m_plus; [by eapply IH1|]. eapply IH2; [by apply st_star|done].
    - injection Ep as ->. eapply m_opt. by eapply IH.
    - injection Ep as ->. eapply m_opt_none. by eapply IH.
    - destruct (Href _ _ Hn) as (bd & l0 & f & bd' & Eb & Ee & Ef & Hbd). rewrite Ee in Ep. injection Ep as <- <-.
      unfold grammar_of in Hg. rewrite Ef in Hg. injection Hg as <-. eapply m_ref; [done|]. by eapply IH.
  Qed.
End stands.

Section back.
  Context {U : Type} (pr : program U) (rules : list drule) (refok : list N -> expr -> Prop).
  Notation st := (stands refok).
  Notation st_all := (stands_all refok).
  Context (Href : forall n e, refok n e -> exists body l f body',
    body_of rules n = Some body /\ pexp_of e = PRef l f /\ pr_fn pr f = Some body' /\ st body body').
  Notation g := (grammar_of pr).
  Context (s : list N).

  Lemma fold_seq_fail es' : forall p0 i, peg g s (pexp_of p0) i None -> peg g s (pexp_of (fold_left ESeq es' p0)) i None.
  Proof. induction es' as [|x es' IH]; intros p0 i H; simpl; [done|]. apply IH. by apply peg_seq_fail. Qed.
  Lemma fold_alt_ok es' : forall p0 i j, peg g s (pexp_of p0) i (Some j) -> peg g s (pexp_of (fold_left EChoice es' p0)) i (Some j).
  Proof. induction es' as [|x es' IH]; intros p0 i j H; simpl; [done|]. apply IH. by apply peg_alt_1. Qed.

  Theorem means_peg : 
    (forall e i o, means rules s e i o -> forall e', st e e' -> peg g s (pexp_of e') i o) /\
    (forall es i o, means_seq rules s es i o ->
      (forall es' p0 i0, st_all es es' -> peg g s (pexp_of p0) i0 (Some i) -> peg g s (pexp_of (fold_left ESeq es' p0)) i0 o) /\
      (forall e es1 e' es', es = e :: es1 -> st e e' -> st_all es1 es' -> peg g s (pexp_of (fold_left ESeq es' e')) i o)) /\
    (forall es i o, means_alt rules s es i o ->
      (forall es' p0, st_all es es' -> peg g s (pexp_of p0) i None -> peg g s (pexp_of (fold_left EChoice es' p0)) i o) /\
      (forall e es1 e' es', es = e :: es1 -> st e e' -> st_all es1 es' -> peg g s (pexp_of (fold_left EChoice es' e')) i o)).
  Proof using Href.
    apply means_mutind.
    - intros e l i El Ho e' Hst. destruct Hst; simpl in El |- *; try done; simplify_eq; [|by apply peg_str_ok].
      apply occurs_char in Ho. by apply peg_char_ok.
    - intros e l i El Ho e' Hst. destruct Hst; simpl in El |- *; try done; simplify_eq; [|by apply peg_str_fail].
      rewrite occurs_char in Ho. by apply peg_char_fail.
    - intros a b x y c i Ea Eb Hc Hr e' Hst. inversion Hst; subst; simpl in *; try done. simplify_eq. by eapply peg_range_ok.
    - intros a b x y i Ea Eb Hc e' Hst. inversion Hst; subst; simpl in *; try done. simplify_eq. by eapply peg_range_fail.
    - intros n body i o Eb _ IH e' Hst. inversion Hst; subst; simpl in *; try done.
      match goal with H : refok _ _ |- _ => destruct (Href _ _ H) as (bd & l0 & f & bd' & Eb' & Ee & Ef & Hbd) end.
      rewrite Ee. simplify_eq. eapply peg_ref; [unfold grammar_of; by rewrite Ef|]. by apply IH.
    - intros e i o _ IH e' Hst. inversion Hst; subst; simpl in *; try done. by apply IH.
    - intros e i j _ IH e' Hst. inversion Hst; subst; simpl in *; try done. eapply peg_and_ok. by apply IH.
    - intros e i _ IH e' Hst. inversion Hst; subst; simpl in *; try done. eapply peg_and_fail. by apply IH.
    - intros e i _ IH e' Hst. inversion Hst; subst; simpl in *; try done. eapply peg_not_ok. by apply IH.
    - intros e i j _ IH e' Hst. inversion Hst; subst; simpl in *; try done. eapply peg_not_fail. by apply IH.
    - intros e i j _ IH e' Hst. inversion Hst; subst; simpl in *; try done. eapply peg_opt_some. by apply IH.
    - intros e i _ IH e' Hst. inversion Hst; subst; simpl in *; try done. eapply peg_opt_none. by apply IH.
    - intros e i _ IH e' Hst. inversion Hst; subst; simpl in *; try done. eapply peg_star_stop. by apply IH.
    - intros e i j o _ IH1 _ IH2 e' Hst. inversion Hst; subst; simpl in *; try done. eapply peg_star_more; [by apply IH1|].
      by apply (IH2 (EStar _)).
    - intros e i _ IH e' Hst. inversion Hst; subst; simpl in *; try done. eapply peg_plus_fail. by apply IH.
    - intros e i j o _ IH1 _ IH2 e' Hst. inversion Hst; subst; simpl in *; try done. eapply peg_plus_ok; [by apply IH1|].
      apply (IH2 (EStar _)). by apply st_star.
    - intros es i o _ [_ IH] e' Hst. inversion Hst; subst; simpl in *; try done. by eapply IH.
    - intros es i o _ [_ IH] e' Hst. inversion Hst; subst; simpl in *; try done. by eapply IH.
    - intros i. split; [|done]. intros es' p0 i0 Hall Hp. inversion Hall; subst. done.
    - intros e es i _ IH. split.
      + intros es' p0 i0 Hall Hp. inversion Hall; subst. simpl. apply fold_seq_fail. eapply peg_seq_ok; [done|]. by apply IH.
      + intros ? ? e' es' [= <- <-] He Hall. apply fold_seq_fail. by apply IH.
    - intros e es i j o _ IH _ [IH2 _]. split.
      + intros es' p0 i0 Hall Hp. inversion Hall; subst. simpl. apply IH2; [done|]. eapply peg_seq_ok; [done|]. by apply IH.
      + intros ? ? e' es' [= <- <-] He Hall. apply IH2; [done|]. by apply IH.
    - intros i. split; [|done]. intros es' p0 Hall Hp. inversion Hall; subst. done.
    - intros e es i j _ IH. split.
      + intros es' p0 Hall Hp. inversion Hall; subst. simpl. apply fold_alt_ok. eapply peg_alt_2; [done|]. by apply IH.
      + intros ? ? e' es' [= <- <-] He Hall. apply fold_alt_ok. by apply IH.
    - intros e es i o _ IH _ [IH2 _]. split.
      + intros es' p0 Hall Hp. inversion Hall; subst. simpl. apply IH2; [done|]. eapply peg_alt_2; [done|]. by apply IH.
      + intros ? ? e' es' [= <- <-] He Hall. apply IH2; [done|]. by apply IH.
  Qed.

  (** ** Context-free reading *)
  Lemma derives_seq_snoc es x i j k : derives_seq rules s es i j -> derives rules s x j k -> derives_seq rules s (es ++ [x]) i k.
  Proof.
    revert i. induction es as [|e es IH]; intros i H Hx; inversion H; subst; simpl; eauto using derives_seq.
  Qed.
  Theorem cfg_derives p i j : cfg g s p i j -> forall e e', st e e' -> p = pexp_of e' -> derives rules s e i j.
  Proof using Href.
    intros H. induction H as [c i Hc|a b x i Hc Hr|l i Hl|p1 p2 i j k H1 IH1 H2 IH2|p1 p2 i j H1 IH1|p1 p2 i j H1 IH1
      |p i|p i|p i|p i j k H1 IH1 H2 IH2|p i j k H1 IH1 H2 IH2|p i|p i j H IH|lb A body i j Hg H IH];
      intros e e' Hst; remember Hst as Hst0 eqn:E0; clear E0; revert Hst0;
      (induction Hst as [e c' El|e l' El|a' b' x' y' Ea Eb|n e' Hn|e e' Hs IHe|e e' Hs IHe|e e' Hs IHe|e e' Hs IHe|e e' Hs IHe|e e' Hs IHe
         |e es e' es' Hs IHe Hall|e es e' es' Hs IHe Hall]; intros Hst0 Ep;
       [simpl in Ep; try done| simpl in Ep; try done|simpl in Ep; try done
       |try (destruct (Href _ _ Hn) as (bd & l0 & f & bd' & Eb & Ee & Ef & Hbd); rewrite Ee in Ep; done)
       |simpl in Ep; try (apply d_group; by apply IHe)|simpl in Ep; try done|simpl in Ep; try done|simpl in Ep; try done|simpl in Ep; try done|simpl in Ep; try done
       |destruct es' as [|z' es' _] using rev_ind;
         [inversion Hall; subst; simpl in Ep; apply d_seq; eapply ds_cons; [by apply IHe|constructor]
         |rewrite fold_left_app in Ep; simpl in Ep; try done]
       |destruct es' as [|z' es' _] using rev_ind;
         [inversion Hall; subst; simpl in Ep; eapply d_alt; [by left|]; by apply IHe
         |rewrite fold_left_app in Ep; simpl in Ep; try done]]).
    - injection Ep as ->. apply (d_literal _ _ _ [c'] i El). by apply occurs_char.
    - injection Ep as -> ->. by eapply d_range.
    - injection Ep as ->. by apply d_literal.
    - injection Ep as -> ->. apply stands_all_snoc in Hall as (es0 & x & -> & Ha & Hx). constructor. 
      pose proof (IH1 _ _ (st_seq _ _ _ _ _ Hs Ha) eq_refl) as M1. inversion M1; subst; [done|].
      rewrite app_comm_cons. eapply derives_seq_snoc; [done|]. by eapply IH2.
    - injection Ep as -> ->. apply stands_all_snoc in Hall as (es0 & x & -> & Ha & Hx).
      pose proof (IH1 _ _ (st_alt _ _ _ _ _ Hs Ha) eq_refl) as M1. inversion M1; subst; [done|].
      rewrite app_comm_cons. eapply d_alt; [apply elem_of_app; by left|done].
    - injection Ep as -> ->. apply stands_all_snoc in Hall as (es0 & x & -> & Ha & Hx).
      rewrite app_comm_cons. eapply d_alt; [apply elem_of_app; right; apply elem_of_list_singleton; reflexivity|]. by eapply IH1.
    - injection Ep as ->. apply d_and.
    - injection Ep as ->. apply d_not.
    - injection Ep as ->. apply d_star_nil.
    - injection Ep as ->. eapply d_star; [by eapply IH1|]. by eapply IH2.
    - injection Ep as ->. eapply d_plus; [by eapply IH1|]. eapply IH2; [by apply st_star|done].
    - injection Ep as ->. apply d_opt_none.
    - injection Ep as ->. apply d_opt. by eapply IH.
    - destruct (Href _ _ Hn) as (bd & l0 & f & bd' & Eb & Ee & Ef & Hbd). rewrite Ee in Ep. injection Ep as <- <-.
      unfold grammar_of in Hg. rewrite Ef in Hg. injection Hg as <-. eapply d_ref; [done|]. by eapply IH.
  Qed.
End back.

(** ** The compiled crate *)
Lemma index_of_lookup n l i : index_of n l = Some i -> l !! N.to_nat i = Some n.
Proof.
  revert i. induction l as [|x l IH]; intros i H; simpl in H; [done|]. case_bool_decide; simplify_eq; [done|].
  destruct (index_of n l) as [j|]; simpl in H; [|done]. injection H as <-. rewrite N2Nat.inj_succ. simpl. by apply IH.
Qed.
Lemma index_of_in n l : n ∈ l -> exists i, index_of n l = Some i.
Proof.
  induction l as [|x l IH]; intros H; [by apply elem_of_nil in H|]. simpl. case_bool_decide; [eauto|].
  apply elem_of_cons in H as [->|H]; [done|]. apply IH in H as [i ->]. eauto.
Qed.
Lemma all_some_lookup {A} (l : list (option A)) r : all_some l = Some r -> forall k, l !! k = Some <$> r !! k.
Proof.
  revert r. induction l as [|x l IH]; intros r H k; simpl in H; [by injection H as <-|].
  destruct x as [x|]; [|done]. destruct (all_some l) as [r'|] eqn:E; [|done]. injection H as <-. destruct k; simpl; [done|]. by apply IH.
Qed.
Lemma lower_upper c : lower (upper c) = lower c.
Proof.
  unfold lower, upper. destruct (N.leb_spec 97 c), (N.leb_spec c 122); cbn [andb]; try done.
  destruct (N.leb_spec 65 (c - 32)), (N.leb_spec (c - 32) 90), (N.leb_spec 65 c), (N.leb_spec c 90); cbn [andb]; lia.
Qed.
Lemma lower_first_upper n : to_lowercase (first_upper n) = to_lowercase n.
Proof. destruct n; simpl; [done|]. by rewrite lower_upper. Qed.

Lemma find_last {A} (P : A -> bool) l x : List.find P (rev l) = Some x -> exists k, l !! k = Some x /\ P x = true.
Proof.
  intros H. apply find_some in H as [H1 H2]. apply in_rev in H1. apply elem_of_list_In, elem_of_list_lookup in H1 as [k Hk]. eauto.
Qed.
Lemma body_of_rule rules n e : body_of rules n = Some e -> exists k r, rules !! k = Some r /\ dr_name r = n /\ dr_body r = e.
Proof.
  unfold body_of. destruct (List.find _ _) as [r|] eqn:E; [|done]. intros [= <-].
  apply find_last in E as (k & Hk & Hn). exists k, r. apply bool_decide_eq_true in Hn. done.
Qed.
Lemma declared_in rules n : declared_name rules n -> declared rules n.
Proof.
  intros (r & Hr & <-). unfold declared, body_of. destruct (List.find _ _) as [r'|] eqn:E; [eauto|].
  exfalso. eapply find_none with (x := r) in E; [by apply bool_decide_eq_false in E|]. rewrite <- in_rev. by apply elem_of_list_In.
Qed.

Section crate.
  Context (rules : list drule) (involved : name -> option (list name)) (is_inline : name -> bool) (enum hooks : list name).
  Notation fns := (map (fun r => to_lowercase (dr_name r)) rules).
  Notation sc := (Scope fns enum hooks).
  Context (Hnd : NoDup fns) (Hdecl : refs_declared rules).
  Context (Hhf : hook_free rules) (Hplain : forall r, r ∈ rules -> plain_literals (dr_body r) = true).
  Context (table : list expr) (gr : N).
  Context (Htab : all_some (map (fun r => compile sc involved is_inline (dr_body r)) rules) = Some table).
  Notation pr := (table_program table gr : program unit).

  Definition refok (n : name) (e : expr) : Prop := declared rules n /\ compile_ref sc involved is_inline n = Some e.

  Lemma fold_op_stands (op : expr -> expr -> expr) (comp : dexp -> option expr) es e' :
    fold_op op (map comp es) = Some e' -> exists x xs x' xs', es = x :: xs /\ comp x = Some x' /\ Forall2 (fun y y' => comp y = Some y') xs xs' /\
      e' = fold_left op xs' x'.
  Proof.
    destruct es as [|x xs]; simpl; [done|]. intros H.
    assert (Hgen : forall acc e', fold_left1 op acc (map comp xs) = Some e' -> exists x' xs', acc = Some x' /\ 
      Forall2 (fun y y' => comp y = Some y') xs xs' /\ e' = fold_left op xs' x').
    { clear. induction xs as [|y xs IH]; intros acc e' H; simpl in H.
      - subst acc. exists e', []. done.
      - apply IH in H as (x' & xs' & Ho & HF & ->). destruct acc as [a|]; [|done]. destruct (comp y) as [y'|] eqn:Ey; [|done].
        injection Ho as <-. exists a, (y' :: xs'). split; [done|]. split; [by constructor|done]. }
    apply Hgen in H as (x' & xs' & Hx & HF & ->). exists x, xs, x', xs'. done.
  Qed.
  Lemma hooks_of_list es : (fix go (es : list dexp) : list name := match es with [] => [] | e :: es => hooks_of e ++ go es end) es = [] <->
    Forall (fun e => hooks_of e = []) es.
  Proof.
    induction es as [|e es IH]; [done|]. rewrite list.Forall_cons, <- IH. split; [by intros [? ?]%app_eq_nil|by intros [-> ->]].
  Qed.

  Lemma string_one v l : string_bytes [v] = Some l -> l = [v].
  Proof.
    unfold string_bytes. simpl. destruct (v <? 128); simpl; [|done]. destruct (v =? 92); [done|].
    destruct (negb _); [|done]. by intros [= <-].
  Qed.
  Lemma quoted_char c x : quoted_byte c = Some x -> char_value c = Some x.
  Proof.
    destruct c as [|b [|c [|]]]; simpl; try done. by destruct (_ && _).
  Qed.
  Lemma bound_plain b x : plain_bound b = true -> bound_value b = Some x -> bound_byte b = Some x.
  Proof. destruct b as [[|c [|]]|ds|ds]; simpl; done. Qed.

  Lemma compile_stands e : forall e', compile sc involved is_inline e = Some e' -> plain_literals e = true -> hooks_of e = [] ->
    (forall n, n ∈ refs e -> declared rules n) -> stands refok e e'.
  Proof using.
    induction e as [c|l|ds|ds|a b|n|e IH|n e IH|e IH|e IH|e IH|e IH|e IH|es IH|es IH] using dexp_ind'; intros e' Hc Hp Hh Hr; simpl in Hc; try done.
    - destruct c as [|c0 c]; [done|]. apply fmap_Some in Hc as (x & Hx & ->). apply st_char. simpl.
      apply quoted_char in Hx. simpl in Hx. by rewrite Hx.
    - apply fmap_Some in Hc as (x & Hx & ->). by apply st_string.
    - apply fmap_Some in Hc as (x & Hx & ->). apply string_one in Hx as ->. by apply st_string.
    - simpl in Hp. apply andb_true_iff in Hp as [Ha Hb]. destruct (bound_value a) as [x|] eqn:Ex; [|done]. destruct (bound_value b) as [y|] eqn:Ey; [|done].
      injection Hc as <-. apply st_range; by apply bound_plain.
    - apply st_ref. split; [|done]. apply Hr. simpl. apply elem_of_list_singleton. done.
    - apply fmap_Some in Hc as (x & Hx & ->). apply st_group. by apply IH.
    - apply fmap_Some in Hc as (x & Hx & ->). apply st_and. by apply IH.
    - apply fmap_Some in Hc as (x & Hx & ->). apply st_not. by apply IH.
    - apply fmap_Some in Hc as (x & Hx & ->). apply st_plus. by apply IH.
    - apply fmap_Some in Hc as (x & Hx & ->). apply st_star. by apply IH.
    - apply fmap_Some in Hc as (x & Hx & ->). apply st_opt. by apply IH.
    - apply fold_op_stands in Hc as (x & xs & x' & xs' & -> & Hx & HF & ->). simpl in Hp, Hh. apply andb_true_iff in Hp as [Hp1 Hp2].
      apply app_eq_nil in Hh as [Hh1 Hh2]. apply hooks_of_list in Hh2. apply list.Forall_cons in IH as [IH1 IH2].
      assert (Hr1 : forall n, n ∈ refs x -> declared rules n) by (intros n Hn; apply Hr; simpl; apply elem_of_app; by left).
      assert (Hr2 : forall n, n ∈ concat (map refs xs) -> declared rules n) by (intros n Hn; apply Hr; simpl; apply elem_of_app; by right).
      apply st_seq; [by apply IH1|]. clear -HF Hp2 Hh2 IH2 Hr2. induction HF as [|y y' xs xs' Hy _ IHF]; [constructor|].
      simpl in Hp2, Hr2. apply andb_true_iff in Hp2 as [? ?]. apply list.Forall_cons in IH2 as [? ?]. apply list.Forall_cons in Hh2 as [? ?].
      constructor; [|apply IHF; try done; intros n Hn; apply Hr2, elem_of_app; by right].
      match goal with H : forall e', _ -> _ |- _ => apply H; try done end. intros n Hn. apply Hr2, elem_of_app. by left.
    - apply fold_op_stands in Hc as (x & xs & x' & xs' & -> & Hx & HF & ->). simpl in Hp, Hh. apply andb_true_iff in Hp as [Hp1 Hp2].
      apply app_eq_nil in Hh as [Hh1 Hh2]. apply hooks_of_list in Hh2. apply list.Forall_cons in IH as [IH1 IH2].
      assert (Hr1 : forall n, n ∈ refs x -> declared rules n) by (intros n Hn; apply Hr; simpl; apply elem_of_app; by left).
      assert (Hr2 : forall n, n ∈ concat (map refs xs) -> declared rules n) by (intros n Hn; apply Hr; simpl; apply elem_of_app; by right).
      apply st_alt; [by apply IH1|]. clear -HF Hp2 Hh2 IH2 Hr2. induction HF as [|y y' xs xs' Hy _ IHF]; [constructor|].
      simpl in Hp2, Hr2. apply andb_true_iff in Hp2 as [? ?]. apply list.Forall_cons in IH2 as [? ?]. apply list.Forall_cons in Hh2 as [? ?].
      constructor; [|apply IHF; try done; intros n Hn; apply Hr2, elem_of_app; by right].
      match goal with H : forall e', _ -> _ |- _ => apply H; try done end. intros n Hn. apply Hr2, elem_of_app. by left.
  Qed.

  (** Which function a name stands for. *)
  Lemma body_index n body : body_of rules n = Some body -> exists k r, rules !! k = Some r /\ dr_name r = n /\ dr_body r = body /\
    index_of (to_lowercase n) fns = Some (N.of_nat k).
  Proof using Hnd.
    intros (k & r & Hk & Hn & Hb)%body_of_rule. exists k, r. split; [done|]. split; [done|]. split; [done|].
    assert (Hin : fns !! k = Some (to_lowercase n)) by (rewrite list_lookup_fmap, Hk; simpl; by rewrite Hn).
    destruct (index_of_in (to_lowercase n) fns) as [i Hi]; [by apply elem_of_list_lookup_2 in Hin|].
    rewrite Hi. apply index_of_lookup in Hi. pose proof (NoDup_lookup _ _ _ _ Hnd Hin Hi) as ->. f_equal. lia.
  Qed.
  Lemma rule_compiled k r : rules !! k = Some r -> exists e, table !! k = Some e /\ compile sc involved is_inline (dr_body r) = Some e.
  Proof using Htab.
    intros Hk. pose proof (all_some_lookup _ _ Htab k) as H. rewrite list_lookup_fmap, Hk in H. simpl in H.
    destruct (table !! k) as [e|]; [|done]. injection H as H. eauto.
  Qed.
  Lemma rule_body k r : rules !! k = Some r -> body_of rules (dr_name r) = Some (dr_body r).
  Proof using Hnd.
    intros Hk. destruct (declared_in rules (dr_name r)) as [e He]; [exists r; split; [by eapply elem_of_list_lookup_2|done]|].
    rewrite He. apply body_index in He as (k' & r' & Hk' & En & Eb & _). f_equal. rewrite <- Eb.
    assert (k = k') as ->; [|congruence]. eapply (NoDup_lookup fns); [exact Hnd|rewrite list_lookup_fmap, Hk; done|].
    rewrite list_lookup_fmap, Hk'. simpl. by rewrite En.
  Qed.
  Lemma rule_stands k r : rules !! k = Some r -> exists e, table !! k = Some e /\ stands refok (dr_body r) e.
  Proof using Htab Hnd Hhf Hplain Hdecl.
    intros Hk. destruct (rule_compiled k r Hk) as (e & He & Hc). exists e. split; [done|]. pose proof (elem_of_list_lookup_2 _ _ _ Hk) as Hin.
    apply compile_stands; [done|by apply Hplain|by apply Hhf|]. intros n Hn. apply (Hdecl (dr_name r)). exists (dr_body r).
    split; [by eapply rule_body|done].
  Qed.
  Lemma refok_parts n e : refok n e -> exists body l f body',
    body_of rules n = Some body /\ pexp_of e = PRef l f /\ index_of (to_lowercase n) fns = Some f /\ pr_fn pr f = Some body' /\ stands refok body body'.
  Proof using Htab Hnd Hhf Hplain Hdecl.
    intros [[body Hb] He]. destruct (body_index n body Hb) as (k & r & Hk & En & Eb & Ei). destruct (rule_stands k r Hk) as (e' & Ht & Hs).
    exists body. assert (exists l, pexp_of e = PRef l (N.of_nat k)) as [l El].
    { unfold compile_ref, fn_index in He. simpl in He. rewrite Ei in He. destruct (involved n) as [il|].
      - destruct (all_some (map (fun r => index_of r enum) il)); simpl in He; [|done]. destruct (enum_index _ _); simpl in He; [|done]. injection He as <-. simpl. eauto.
      - destruct (is_inline n); [injection He as <-; simpl; eauto|]. destruct (enum_index _ _); simpl in He; [|done]. injection He as <-. simpl. eauto. }
    exists l, (N.of_nat k), e'. split; [done|]. split; [done|]. split; [done|]. simpl. rewrite Nat2N.id. rewrite Eb in Hs. done.
  Qed.
  Lemma refok_ok n e : refok n e -> exists body l f body',
    body_of rules n = Some body /\ pexp_of e = PRef l f /\ pr_fn pr f = Some body' /\ stands refok body body'.
  Proof using Htab Hnd Hhf Hplain Hdecl.
    intros H. destruct (refok_parts n e H) as (body & l & f & body' & H1 & H2 & _ & H3 & H4). eauto 10.
  Qed.

  (** The function a label goes with. *)
  Definition label_fn (r : N) : N :=
    match enum !! N.to_nat r with
    | Some v => match index_of (to_lowercase v) fns with Some f => f | None => 0 end
    | None => 0
    end.
  Lemma label_fn_ok n r f : index_of (first_upper n) enum = Some r -> index_of (to_lowercase n) fns = Some f -> label_fn r = f.
  Proof. intros Hr Hf. apply index_of_lookup in Hr. unfold label_fn. by rewrite Hr, lower_first_upper, Hf. Qed.

  Lemma refok_wf n e : refok n e -> expr_wf pr label_fn e.
  Proof using Htab Hnd Hhf Hplain Hdecl.
    intros H. destruct (refok_parts n e H) as (body & l & f & body' & H1 & H2 & H3 & H4 & _). destruct H as [_ H].
    unfold compile_ref, fn_index, enum_index in H. simpl in H. rewrite H3 in H. destruct (involved n) as [il|].
    - destruct (all_some (map (fun r => index_of r enum) il)); simpl in H; [|done]. destruct (index_of (first_upper n) enum) as [r|] eqn:Er; simpl in H; [|done]. injection H as <-.
      injection H2 as <-. split; [by eapply label_fn_ok|by eexists].
    - destruct (is_inline n); [injection H as <-; simpl; by eexists|].
      destruct (index_of (first_upper n) enum) as [r|] eqn:Er; [|done]. injection H as <-. split; [by eapply label_fn_ok|by eexists].
  Qed.
  Scheme stands_mind := Minimality for stands Sort Prop with stands_all_mind := Minimality for stands_all Sort Prop.
  Lemma fold_wf (op : expr -> expr -> expr) (P : expr -> Prop) xs : (forall a b, P a -> P b -> P (op a b)) -> Forall P xs -> forall x, P x -> P (fold_left op xs x).
  Proof. intros Hop H. induction H as [|y xs Hy _ IH]; intros x Hx; simpl; [done|]. apply IH. by apply Hop. Qed.
  Lemma stands_wf e e' : stands refok e e' -> expr_wf pr label_fn e'.
  Proof using Htab Hnd Hhf Hplain Hdecl.
    intros H. induction H as [| | |n e Hn| | | | | | | | | |] using stands_mind with (P0 := fun _ es' => Forall (expr_wf pr label_fn) es'); simpl; auto.
    - by eapply refok_wf.
    - by apply fold_wf.
    - by apply fold_wf.
  Qed.
  Lemma crate_wf : program_wf pr label_fn.
  Proof using Htab Hnd Hhf Hplain Hdecl.
    intros f e Hf. simpl in Hf. pose proof (all_some_lookup _ _ Htab (N.to_nat f)) as H. rewrite Hf in H. simpl in H.
    rewrite list_lookup_fmap in H. destruct (rules !! N.to_nat f) as [r|] eqn:Er; [|done].
    destruct (rule_stands _ _ Er) as (e' & He' & Hs). rewrite Hf in He'. injection He' as <-. by eapply stands_wf.
  Qed.

  (** Without left recursion. *)
  Section plain.
    Context (Hnlr : forall n, involved n = None).
    Lemma refok_plain n e : refok n e -> expr_ok pr label_fn e.
    Proof using Htab Hnd Hhf Hplain Hdecl Hnlr.
      intros H. pose proof (refok_wf n e H) as Hw. destruct H as [_ H]. unfold compile_ref in H. rewrite Hnlr in H. destruct (is_inline n).
      - destruct (fn_index _ _); [|done]. by injection H as <-.
      - destruct (enum_index _ _); [|done]. simpl in H. destruct (fn_index _ _); [|done]. by injection H as <-.
    Qed.
    Lemma stands_ok e e' : stands refok e e' -> expr_ok pr label_fn e'.
    Proof using Htab Hnd Hhf Hplain Hdecl Hnlr.
      intros H. induction H as [| | |n e Hn| | | | | | | | | |] using stands_mind with (P0 := fun _ es' => Forall (expr_ok pr label_fn) es'); simpl; auto.
      - by eapply refok_plain.
      - by apply fold_wf.
      - by apply fold_wf.
    Qed.
    Lemma crate_ok : program_ok pr label_fn.
    Proof using Htab Hnd Hhf Hplain Hdecl Hnlr.
      intros f e Hf. simpl in Hf. pose proof (all_some_lookup _ _ Htab (N.to_nat f)) as H. rewrite Hf in H. simpl in H.
      rewrite list_lookup_fmap in H. destruct (rules !! N.to_nat f) as [r|] eqn:Er; [|done].
      destruct (rule_stands _ _ Er) as (e' & He' & Hs). rewrite Hf in He'. injection He' as <-. by eapply stands_ok.
    Qed.
  End plain.

  (** Labels are positions of the enum. *)
  Definition label_set : gset N := list_to_set (map N.of_nat (seq 0 (length enum))).
  Lemma label_set_size : (size label_set <= length enum)%nat.
  Proof using.
    clear Htab Hplain Hnd Hhf Hdecl. unfold label_set. assert (Hle : forall l : list N, (size (list_to_set l : gset N) <= length l)%nat).
    { intros l. induction l as [|x l IH]; [done|]. rewrite list_to_set_cons, size_union_alt, size_singleton; simpl.
      assert (size ((list_to_set l : gset N) ∖ {[x]}) <= size (list_to_set l : gset N))%nat by (apply subseteq_size; set_solver). lia. }
    etrans; [apply Hle|]. by rewrite map_length, seq_length.
  Qed.
  Lemma enum_label n r : index_of n enum = Some r -> r ∈ label_set.
  Proof using.
    clear Htab Hplain Hnd Hhf Hdecl. intros H%index_of_lookup. apply lookup_lt_Some in H. unfold label_set. apply elem_of_list_to_set, elem_of_list_In, in_map_iff.
    exists (N.to_nat r). split; [lia|]. apply in_seq. lia.
  Qed.
  Lemma stands_labels e e' : stands refok e e' -> forall r, r ∈ labels e' -> r ∈ label_set.
  Proof using.
    intros H. induction H as [| | |n e Hn| | | | | | |e es e' es' _ IH1 _ IH2|e es e' es' _ IH1 _ IH2| |] using stands_mind with (P0 := fun _ es' => Forall (fun e' => forall r, r ∈ labels e' -> r ∈ label_set) es'); simpl; auto;
      try (intros r Hr; by apply elem_of_nil in Hr).
    - destruct Hn as [_ H]. unfold compile_ref, enum_index, fn_index in H. simpl in H. destruct (involved n) as [il|].
      + destruct (all_some (map (fun r => index_of r enum) il)); [|done]. simpl in H. destruct (index_of (first_upper n) enum) as [q|] eqn:Er; [|done]. simpl in H. destruct (index_of (to_lowercase n) fns); [|done].
        injection H as <-. intros r Hr. apply elem_of_list_singleton in Hr as ->. by eapply enum_label.
      + destruct (is_inline n).
        * destruct (index_of (to_lowercase n) fns); [|done]. injection H as <-. intros r Hr. by apply elem_of_nil in Hr.
        * destruct (index_of (first_upper n) enum) as [q|] eqn:Er; [|done]. simpl in H. destruct (index_of (to_lowercase n) fns); [|done].
          injection H as <-. intros r Hr. apply elem_of_list_singleton in Hr as ->. by eapply enum_label.
    - apply fold_wf with (P := fun e' => forall r, r ∈ labels e' -> r ∈ label_set); try done.
      intros a b Ha Hb r Hr. simpl in Hr. apply elem_of_app in Hr as [Hr|Hr]; auto.
    - apply fold_wf with (P := fun e' => forall r, r ∈ labels e' -> r ∈ label_set); try done.
      intros a b Ha Hb r Hr. simpl in Hr. apply elem_of_app in Hr as [Hr|Hr]; auto.
  Qed.
  Lemma crate_labels : labels_in pr label_set.
  Proof using Htab Hnd Hhf Hplain Hdecl.
    intros f e Hf. simpl in Hf. pose proof (all_some_lookup _ _ Htab (N.to_nat f)) as H. rewrite Hf in H. simpl in H.
    rewrite list_lookup_fmap in H. destruct (rules !! N.to_nat f) as [r|] eqn:Er; [|done].
    destruct (rule_stands _ _ Er) as (e' & He' & Hs). rewrite Hf in He'. injection He' as <-. by eapply stands_labels.
  Qed.
End crate.
