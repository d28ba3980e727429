(** Trees built by parsers with arbitrary left recursion: every success leaves
    a derivation in the node store. *)
From Verif Require Import SpecLRTree SpecSafe SpecSession ProofBasics ProofPeg ProofSound ProofSafe ProofLR.

Section keyed.
  Context (Ord : N -> Prop).
  Inductive khas (p : publisher) : N -> ptree -> Prop :=
    | kh_node k n D : p_nodes p !! k = Some n -> n_result n = true ->
        kall p (n_children n) D -> (Ord (n_rule n) -> kseq p (n_children n) D) ->
        khas p k (TNode (n_rule n) (n_start n) (n_end n) true D)
  with kall (p : publisher) : list N -> list ptree -> Prop :=
    | ka_nil F : kall p F []
    | ka_cons F t d D : t ∈ F -> khas p t d -> kall p F D -> kall p F (d :: D)
  with kseq (p : publisher) : list N -> list ptree -> Prop :=
    | ks_nil : kseq p [] []
    | ks_skip t F D : kseq p F D -> kseq p (t :: F) D
    | ks_keep t F d D : khas p t d -> kseq p F D -> kseq p (t :: F) (d :: D).
  Scheme khas_mut := Induction for khas Sort Prop
    with kall_mut := Induction for kall Sort Prop
    with kseq_mut := Induction for kseq Sort Prop.
  Combined Scheme khas_all from khas_mut, kall_mut, kseq_mut.

  Lemma kseq_empty p F : kseq p F [].
  Proof. induction F; by constructor. Qed.
  Lemma kseq_app p F F' D D' : kseq p F D -> kseq p F' D' -> kseq p (F ++ F') (D ++ D').
  Proof. induction 1; intros; simpl; [done|apply ks_skip; auto|apply ks_keep; auto]. Qed.
  Lemma kseq_l p F F' D : kseq p F D -> kseq p (F ++ F') D.
  Proof. intros H. rewrite <-(app_nil_r D). apply kseq_app; [done|apply kseq_empty]. Qed.
  Lemma kseq_r p F F' D : kseq p F' D -> kseq p (F ++ F') D.
  Proof. intros H. apply (kseq_app p F F' [] D); [apply kseq_empty|done]. Qed.
  Lemma kseq_in p F k d : k ∈ F -> khas p k d -> kseq p F [d].
  Proof.
    intros Hk H. apply elem_of_list_split in Hk as (F1 & F2 & ->).
    apply (kseq_app p F1 (k :: F2) [] [d]); [apply kseq_empty|]. apply ks_keep; [done|]. apply kseq_empty.
  Qed.
  Lemma kall_sub p F F' D : (forall k, k ∈ F -> k ∈ F') -> kall p F D -> kall p F' D.
  Proof. intros HF. induction 1; econstructor; eauto. Qed.
  Lemma kall_app p F D D' : kall p F D -> kall p F D' -> kall p F (D ++ D').
  Proof. induction 1; intros; simpl; [done|]. econstructor; eauto. Qed.

  (** Successful nodes keep their span; children are only added. *)
  Definition grow (p p' : publisher) : Prop := forall k n, p_nodes p !! k = Some n ->
    exists n' ks, p_nodes p' !! k = Some n' /\ n_rule n' = n_rule n /\ n_children n' = n_children n ++ ks /\
      (n_result n = true -> n_result n' = true /\ n_start n' = n_start n /\ n_end n' = n_end n).
  Lemma khas_grow p p' : grow p p' ->
    (forall k d, khas p k d -> khas p' k d) /\ (forall F D, kall p F D -> kall p' F D) /\ (forall F D, kseq p F D -> kseq p' F D).
  Proof.
    intros HG. apply khas_all; try (intros; econstructor; eauto; fail).
    intros k n D Hn Hr _ IHa _ IHs. destruct (HG k n Hn) as (n' & ks & Hn' & E1 & E2 & E3).
    destruct (E3 Hr) as (E4 & <- & <-). rewrite <-E1 in *. constructor; [done|done|..]; rewrite E2.
    - eapply kall_sub; [|exact IHa]. intros c Hc. apply elem_of_app. by left.
    - intros HO. by apply kseq_l, IHs.
  Qed.
End keyed.

Section tree.
  Context {U : Type} (pr : program U) (s : list N) (fn : N -> N) (Pl : N -> bool).
  Context (Hs : N.of_nat (length s) < u32_modulus).
  Context (Hwf : program_wf pr fn) (Hnh : no_hooks pr) (HPl : plain_ok pr Pl).
  Notation g := (grammar_of pr).
  Notation src := (source_new s).
  Notation LD := (lderiv g s Pl).
  Implicit Types st : pstate U.
  Definition Ord (r : N) : Prop := exists body, pr_fn pr (fn r) = Some body /\ lr_left Pl body = true.
  Notation kh := (khas Ord).
  Notation ka := (kall Ord).
  Notation ks := (kseq Ord).

  (** What a finished call does to the nodes that existed before it. *)
  Definition ext (p p' : publisher) : Prop := p_len p <= p_len p' /\ forall k n, p_nodes p !! k = Some n ->
    exists n' l, p_nodes p' !! k = Some n' /\ n_rule n' = n_rule n /\ n_children n' = n_children n ++ l /\
      n_result n' = n_result n /\ (n_result n = true -> n_start n' = n_start n /\ n_end n' = n_end n).
  Lemma ext_refl p : ext p p.
  Proof. split; [lia|]. intros k n Hn. exists n, []. by rewrite app_nil_r. Qed.
  Lemma ext_trans p1 p2 p3 : ext p1 p2 -> ext p2 p3 -> ext p1 p3.
  Proof.
    intros [L1 H1] [L2 H2]. split; [lia|]. intros k n Hn.
    destruct (H1 k n Hn) as (n1 & l1 & Hn1 & A1 & B1 & C1 & D1). destruct (H2 k n1 Hn1) as (n2 & l2 & Hn2 & A2 & B2 & C2 & D2).
    exists n2, (l1 ++ l2). split; [done|]. split; [congruence|]. split; [by rewrite B2, B1, app_assoc|]. split; [congruence|].
    intros Hr. destruct (D1 Hr) as [<- <-]. apply D2. congruence.
  Qed.
  Lemma ext_grow p p' : ext p p' -> grow p p'.
  Proof.
    intros [_ H] k n Hn. destruct (H k n Hn) as (n1 & l1 & Hn1 & A1 & B1 & C1 & D1). exists n1, l1.
    split; [done|]. split; [done|]. split; [done|]. intros Hr. split; [congruence|auto].
  Qed.

  Definition mclaim (p : publisher) (r i : N) (b : bool) (q k : N) : Prop :=
    (exists n, p_nodes p !! k = Some n /\ n_result n = b) /\ (b = false -> q = i) /\
    (b = true -> exists D body, pr_fn pr (fn r) = Some body /\ kh p k (TNode r i q true D) /\ LD (pexp_of body) i q D) /\
    (Pl (fn r) = true -> peg g s (PRef (Some r) (fn r)) i (outcome b q)).
  Record TInv (st : pstate U) : Prop := mkTInv {
    ti_wf : pub_wf (pub st);
    ti_memo : forall r i b q k, check (st_ctx st) r i = Some (b, q, k) -> mclaim (pub st) r i b q k;
  }.
  Definition mkey (st : pstate U) (k : N) : Prop := exists r i b q, check (st_ctx st) r i = Some (b, q, k).
  Definition R (st st' : pstate U) : Prop := ext (pub st) (pub st') /\ forall k, mkey st' k -> mkey st k \/ p_len (pub st) <= k.
  Lemma R_refl st : R st st.
  Proof. split; [apply ext_refl|auto]. Qed.
  Lemma R_trans st1 st2 st3 : R st1 st2 -> R st2 st3 -> R st1 st3.
  Proof.
    intros [E1 M1] [E2 M2]. split; [by eapply ext_trans|]. intros k [Hk|Hk]%M2; [auto|]. right. destruct E1. lia.
  Qed.
  Lemma TInv_mkey st k : TInv st -> mkey st k -> k < p_len (pub st).
  Proof. intros [W Hm] (r & i & b & q & Hc). destruct (Hm _ _ _ _ _ Hc) as ((n & Hn & _) & _). apply W. eauto. Qed.

  (** The new children of [parent] contain the derivation [D]. *)
  Definition placed (fr lf : bool) (parent : N) (p p' : publisher) (D : list ptree) : Prop :=
    exists n n' l, p_nodes p !! parent = Some n /\ p_nodes p' !! parent = Some n' /\ n_children n' = n_children n ++ l /\
      ka p' (n_children n') D /\ (fr = true -> ks p' l D) /\ (lf = true -> ks p' (n_children n') D).
  Definition TPost (e : pexp) (fr lf : bool) (parent pos : N) st (r : bool * N) st' : Prop :=
    R st st' /\ TInv st' /\ (fst r = false -> snd r = pos) /\
    (plain Pl e = true -> peg g s e pos (outcome (fst r) (snd r))) /\
    (fst r = true -> exists D, LD e pos (snd r) D /\ placed fr lf parent (pub st) (pub st') D).
  Definition tsound (e : pexp) (fr lf : bool) (f : parser U) : Prop :=
    forall st parent pos, TInv st -> is_Some (p_nodes (pub st) !! parent) ->
      pc (f parent pos) st (TPost e fr lf parent pos st).

  Lemma ext_node p p' k : ext p p' -> is_Some (p_nodes p !! k) -> is_Some (p_nodes p' !! k).
  Proof. intros [_ H] [n Hn]. destruct (H k n Hn) as (n' & ? & Hn' & _). eauto. Qed.
  Lemma placed_nil fr lf parent p p' : ext p p' -> is_Some (p_nodes p !! parent) -> placed fr lf parent p p' [].
  Proof.
    intros [_ H] [n Hn]. destruct (H parent n Hn) as (n' & l & Hn' & A & B & _). exists n, n', l.
    split; [done|]. split; [done|]. split; [done|]. split; [constructor|]. split; intros _; apply kseq_empty.
  Qed.
  Lemma placed_r fr lf fr' lf' parent p p1 p2 D : ext p p1 -> is_Some (p_nodes p !! parent) ->
    (fr' = true -> fr = true) -> (lf' = true -> lf = true) ->
    placed fr lf parent p1 p2 D -> placed fr' lf' parent p p2 D.
  Proof.
    intros [_ H] [n Hn] Hfr Hlf (n1 & n2 & l2 & Hn1 & Hn2 & E2 & Ha & Hf & Hl).
    destruct (H parent n Hn) as (n1' & l1 & Hn1' & _ & E1 & _). simplify_eq.
    exists n, n2, (l1 ++ l2). split; [done|]. split; [done|]. split; [by rewrite E2, E1, app_assoc|]. split; [done|]. split; [|auto].
    intros ?. apply kseq_r; auto.
  Qed.
  Lemma placed_seq fr1 lf1 fr2 lf2 parent p p1 p2 D1 D2 : ext p1 p2 ->
    placed fr1 lf1 parent p p1 D1 -> placed fr2 lf2 parent p1 p2 D2 ->
    placed (fr1 && fr2) (lf1 && fr2) parent p p2 (D1 ++ D2).
  Proof.
    intros HE (n & n1 & l1 & Hn & Hn1 & E1 & Ha1 & Hf1 & Hl1) (n1' & n2 & l2 & Hn1' & Hn2 & E2 & Ha2 & Hf2 & Hl2). simplify_eq.
    destruct (khas_grow Ord _ _ (ext_grow _ _ HE)) as (_ & GA & GS).
    exists n, n2, (l1 ++ l2). split; [done|]. split; [done|]. split; [by rewrite E2, E1, app_assoc|]. split.
    - apply kall_app; [|done]. apply GA in Ha1. eapply kall_sub; [|exact Ha1]. intros k Hk. rewrite E2. apply elem_of_app. by left.
    - split; intros [H1 H2]%andb_true_iff; [|rewrite E2]; (apply kseq_app; [apply GS; auto|auto]).
  Qed.
  Lemma placed_weaken (fr lf fr' lf' : bool) parent p p' D : (fr' = true -> fr = true) -> (lf' = true -> lf = true \/ fr = true) ->
    placed fr lf parent p p' D -> placed fr' lf' parent p p' D.
  Proof.
    intros Hfr Hlf (n & n1 & l1 & Hn & Hn1 & E1 & Ha1 & Hf1 & Hl1). exists n, n1, l1.
    split; [done|]. split; [done|]. split; [done|]. split; [done|]. split; [auto|].
    intros [?|?]%Hlf; [auto|]. rewrite E1. by apply kseq_r, Hf1.
  Qed.

  Lemma tsound_weaken e (fr lf fr' lf' : bool) f : (fr' = true -> fr = true) -> (lf' = true -> lf = true \/ fr = true) ->
    tsound e fr lf f -> tsound e fr' lf' f.
  Proof.
    intros H1 H2 H st parent pos HI Hp. eapply wp_mono; [by apply H|]. intros r st' (A & B & C & D & E).
    split; [done|]. split; [done|]. split; [done|]. split; [done|]. intros Ht. destruct (E Ht) as (D0 & HD & HP).
    exists D0. split; [done|]. by eapply placed_weaken.
  Qed.

  (** ** Combinators *)
  Lemma pure_T e parent pos st b q : TInv st -> is_Some (p_nodes (pub st) !! parent) ->
    (b = false -> q = pos) -> peg g s e pos (outcome b q) -> (b = true -> LD e pos q []) ->
    TPost e true true parent pos st (b, q) st.
  Proof.
    intros HI Hp H1 H2 H3. split; [apply R_refl|]. split; [done|]. split; [done|]. split; [done|].
    intros Ht. exists []. split; [by apply H3|]. apply placed_nil; [apply ext_refl|done].
  Qed.
  Lemma terminal_t c : tsound (PChar c) true true (terminal_kernel src c).
  Proof.
    intros st parent pos HI Hp. unfold wp. rewrite terminal_eq by done. simpl.
    case_decide; apply pure_T; try done; intros; by constructor.
  Qed.
  Lemma range_t a b : tsound (PRange a b) true true (ordered_choice_match_range_kernel src a b).
  Proof.
    intros st parent pos HI Hp. unfold wp. rewrite range_eq by done. simpl.
    destruct (s !! N.to_nat pos) as [v|] eqn:E.
    - destruct ((a <=? v) && (v <=? b)) eqn:E2.
      + apply andb_true_iff in E2 as [?%N.leb_le ?%N.leb_le]. apply pure_T; try done; intros; by econstructor.
      + apply pure_T; try done. constructor. intros x Hx [? ?]. simplify_eq.
        apply andb_false_iff in E2 as [?%N.leb_gt|?%N.leb_gt]; lia.
    - apply pure_T; try done. constructor. congruence.
  Qed.
  Lemma string_t l : tsound (PStr l) true true (string_terminal_kernel src l).
  Proof.
    intros st parent pos HI Hp. unfold wp, string_terminal_kernel. rewrite string_loop_eq by done. simpl.
    case_decide; apply pure_T; try done; intros; by constructor.
  Qed.

  Lemma TPost_node e fr lf parent pos st r st' : TPost e fr lf parent pos st r st' ->
    is_Some (p_nodes (pub st) !! parent) -> is_Some (p_nodes (pub st') !! parent).
  Proof. intros ([HE _] & _) H. by eapply ext_node. Qed.

  Lemma seq_t e1 e2 fr1 lf1 fr2 lf2 f1 f2 : tsound e1 fr1 lf1 f1 -> tsound e2 fr2 lf2 f2 ->
    tsound (PSeq e1 e2) (fr1 && fr2) (lf1 && fr2) (sequence_kernel f1 f2).
  Proof.
    intros H1 H2 st parent pos HI Hp. unfold sequence_kernel. apply wp_bind.
    eapply wp_mono; [by apply H1|]. intros [b q] st1 P1. pose proof (TPost_node _ _ _ _ _ _ _ _ P1 Hp) as Hp1.
    destruct P1 as (R1 & I1 & F1 & G1 & D1). simpl in *. destruct b.
    - apply wp_bind. eapply wp_mono; [by apply H2|]. intros [b2 q2] st2 (R2 & I2 & F2 & G2 & D2). simpl in *.
      assert (Hpeg : plain Pl e1 && plain Pl e2 = true -> peg g s (PSeq e1 e2) pos (outcome b2 q2)).
      { intros [Q1 Q2]%andb_true_iff. eapply peg_seq_ok; [by apply G1|by apply G2]. }
      destruct b2; apply wp_ret; (split; [by eapply R_trans|]); (split; [done|]); (split; [done|]); (split; [done|]); [|done].
      intros _. destruct (D1 eq_refl) as (D & HD & PD), (D2 eq_refl) as (D' & HD' & PD').
      exists (D ++ D'). split; [by eapply ld_seq|]. eapply placed_seq; [apply R2|done|done].
    - apply wp_ret. split; [done|]. split; [done|]. split; [done|]. split; [|done].
      simpl. intros [Q1 Q2]%andb_true_iff. apply peg_seq_fail. by apply G1.
  Qed.
  Lemma choice_t e1 e2 fr1 lf1 fr2 lf2 f1 f2 : tsound e1 fr1 lf1 f1 -> tsound e2 fr2 lf2 f2 ->
    tsound (PAlt e1 e2) (fr1 && fr2) (lf1 && lf2) (ordered_choice_kernel f1 f2).
  Proof.
    intros H1 H2 st parent pos HI Hp. unfold ordered_choice_kernel. apply wp_bind.
    eapply wp_mono; [by apply H1|]. intros [b q] st1 P1. pose proof (TPost_node _ _ _ _ _ _ _ _ P1 Hp) as Hp1.
    destruct P1 as (R1 & I1 & F1 & G1 & D1). simpl in *. destruct b.
    - apply wp_ret. split; [done|]. split; [done|]. split; [done|]. split.
      + simpl. intros [Q1 Q2]%andb_true_iff. apply peg_alt_1. by apply G1.
      + intros _. destruct (D1 eq_refl) as (D & HD & PD). exists D. split; [by apply ld_alt_1|].
        eapply placed_weaken; [| |exact PD]; intros [??]%andb_true_iff; auto.
    - apply wp_bind. eapply wp_mono; [by apply H2|]. intros [b2 q2] st2 (R2 & I2 & F2 & G2 & D2). simpl in *.
      assert (Hpeg : plain Pl e1 && plain Pl e2 = true -> peg g s (PAlt e1 e2) pos (outcome b2 q2)).
      { intros [Q1 Q2]%andb_true_iff. eapply peg_alt_2; [by apply G1|by apply G2]. }
      destruct b2; apply wp_ret; (split; [by eapply R_trans|]); (split; [done|]); (split; [done|]); (split; [done|]); [|done].
      intros _. destruct (D2 eq_refl) as (D' & HD' & PD').
      exists D'. split; [apply ld_alt_2; [exact G1|done]|]. eapply placed_r; [apply R1|done| | |done]; intros [??]%andb_true_iff; auto.
  Qed.
  Lemma and_t e fr lf f : tsound e fr lf f -> tsound (PAnd e) true true (and_predicate_kernel f).
  Proof.
    intros H1 st parent pos HI Hp. unfold and_predicate_kernel. apply wp_bind.
    eapply wp_mono; [by apply H1|]. intros [b q] st1 (R1 & I1 & F1 & G1 & D1). simpl in *.
    destruct b; apply wp_ret; (split; [done|]); (split; [done|]); (split; [done|]); simpl; (split; [|]).
    - intros Q. eapply peg_and_ok. by apply G1.
    - intros _. exists []. split; [|apply placed_nil; [apply R1|done]]. constructor. intros Q. eexists. by apply G1.
    - intros Q. eapply peg_and_fail. by apply G1.
    - done.
  Qed.
  Lemma not_t e fr lf f : tsound e fr lf f -> tsound (PNot e) true true (not_predicate_kernel f).
  Proof.
    intros H1 st parent pos HI Hp. unfold not_predicate_kernel. apply wp_bind.
    eapply wp_mono; [by apply H1|]. intros [b q] st1 (R1 & I1 & F1 & G1 & D1). simpl in *.
    destruct b; apply wp_ret; (split; [done|]); (split; [done|]); (split; [done|]); simpl; (split; [|]).
    - intros Q. eapply peg_not_fail. by apply G1.
    - done.
    - intros Q. eapply peg_not_ok. by apply G1.
    - intros _. exists []. split; [|apply placed_nil; [apply R1|done]]. constructor. exact G1.
  Qed.
  Lemma opt_t e fr lf f : tsound e fr lf f -> tsound (POpt e) fr lf (optional_kernel f).
  Proof.
    intros H1 st parent pos HI Hp. unfold optional_kernel. apply wp_bind.
    eapply wp_mono; [by apply H1|]. intros [b q] st1 (R1 & I1 & F1 & G1 & D1). simpl in *.
    destruct b; apply wp_ret; (split; [done|]); (split; [done|]); (split; [done|]); simpl; (split; [|]).
    - intros Q. eapply peg_opt_some. by apply G1.
    - intros _. destruct (D1 eq_refl) as (D & HD & PD). exists D. split; [by apply ld_opt_some|done].
    - intros Q. eapply peg_opt_none. by apply G1.
    - intros _. exists []. split; [|apply placed_nil; [apply R1|done]]. apply ld_opt_none. exact G1.
  Qed.
  Lemma sub_t e fr lf f : tsound e fr lf f -> tsound e fr lf (subexpression_kernel f).
  Proof.
    intros H1 st parent pos HI Hp. unfold subexpression_kernel. apply wp_bind.
    eapply wp_mono; [by apply H1|]. intros [b q] st1 (R1 & I1 & F1 & G1 & D1). simpl in *.
    destruct b; apply wp_ret; done.
  Qed.
  Lemma loop_t e fr lf f fuel : tsound e fr lf f -> forall st parent pos, TInv st -> is_Some (p_nodes (pub st) !! parent) ->
    pc (repeat_loop fuel f parent pos) st (fun r st' => TPost (PStar e) fr fr parent pos st r st' /\ fst r = true).
  Proof.
    intros H1. induction fuel as [|fuel IH]; intros st parent pos HI Hp; [done|].
    cbn [repeat_loop]. apply wp_bind.
    eapply wp_mono; [by apply H1|]. intros [b q] st1 P1. pose proof (TPost_node _ _ _ _ _ _ _ _ P1 Hp) as Hp1.
    destruct P1 as (R1 & I1 & F1 & G1 & D1). simpl in *. destruct b; simpl.
    - eapply wp_mono; [by apply IH|]. intros [b2 q2] st2 [(R2 & I2 & F2 & G2 & D2) Hb2]. simpl in *. subst b2.
      split; [|done]. split; [by eapply R_trans|]. split; [done|]. simpl. split; [done|]. split.
      + intros Q. eapply peg_star_more; [by apply G1|by apply G2].
      + intros _. destruct (D1 eq_refl) as (D & HD & PD), (D2 eq_refl) as (D' & HD' & PD').
        exists (D ++ D'). split; [by eapply ld_star_more|].
        eapply placed_weaken; [| |eapply placed_seq; [apply R2|exact PD|exact PD']].
        * intros ->. done.
        * intros ->. by right.
    - apply wp_ret. split; [|done]. split; [done|]. split; [done|]. split; [done|]. split.
      + intros Q. apply peg_star_stop. by apply G1.
      + intros _. exists []. split; [|apply placed_nil; [apply R1|done]]. apply ld_star_stop. exact G1.
  Qed.
  Lemma star_t e fr lf f fuel : tsound e fr lf f -> tsound (PStar e) fr fr (zero_or_more_kernel fuel f).
  Proof.
    intros H st parent pos HI Hp. unfold zero_or_more_kernel. eapply wp_mono; [by eapply loop_t|]. by intros r st' [? _].
  Qed.
  Lemma plus_t e fr lf f fuel : tsound e fr lf f -> tsound (PPlus e) fr fr (one_or_more_kernel fuel f).
  Proof.
    intros H1 st parent pos HI Hp. unfold one_or_more_kernel. apply wp_bind.
    eapply wp_mono; [by apply H1|]. intros [b q] st1 P1. pose proof (TPost_node _ _ _ _ _ _ _ _ P1 Hp) as Hp1.
    destruct P1 as (R1 & I1 & F1 & G1 & D1). simpl in *. destruct b; simpl.
    - eapply wp_mono; [by eapply loop_t|]. intros [b2 q2] st2 [(R2 & I2 & F2 & G2 & D2) Hb2]. simpl in *. subst b2.
      split; [by eapply R_trans|]. split; [done|]. simpl. split; [done|]. split.
      + intros Q. eapply peg_plus_ok; [by apply G1|by apply G2].
      + intros _. destruct (D1 eq_refl) as (D & HD & PD), (D2 eq_refl) as (D' & HD' & PD').
        exists (D ++ D'). split; [by eapply ld_plus|].
        eapply placed_weaken; [| |eapply placed_seq; [apply R2|exact PD|exact PD']].
        * intros ->. done.
        * intros ->. by right.
    - apply wp_ret. split; [done|]. split; [done|]. split; [done|]. split; [|done].
      intros Q. apply peg_plus_fail. by apply G1.
  Qed.

  (** ** State updates *)
  Lemma st_reserve {B} st r (K : N -> M (pstate U) B) Q :
    (forall st1, pub st1 = Publisher (<[p_len (pub st) := Node (p_len (pub st)) r 0 0 false []]> (p_nodes (pub st))) (p_len (pub st) + 1) ->
       cch st1 = cch st -> pc (K (p_len (pub st))) st1 Q) ->
    pc (mbind' (with_ctx (fun c => reserve_publisher_entry c r)) K) st Q.
  Proof.
    intros H. unfold wp, mbind', with_ctx, reserve_publisher_entry, add_node.
    destruct (p_len (cx_pub (st_ctx st)) <? u32_modulus); simpl; [|done]. by apply H.
  Qed.
  Definition upd (n : node) b i q := Node (n_index n) (n_rule n) i q b (n_children n).
  Lemma st_update {B} st k b i q (K : unit -> M (pstate U) B) Q :
    (forall n st1, p_nodes (pub st) !! k = Some n -> pub st1 = set_node (pub st) k (upd n b i q) ->
       cch st1 = cch st -> pc (K tt) st1 Q) ->
    pc (mbind' (upd_ctx (fun c => update_publisher_entry c k b i q)) K) st Q.
  Proof.
    intros H. unfold wp, mbind', upd_ctx, with_ctx, update_publisher_entry, set_node_result, set_node_start_position, set_node_end_position, get_node.
    destruct (p_nodes (pub st) !! k) as [n|] eqn:E; simpl; [|done].
    rewrite lookup_insert. simpl. rewrite lookup_insert. simpl.
    apply (H n); [done| |done]. simpl. unfold set_node. simpl. by rewrite !insert_insert.
  Qed.
  Lemma st_connect {B} st k c (K : unit -> M (pstate U) B) Q :
    (forall n st1, p_nodes (pub st) !! k = Some n -> k <> c -> pub st1 = set_node (pub st) k (with_children n (n_children n ++ [c])) ->
       cch st1 = cch st -> pc (K tt) st1 Q) ->
    pc (mbind' (upd_ctx (fun cx => ctx_connect cx k c)) K) st Q.
  Proof.
    intros H. unfold wp, mbind', upd_ctx, with_ctx, ctx_connect, connect, get_node.
    destruct (k =? c) eqn:Ek; simpl; [done|]. apply N.eqb_neq in Ek.
    destruct (p_nodes (pub st) !! k) as [n|] eqn:E; simpl; [|done]. by apply (H n).
  Qed.
  Lemma st_connect_if {B} st k c (K : unit -> M (pstate U) B) Q :
    (forall n st1, p_nodes (pub st) !! k = Some n -> cch st1 = cch st ->
       ((pub st1 = pub st /\ c ∈ n_children n) \/ pub st1 = set_node (pub st) k (with_children n (n_children n ++ [c]))) ->
       pc (K tt) st1 Q) ->
    pc (mbind' (upd_ctx (fun cx => ctx_connect_if_not_connected cx k c)) K) st Q.
  Proof.
    intros H. unfold wp, mbind', upd_ctx, with_ctx, ctx_connect_if_not_connected, connect_if_not_connected, get_node.
    destruct (p_nodes (pub st) !! k) as [n|] eqn:E; simpl; [|done].
    destruct (existsb _ _) eqn:Ex; simpl; apply (H n); try done; [left|by right].
    split; [done|]. apply existsb_exists in Ex as (x & Hx & ->%N.eqb_eq). by apply elem_of_list_In.
  Qed.
  Lemma st_cache {B} st f (K : unit -> M (pstate U) B) Q :
    (forall c, cx_pub (f c) = cx_pub c) -> 
    (forall st1, pub st1 = pub st -> st_ctx st1 = f (st_ctx st) -> pc (K tt) st1 Q) ->
    pc (mbind' (upd_ctx (fun c => Ok (f c))) K) st Q.
  Proof. intros Hf H. unfold wp, mbind', upd_ctx, with_ctx. simpl. apply H; simpl; auto. Qed.
  Lemma st_heads {B} st f (K : unit -> M (pstate U) B) Q :
    (forall c c', f c = Ok c' -> cx_pub c' = cx_pub c /\ c_memo (cx_cache c') = c_memo (cx_cache c)) ->
    (forall st1, pub st1 = pub st -> c_memo (cch st1) = c_memo (cch st) -> pc (K tt) st1 Q) ->
    pc (mbind' (upd_ctx f) K) st Q.
  Proof.
    intros Hf H. unfold wp, mbind', upd_ctx, with_ctx. destruct (f (st_ctx st)) as [c'| |] eqn:E; simpl; try done.
    destruct (Hf _ _ E). by apply H.
  Qed.

  Lemma mkey_eq st st1 k : c_memo (cch st1) = c_memo (cch st) -> mkey st1 k -> mkey st k.
  Proof. intros E (r & i & b & q & H). exists r, i, b, q. unfold check in *. by rewrite <-E. Qed.
  Lemma TInv_eq st st1 : pub st1 = pub st -> c_memo (cch st1) = c_memo (cch st) -> TInv st -> TInv st1.
  Proof. intros E1 E2 [W M]. split; rewrite E1; [done|]. intros r i b q k H. apply M. unfold check in *. by rewrite <-E2. Qed.
  Lemma R_eq st st1 : pub st1 = pub st -> c_memo (cch st1) = c_memo (cch st) -> R st st1.
  Proof. intros E1 E2. split; [rewrite E1; apply ext_refl|]. intros k Hk. left. by eapply mkey_eq. Qed.

  Lemma mclaim_grow p p' r i b q k : grow p p' -> (forall n n', p_nodes p !! k = Some n -> p_nodes p' !! k = Some n' -> n_result n' = n_result n) ->
    mclaim p r i b q k -> mclaim p' r i b q k.
  Proof.
    intros HG Hr ((n & Hn & Hb) & H1 & H2 & H3). destruct (khas_grow Ord _ _ HG) as (GK & _).
    destruct (HG k n Hn) as (n' & l & Hn' & _). split; [exists n'; split; [done|]; rewrite <-Hb; eauto|].
    split; [done|]. split; [|done]. intros Hbt. destruct (H2 Hbt) as (D & body & A1 & A2 & A3). exists D, body. auto.
  Qed.
  Lemma mclaim_ext p p' r i b q k : ext p p' -> mclaim p r i b q k -> mclaim p' r i b q k.
  Proof.
    intros HE. apply mclaim_grow; [by apply ext_grow|]. intros n n' Hn Hn'. destruct HE as [_ HE].
    destruct (HE k n Hn) as (n1 & l & Hn1 & _ & _ & E & _). simplify_eq. done.
  Qed.
  Lemma TInv_ext st st1 : ext (pub st) (pub st1) -> pub_wf (pub st1) -> c_memo (cch st1) = c_memo (cch st) -> TInv st -> TInv st1.
  Proof.
    intros HE W E [_ M]. split; [done|]. intros r i b q k H. eapply mclaim_ext; [done|]. apply M. unfold check in *. by rewrite <-E.
  Qed.
  Lemma R_ext st st1 : ext (pub st) (pub st1) -> c_memo (cch st1) = c_memo (cch st) -> R st st1.
  Proof. intros HE E. split; [done|]. intros k Hk. left. by eapply mkey_eq. Qed.

  Lemma ext_add p n : pub_wf p -> ext p (Publisher (<[p_len p := n]> (p_nodes p)) (p_len p + 1)).
  Proof.
    intros W. split; [simpl; lia|]. intros k m Hm. exists m, []. simpl. rewrite app_nil_r.
    split; [|done]. rewrite lookup_insert_ne; [done|]. assert (k < p_len p) by (apply W; eauto). lia.
  Qed.
  Lemma ext_child p k n l : p_nodes p !! k = Some n -> ext p (set_node p k (with_children n (n_children n ++ l))).
  Proof.
    intros Hn. split; [simpl; lia|]. intros k' m Hm. simpl. destruct (decide (k' = k)) as [->|Hk].
    - rewrite lookup_insert. simplify_eq. eexists _, l. done.
    - rewrite lookup_insert_ne by done. exists m, []. by rewrite app_nil_r.
  Qed.
  Lemma wf_node p k n m : p_nodes p !! k = Some n -> pub_wf p -> pub_wf (set_node p k m).
  Proof. intros Hn W. apply pub_wf_set; [done|]. apply W. eauto. Qed.

  Lemma reserve_T st st1 r : pub st1 = Publisher (<[p_len (pub st) := Node (p_len (pub st)) r 0 0 false []]> (p_nodes (pub st))) (p_len (pub st) + 1) ->
    cch st1 = cch st -> TInv st ->
    TInv st1 /\ R st st1 /\ p_nodes (pub st1) !! p_len (pub st) = Some (Node (p_len (pub st)) r 0 0 false []) /\ ~ mkey st1 (p_len (pub st)).
  Proof.
    intros E1 E2 HI. assert (HE : ext (pub st) (pub st1)) by (rewrite E1; apply ext_add, HI).
    assert (Em : c_memo (cch st1) = c_memo (cch st)) by by rewrite E2. split; [|split; [|split]].
    - eapply TInv_ext; [done| |done|done]. rewrite E1. apply pub_wf_add, HI.
    - by apply R_ext.
    - rewrite E1. simpl. apply lookup_insert.
    - intros Hk. apply (mkey_eq st) in Hk; [|done]. apply (TInv_mkey st) in Hk; [lia|done].
  Qed.

  (** A call's own node: it did not exist before, is not memoised yet. *)
  Definition own (st0 st : pstate U) (r k : N) (n : node) : Prop :=
    p_len (pub st0) <= k /\ ~ mkey st k /\ p_nodes (pub st) !! k = Some n /\ n_rule n = r /\ n_result n = false.
  Lemma own_R st0 st st' r k n : own st0 st r k n -> TInv st -> R st st' ->
    exists n' l, own st0 st' r k n' /\ n_children n' = n_children n ++ l.
  Proof.
    intros (H1 & H2 & H3 & H4 & H5) HI [HE HM]. destruct HE as [HL HE]. destruct (HE k n H3) as (n' & l & Hn' & E1 & E2 & E3 & _).
    exists n', l. split; [|done]. split; [done|]. split; [|split; [done|split; congruence]].
    intros [Hk|Hk]%HM; [done|]. assert (k < p_len (pub st)); [|lia]. apply HI. eauto.
  Qed.

  (** Writing the result into one's own node. *)
  Lemma grow_upd p k n b i q : p_nodes p !! k = Some n -> n_result n = false -> grow p (set_node p k (upd n b i q)).
  Proof.
    intros Hn Hr k' m Hm. simpl. destruct (decide (k' = k)) as [->|Hk].
    - rewrite lookup_insert. simplify_eq. eexists _, []. rewrite app_nil_r. split; [done|]. simpl. split; [done|]. split; [done|]. congruence.
    - rewrite lookup_insert_ne by done. exists m, []. by rewrite app_nil_r.
  Qed.
  Lemma upd_own st0 st st1 r k n b i q : pub_wf (pub st0) -> own st0 st r k n -> TInv st -> R st0 st ->
    pub st1 = set_node (pub st) k (upd n b i q) -> c_memo (cch st1) = c_memo (cch st) ->
    grow (pub st) (pub st1) /\ TInv st1 /\ R st0 st1.
  Proof.
    intros W0 (H1 & H2 & H3 & H4 & H5) HI HR E1 E2.
    assert (HG : grow (pub st) (pub st1)) by (rewrite E1; by apply grow_upd). split; [done|]. split.
    - split; [rewrite E1; eapply wf_node; [done|apply HI]|]. intros r' i' b' q' k' Hc.
      assert (Hc' : check (st_ctx st) r' i' = Some (b', q', k')) by (unfold check in *; by rewrite <-E2).
      eapply mclaim_grow; [done| |by apply HI]. intros m m' Hm Hm'. rewrite E1 in Hm'. simpl in Hm'.
      rewrite lookup_insert_ne in Hm'; [congruence|]. intros ->. apply H2. exists r', i', b', q'. done.
    - destruct HR as [[HL HE] HM]. split.
      + split; [rewrite E1; exact HL|]. intros k' m Hm. destruct (HE k' m Hm) as (m' & l & A). exists m', l. rewrite E1. simpl.
        rewrite lookup_insert_ne; [done|]. intros ->. assert (k' < p_len (pub st0)); [apply W0; eauto|lia].
      + intros k' Hk'. apply HM. by eapply mkey_eq.
  Qed.

  (** ** Rule calls *)
  Lemma node_claim st0 st1 st2 r ck pos body fr lf b q n1 n2 p3 : pr_fn pr (fn r) = Some body -> (Ord r -> lf = true) ->
    TPost (pexp_of body) fr lf ck pos st1 (b, q) st2 -> p_nodes (pub st1) !! ck = Some n1 -> n_children n1 = [] ->
    own st0 st2 r ck n2 -> p3 = set_node (pub st2) ck (upd n2 b pos q) -> mclaim p3 r pos b q ck.
  Proof.
    intros Hf HO (HR & HI & HF & HG & HD) Hn1 Hc1 (H1 & H2 & H3 & H4 & H5) E. simpl in *.
    assert (GR : grow (pub st2) p3) by (rewrite E; by apply grow_upd).
    assert (Hn3 : p_nodes p3 !! ck = Some (upd n2 b pos q)) by (rewrite E; simpl; apply lookup_insert).
    split; [by eexists|]. split; [done|]. split.
    - intros ->. destruct (HD eq_refl) as (D & HLD & (n & n' & l & A1 & A2 & A3 & A4 & A5 & A6)). exists D, body. split; [done|]. split; [|done].
      clear E. simplify_eq. destruct (khas_grow Ord _ _ GR) as (_ & GA & GS).
      change (kh p3 ck (TNode (n_rule (upd n2 true pos q)) (n_start (upd n2 true pos q)) (n_end (upd n2 true pos q)) true D)).
      apply kh_node; [done|done|by apply GA|]. simpl. intros HOr. apply GS. auto.
    - intros HP. eapply peg_ref; [unfold grammar_of; by rewrite Hf|]. apply HG. by eapply po_body.
  Qed.
  Lemma ins_T st0 st st1 r i b q k : TInv st -> R st0 st -> mclaim (pub st) r i b q k -> (mkey st0 k \/ p_len (pub st0) <= k) ->
    pub st1 = pub st -> c_memo (cch st1) = <[(r, i) := (b, q, k)]> (c_memo (cch st)) -> TInv st1 /\ R st0 st1.
  Proof.
    intros [W M] [HE HM] HC Hk E1 E2. split; split.
    - by rewrite E1.
    - intros r' i' b' q' k' Hc. rewrite E1. unfold check in Hc. rewrite E2 in Hc.
      apply lookup_insert_Some in Hc as [[[= -> ->] [= -> -> ->]]|[_ Hc]]; [done|by apply M].
    - by rewrite E1.
    - intros k' (r' & i' & b' & q' & Hc). unfold check in Hc. rewrite E2 in Hc.
      apply lookup_insert_Some in Hc as [[_ [= -> -> ->]]|[_ Hc]]; [done|]. apply HM. by exists r', i', b', q'.
  Qed.
  Lemma TPost_claim st0 st st1 r pos b q k parent fr : is_Some (p_nodes (pub st0) !! parent) ->
    TInv st -> R st0 st -> mclaim (pub st) r pos b q k ->
    ext (pub st) (pub st1) -> pub_wf (pub st1) -> c_memo (cch st1) = c_memo (cch st) ->
    (exists n n1, p_nodes (pub st) !! parent = Some n /\ p_nodes (pub st1) !! parent = Some n1 /\ k ∈ n_children n1 /\
       (fr = true -> n_children n1 = n_children n ++ [k])) ->
    TPost (PRef (Some r) (fn r)) fr true parent pos st0 (b, q) st1.
  Proof.
    intros [n0 Hn0] HI HR HC HE W E (n & n1 & Hn & Hn1 & Hin & Hfr). simpl.
    assert (HR1 : R st0 st1) by (eapply R_trans; [exact HR|by apply R_ext]).
    pose proof (mclaim_ext _ _ _ _ _ _ _ HE HC) as (_ & C1 & C2 & C3).
    split; [done|]. split; [by eapply TInv_ext|]. split; [done|]. split; [done|]. simpl. intros ->.
    destruct (C2 eq_refl) as (D & body & Hb & HK & HD). exists [TNode r pos q true D]. split.
    - eapply ld_rule; [|done]. unfold grammar_of. by rewrite Hb.
    - destruct HR as [[_ HE0] _]. destruct (HE0 parent n0 Hn0) as (n' & l & Hn' & _ & El & _). rewrite Hn in Hn'. injection Hn' as <-.
      destruct HE as [_ HE]. destruct (HE parent n Hn) as (n1' & l1 & Hn1' & _ & El1 & _). rewrite Hn1 in Hn1'. injection Hn1' as <-.
      exists n0, n1, (l ++ l1). split; [done|]. split; [done|]. split; [by rewrite El1, El, app_assoc|].
      split; [econstructor; [exact Hin|exact HK|constructor]|]. split.
      + intros Hf. specialize (Hfr Hf). rewrite Hfr in El1. apply app_inv_head in El1 as <-. apply kseq_r.
        eapply kseq_in; [|done]. by apply elem_of_list_singleton.
      + intros _. by eapply kseq_in.
  Qed.
  Lemma conn_T st0 st st1 r pos b q k parent n : is_Some (p_nodes (pub st0) !! parent) ->
    TInv st -> R st0 st -> mclaim (pub st) r pos b q k -> p_nodes (pub st) !! parent = Some n ->
    pub st1 = set_node (pub st) parent (with_children n (n_children n ++ [k])) -> cch st1 = cch st ->
    TPost (PRef (Some r) (fn r)) true true parent pos st0 (b, q) st1.
  Proof.
    intros H0 HI HR HC Hn E1 E2. eapply TPost_claim; [done|exact HI|done|exact HC|..].
    - rewrite E1. by apply ext_child.
    - rewrite E1. eapply wf_node; [done|apply HI].
    - by rewrite E2.
    - eexists n, _. split; [done|]. split; [rewrite E1; simpl; apply lookup_insert|]. simpl. split; [|done].
      apply elem_of_app. right. by apply elem_of_list_singleton.
  Qed.
  Lemma conn_if_T st0 st st1 r pos b q k parent n : is_Some (p_nodes (pub st0) !! parent) ->
    TInv st -> R st0 st -> mclaim (pub st) r pos b q k -> p_nodes (pub st) !! parent = Some n ->
    ((pub st1 = pub st /\ k ∈ n_children n) \/ pub st1 = set_node (pub st) parent (with_children n (n_children n ++ [k]))) -> cch st1 = cch st ->
    TPost (PRef (Some r) (fn r)) false true parent pos st0 (b, q) st1.
  Proof.
    intros H0 HI HR HC Hn [[E1 Hin]|E1] E2.
    - eapply TPost_claim; [done|exact HI|done|exact HC|..]; rewrite ?E1, ?E2; [apply ext_refl|apply HI|done|].
      exists n, n. done.
    - destruct (conn_T st0 st st1 r pos b q k parent n) as (A & B & C & D & E); try done.
      split; [done|]. split; [done|]. split; [done|]. split; [done|]. intros Ht. destruct (E Ht) as (D' & X & Y). exists D'. split; [done|].
      by eapply placed_weaken; [| |exact Y]; auto.
  Qed.

  Section call.
    Context (r : N) (body : expr) (func : parser U).
    Context (Hf : pr_fn pr (fn r) = Some body).
    Context (Hfunc : tsound (pexp_of body) (lr_free Pl body) (lr_left Pl body) func).
    Lemma Ord_left : Ord r -> lr_left Pl body = true.
    Proof. intros (b' & H1 & H2). congruence. Qed.

    Lemma run_own st0 st ck pos (K : bool * N -> M (pstate U) (bool * N)) Q n :
      TInv st -> R st0 st -> own st0 st r ck n -> n_children n = [] ->
      (forall b q st2 n2, TInv st2 -> R st0 st2 -> ext (pub st) (pub st2) -> own st0 st2 r ck n2 ->
         mclaim (set_node (pub st2) ck (upd n2 b pos q)) r pos b q ck -> pc (K (b, q)) st2 Q) ->
      pc (mbind' (func ck pos) K) st Q.
    Proof.
      intros HI HR HO Hc HK. apply wp_bind. pose proof HO as (O1 & O2 & O3 & O4 & O5).
      eapply wp_mono; [apply Hfunc; [done|eauto]|]. intros [b q] st2 P2.
      destruct (own_R st0 st st2 r ck n HO HI) as (n2 & l & HO2 & _); [apply P2|].
      eapply HK; [apply P2|eapply R_trans; [done|apply P2]|apply P2|done|].
      eapply node_claim; [done|apply Ord_left|exact P2|done|done|exact HO2|done].
    Qed.
    Lemma res_own st0 st st1 : TInv st -> R st0 st ->
      pub st1 = Publisher (<[p_len (pub st) := Node (p_len (pub st)) r 0 0 false []]> (p_nodes (pub st))) (p_len (pub st) + 1) ->
      cch st1 = cch st ->
      TInv st1 /\ R st0 st1 /\ ext (pub st) (pub st1) /\ own st0 st1 r (p_len (pub st)) (Node (p_len (pub st)) r 0 0 false []).
    Proof.
      intros HI HR E1 E2. destruct (reserve_T st st1 r E1 E2 HI) as (A & B & C & D). split; [done|]. split; [by eapply R_trans|].
      split; [apply B|]. split; [destruct HR as [[? _] _]; done|]. done.
    Qed.

    (** Own call, then write result, memoise, connect - in either order. *)
    Lemma default_t parent pos st : TInv st -> is_Some (p_nodes (pub st) !! parent) ->
      pc (default_behaviour func r parent pos) st (TPost (PRef (Some r) (fn r)) true true parent pos st).
    Proof.
      intros HI Hp. unfold default_behaviour. apply st_reserve. intros st1 E1 E1'.
      destruct (res_own st st st1 HI (R_refl st) E1 E1') as (I1 & R1 & _ & O1).
      eapply run_own; [exact I1|exact R1|exact O1|done|]. intros b q st2 n2 I2 R2 _ O2 C2. cbn [fst snd].
      apply st_cache; [done|]. intros st3 P3 M3. apply st_update. intros n3 st4 Hn3 P4 M4. apply st_connect.
      intros n4 st5 Hn4 _ P5 M5. apply wp_ret. rewrite P3 in Hn3, P4. pose proof O2 as (_ & _ & Hn2 & _). simplify_eq.
      set (sx := PState (Context (cch st2) (pub st4)) (st_user st2)).
      destruct (upd_own st st2 sx r (p_len (pub st)) n3 b pos q) as (G & Ix & Rx); [apply HI|done|done|done|done|done|].
      destruct (ins_T st sx st4 r pos b q (p_len (pub st))) as [I4 R4]; [done|done|simpl; by rewrite P4|by right|done| |].
      { rewrite M4, M3. done. }
      eapply (conn_T st st4); [done|done|done|rewrite P4; exact C2|done|done|done].
    Qed.
    Lemma var_t : tsound (PRef (Some r) (fn r)) true true (var_name_kernel r func).
    Proof.
      intros st parent pos HI Hp. unfold var_name_kernel. apply pc_get.
      destruct (check (st_ctx st) r pos) as [[[b q] k]|] eqn:Ec; [|by apply default_t].
      unfold memoized_behaviour. apply st_connect. intros n st1 Hn _ E1 E2. apply wp_ret.
      eapply (conn_T st st st1); [done|done|apply R_refl|by apply HI|done|done|done].
    Qed.

    Lemma upd_memo st st1 pos b q k n : TInv st -> check (st_ctx st) r pos = Some (b, q, k) -> p_nodes (pub st) !! k = Some n ->
      pub st1 = set_node (pub st) k (upd n b pos q) -> ext (pub st) (pub st1).
    Proof.
      intros HI Hc Hn E. rewrite E. destruct (ti_memo _ HI _ _ _ _ _ Hc) as ((n' & Hn' & Hb) & _ & HD & _). simplify_eq.
      split; [simpl; lia|]. intros k' m Hm. simpl. destruct (decide (k' = k)) as [->|Hk].
      - rewrite lookup_insert. rewrite Hn in Hm. injection Hm as ->. eexists _, []. rewrite app_nil_r. split; [done|]. simpl.
        split; [done|]. split; [done|]. split; [done|]. intros Hr. rewrite Hr in HD. destruct (HD eq_refl) as (D & bd & _ & HK & _).
        inversion HK; subst. simplify_eq. done.
      - rewrite lookup_insert_ne by done. exists m, []. by rewrite app_nil_r.
    Qed.

    Lemma TPost_eq e fr lf parent pos st0 res st st1 : TPost e fr lf parent pos st0 res st ->
      TInv st1 -> R st0 st1 -> pub st1 = pub st -> TPost e fr lf parent pos st0 res st1.
    Proof. intros (A & B & C & D & E) HI HR E1. split; [done|]. split; [done|]. split; [done|]. split; [done|]. by rewrite E1. Qed.

    Lemma growth_t st0 parent pos prev fuel : TInv st0 -> is_Some (p_nodes (pub st0) !! parent) ->
      forall st last lk ck n, TInv st -> R st0 st -> mclaim (pub st) r pos (fst last) (snd last) lk ->
      (mkey st0 lk \/ p_len (pub st0) <= lk) -> own st0 st r ck n -> n_children n = [] -> lk <> ck ->
      pc (growth_loop fuel r parent pos func prev last lk ck) st (TPost (PRef (Some r) (fn r)) true true parent pos st0).
    Proof.
      intros HI0 Hp. induction fuel as [|fuel IH]; intros st last lk ck n HI HR HC Hlk HO Hcn Hne; [done|].
      cbn [growth_loop]. apply st_heads.
      { intros c c' Hc. unfold reinitialize_eval_set in Hc. case_match; [|discriminate]. by injection Hc as <-. }
      intros st1 P1 M1.
      assert (I1 : TInv st1) by (by eapply TInv_eq).
      assert (R1 : R st0 st1) by (eapply R_trans; [exact HR|by apply R_eq]).
      assert (O1 : own st0 st1 r ck n).
      { destruct HO as (A & B & C). split; [done|]. split; [|by rewrite P1]. intros Hk. apply B. by eapply mkey_eq. }
      eapply run_own; [exact I1|exact R1|exact O1|done|]. intros b q st2 n2 I2 R2 E2 O2 C2. rewrite P1 in E2.
      assert (HC2 : mclaim (pub st2) r pos (fst last) (snd last) lk) by (by eapply mclaim_ext).
      apply pc_get.
      assert (Next : forall st3 b' q' k', TInv st3 -> R st0 st3 -> mclaim (pub st3) r pos (fst last) (snd last) lk ->
        mclaim (pub st3) r pos b' q' k' -> (mkey st0 k' \/ p_len (pub st0) <= k') ->
        pc (if negb b' || (q' <=? snd last) then
              mbind' (upd_ctx (fun c => ctx_connect c parent lk)) (fun _ =>
              mbind' (upd_ctx (fun c => Ok (set_current_active_lr_position c prev))) (fun _ =>
              mbind' (upd_ctx (fun c => Ok (create_cache_entry c r (fst last) pos (snd last) lk))) (fun _ => mret last)))
            else mbind' (with_ctx (fun c => reserve_publisher_entry c r)) (fun ck' =>
              growth_loop fuel r parent pos func prev (b', q') k' ck')) st3
          (TPost (PRef (Some r) (fn r)) true true parent pos st0)).
      { intros st3 b' q' k' I3 R3 C3 C3' Hk'. destruct (negb b' || (q' <=? snd last)).
        - apply st_connect. intros n3 st4 Hn3 _ P4 M4.
          assert (T4 : TPost (PRef (Some r) (fn r)) true true parent pos st0 last st4).
          { destruct last as [lb lq]. eapply (conn_T st0 st3 st4); done. }
          apply st_cache; [done|]. intros st5 P5 M5. apply st_cache; [done|]. intros st6 P6 M6. apply wp_ret.
          assert (C4 : mclaim (pub st4) r pos (fst last) (snd last) lk).
          { eapply mclaim_ext; [|exact C3]. rewrite P4. by apply ext_child. }
          destruct (ins_T st0 st4 st6 r pos (fst last) (snd last) lk) as [I6 R6]; [apply T4|apply T4|done|done|congruence| |].
          { rewrite M6, M5. done. }
          eapply TPost_eq; [exact T4|done|done|congruence].
        - apply st_reserve. intros st4 P4 M4. destruct (res_own st0 st3 st4 I3 R3 P4 M4) as (I4 & R4 & E4 & O4).
          eapply IH; [exact I4|exact R4|by eapply mclaim_ext|exact Hk'|exact O4|done|].
          destruct C3' as ((m & Hm & _) & _). assert (k' < p_len (pub st3)); [apply I3; eauto|lia]. }
      destruct (check (st_ctx st2) r pos) as [[[b' q'] k']|] eqn:Ec.
      - apply st_update. intros n3 st3 Hn3 P3 M3. cbn [fst snd] in *.
        assert (E3 : ext (pub st2) (pub st3)) by (by eapply upd_memo).
        assert (I3 : TInv st3).
        { eapply TInv_ext; [done| |by rewrite M3|done]. rewrite P3. eapply wf_node; [done|apply I2]. }
        assert (R3 : R st0 st3) by (eapply R_trans; [exact R2|]; apply R_ext; [done|by rewrite M3]).
        apply Next; [done|done|by eapply mclaim_ext|eapply mclaim_ext; [exact E3|by apply I2]|].
        apply R2. by exists r, pos, b', q'.
      - apply st_update. intros n3 st3 Hn3 P3 M3. cbn [fst snd] in *. pose proof O2 as (O2a & O2b & Hn2 & _). simplify_eq.
        destruct (upd_own st0 st2 st3 r ck n3 b pos q) as (G3 & I3 & R3); [apply HI0|done|done|done|done|by rewrite M3|].
        apply Next; [done|done| |by rewrite P3|by right].
        eapply mclaim_grow; [exact G3| |exact HC2]. intros m m' Hm Hm'. rewrite P3 in Hm'. simpl in Hm'.
        rewrite lookup_insert_ne in Hm' by done. congruence.
    Qed.

    Context (Hnp : Pl (fn r) = false).
    Lemma false_claim p pos k n : p_nodes p !! k = Some n -> n_result n = false -> mclaim p r pos false pos k.
    Proof. intros H1 H2. split; [eauto|]. split; [done|]. split; [done|]. congruence. Qed.
    Lemma growth_fn_t fuel inv prev st0 st parent pos : TInv st0 -> is_Some (p_nodes (pub st0) !! parent) ->
      TInv st -> R st0 st ->
      pc (growth_function fuel inv r func parent pos prev) st (TPost (PRef (Some r) (fn r)) true true parent pos st0).
    Proof.
      intros HI0 Hp HI HR. unfold growth_function. apply st_reserve. intros st1 P1 M1.
      destruct (res_own st0 st st1 HI HR P1 M1) as (I1 & R1 & E1 & O1).
      apply st_update. intros n2 st2 Hn2 P2 M2. pose proof O1 as (O1a & O1b & Hn1 & _). rewrite Hn1 in Hn2. injection Hn2 as <-.
      destruct (upd_own st0 st1 st2 r (p_len (pub st)) _ false 0 0 (ti_wf _ HI0) O1 I1 R1 P2) as (G2 & I2 & R2); [by rewrite M2|].
      apply st_reserve. intros st3 P3 M3. destruct (res_own st0 st2 st3 I2 R2 P3 M3) as (I3 & R3 & E3 & O3).
      apply st_cache; [done|]. intros st4 P4 M4.
      assert (M4' : c_memo (cch st4) = c_memo (cch st3)) by (rewrite M4; done).
      assert (Hlk : p_nodes (pub st2) !! p_len (pub st) = Some (upd (Node (p_len (pub st)) r 0 0 false []) false 0 0)).
      { rewrite P2. simpl. apply lookup_insert. }
      assert (O4 : own st0 st4 r (p_len (pub st2)) (Node (p_len (pub st2)) r 0 0 false [])).
      { destruct O3 as (A & B & C). split; [done|]. split; [|rewrite P4; exact C]. intros Hk. apply B. by eapply mkey_eq. }
      eapply growth_t; [done|done|by eapply TInv_eq|eapply R_trans; [exact R3|by apply R_eq]| |by right|exact O4|done|].
      - rewrite P4. cbn [fst snd]. eapply mclaim_ext; [exact E3|]. eapply false_claim; [exact Hlk|done].
      - assert (p_len (pub st) < p_len (pub st2)); [apply I2; eauto|lia].
    Qed.

    Lemma lr_t fuel inv : tsound (PRef (Some r) (fn r)) false true (var_name_kernel_indirect_left_recursion fuel inv r func).
    Proof.
      intros st parent pos HI Hp. unfold var_name_kernel_indirect_left_recursion. apply wp_bind.
      assert (Weak : forall res st', TPost (PRef (Some r) (fn r)) true true parent pos st res st' -> TPost (PRef (Some r) (fn r)) false true parent pos st res st').
      { intros res st' (A & B & C & D & E). split; [done|]. split; [done|]. split; [done|]. split; [done|].
        intros Ht. destruct (E Ht) as (D' & X & Y). exists D'. split; [done|]. eapply placed_weaken; [| |exact Y]; auto. }
      eapply (wp_mono _ _ _ (fun _ st1 => pub st1 = pub st /\ c_memo (cch st1) = c_memo (cch st))).
      { unfold should_go_into_growth_function. apply pc_get. destruct (get_current_active_lr_position _) as [a|].
        - destruct (check_head _ _ _); [by apply wp_ret|]. apply wp_bind. unfold wp at 1, with_ctx.
          destruct (rule_in_involved_set _ _ _) as [b| |]; simpl; try done. destruct b; [by apply wp_ret|].
          apply st_cache; [done|]. intros st1 P1 M1. apply wp_ret. split; [by rewrite P1|]. by rewrite M1.
        - apply st_cache; [done|]. intros st1 P1 M1. apply wp_ret. split; [by rewrite P1|]. by rewrite M1. }
      intros [go prev] st1 [P1 M1]. cbn [fst snd].
      assert (I1 : TInv st1) by (by eapply TInv_eq). assert (R1 : R st st1) by by apply R_eq.
      destruct go.
      { eapply wp_mono; [by apply (growth_fn_t fuel inv prev st st1)|]. intros res st'. apply Weak. }
      apply pc_get. destruct (get_current_active_lr_position _) as [a|]; [|done].
      apply wp_bind. unfold wp at 1, with_ctx. destruct (rule_in_eval_set _ _ _) as [b| |]; simpl; try done. destruct b.
      - apply st_reserve. intros st2 P2 M2. cbn [st_ctx] in *.
        destruct (res_own st st1 st2 I1 R1 P2 M2) as (I2 & R2 & E2 & O2).
        apply st_heads.
        { intros c c' Hc. unfold remove_from_eval_set in Hc. case_match; [|discriminate]. by injection Hc as <-. }
        intros st3 P3 M3.
        assert (I3 : TInv st3) by (by eapply TInv_eq).
        assert (R3 : R st st3) by (eapply R_trans; [exact R2|by apply R_eq]).
        assert (O3 : own st st3 r (p_len (pub st1)) (Node (p_len (pub st1)) r 0 0 false [])).
        { destruct O2 as (A & B & C). split; [done|]. split; [|rewrite P3; exact C]. intros Hk. apply B. by eapply mkey_eq. }
        eapply run_own; [exact I3|exact R3|exact O3|done|]. intros b q st4 n4 I4 R4 E4 O4 C4. cbn [fst snd].
        apply st_update. intros n5 st5 Hn5 P5 M5. pose proof O4 as (O4a & _ & Hn4 & _). rewrite Hn4 in Hn5. injection Hn5 as <-.
        destruct (upd_own st st4 st5 r (p_len (pub st1)) n4 b pos q) as (G5 & I5 & R5); [apply HI|done|done|done|done|by rewrite M5|].
        apply st_cache; [done|]. intros st6 P6 M6.
        destruct (ins_T st st5 st6 r pos b q (p_len (pub st1))) as [I6 R6]; [done|done|by rewrite P5|by right|done|by rewrite M6|].
        apply st_connect. intros n7 st7 Hn7 _ P7 M7. apply wp_ret. apply Weak.
        eapply (conn_T st st6); [done|done|done|rewrite P6, P5; exact C4|done|done|done].
      - apply pc_get. cbn [st_ctx]. destruct (check (st_ctx st1) r pos) as [[[b q] k]|] eqn:Ec.
        + apply st_connect_if. intros n st2 Hn M2 HP. cbn [st_ctx] in *. apply wp_ret.
          eapply (conn_if_T st st1 st2); [done|done|done|by apply I1|done|done|done].
        + apply wp_ret. split; [eapply R_trans; [exact R1|by apply R_eq]|]. split; [by eapply TInv_eq|].
          split; [done|]. split; [simpl; by rewrite Hnp|done].
    Qed.
  End call.

  (** ** Every closure *)
  Definition targets_ok (e : expr) : Prop := forall f, f ∈ lr_targets e -> Pl f = false.
  Lemma plain_lr_free e : plain Pl (pexp_of e) = true -> targets_ok e -> lr_free Pl e = true.
  Proof.
    unfold targets_ok. induction e; simpl; intros HP HT; try done; try (by apply IHe).
    - apply andb_true_iff in HP as [? ?]. rewrite IHe1, IHe2; [done|done| |done|]; intros f Hf; apply HT, elem_of_app; auto.
    - apply andb_true_iff in HP as [? ?]. rewrite IHe1, IHe2; [done|done| |done|]; intros f Hf; apply HT, elem_of_app; auto.
    - rewrite (HT f) in HP; [done|]. by apply elem_of_list_singleton.
  Qed.
  Lemma lr_free_left e : lr_free Pl e = true -> lr_left Pl e = true.
  Proof.
    induction e; simpl; intros H; try done; try (by apply IHe).
    - apply andb_true_iff in H as [H1 ->]. by rewrite IHe1.
    - apply andb_true_iff in H as [H1 H2]. by rewrite IHe1, IHe2.
  Qed.

  Theorem eval_t m : forall e, expr_wf pr fn e -> targets_ok e -> tsound (pexp_of e) (lr_free Pl e) (lr_left Pl e) (eval pr src m e).
  Proof.
    induction m as [|m IH]; intros e Hw Ht; [by intros st parent pos _ _|].
    assert (Hsub : forall f body, pr_fn pr f = Some body -> tsound (pexp_of body) (lr_free Pl body) (lr_left Pl body) (eval pr src m body)).
    { intros f body Hf. apply IH; [by eapply Hwf|]. intros f'. by eapply po_calls. }
    cbn [eval]. destruct e; cbn [pexp_of lr_free lr_left]; simpl in Hw.
    - apply terminal_t.
    - apply string_t.
    - apply range_t.
    - destruct Hw. eapply seq_t; (apply IH; [done|]; intros f Hf; apply Ht; simpl; apply elem_of_app; auto).
    - destruct Hw. apply choice_t; (apply IH; [done|]; intros f Hf; apply Ht; simpl; apply elem_of_app; auto).
    - eapply and_t. by apply IH.
    - eapply not_t. by apply IH.
    - eapply plus_t. by apply IH.
    - eapply star_t. by apply IH.
    - eapply opt_t. by apply IH.
    - eapply sub_t. by apply IH.
    - destruct Hw as [<- [body Hf]]. eapply var_t; [exact Hf|]. rewrite Hf. by apply (Hsub (fn rule)).
    - destruct Hw as [body Hf]. intros st parent pos HI Hp. rewrite Hf.
      eapply wp_mono; [by eapply (Hsub f)|]. intros res st' (A & B & C & D & E).
      split; [done|]. split; [done|]. split; [done|]. split.
      + simpl. intros HP. eapply peg_ref; [unfold grammar_of; by rewrite Hf|]. apply D. by eapply po_body.
      + intros Hr. destruct (E Hr) as (D' & HD & PD). exists D'. split; [eapply ld_inline; [unfold grammar_of; by rewrite Hf|done]|].
        assert (HF : Pl f = true -> lr_free Pl body = true).
        { intros HP. apply plain_lr_free; [by eapply po_body|]. intros f' Hf'. by eapply po_calls. }
        eapply placed_weaken; [| |exact PD]; auto.
    - destruct Hw as [<- [body Hf]]. eapply lr_t; [exact Hf|rewrite Hf; by apply (Hsub (fn rule))|].
      apply Ht. simpl. by apply elem_of_list_singleton.
    - rewrite Hnh. by apply IH.
  Qed.

  Lemma TInv_init gr u : TInv (PState (context_new gr) u).
  Proof. split; [apply pub_wf_new|]. intros r i b q k Hc. unfold check in Hc. simpl in Hc. by rewrite lookup_empty in Hc. Qed.
End tree.
