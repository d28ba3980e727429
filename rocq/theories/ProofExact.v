(** Tidy grammars: the node of every successful call has exactly the children
    of a derivation (up to nodes that clear_false drops). *)
From Verif Require Import SpecExact SpecSafe SpecSession ProofBasics ProofPeg ProofSound ProofSafe ProofLR ProofLRTree TheoremsDeriv TheoremsLRTree.
Local Open Scope N_scope.

Definition visible (n : node) : bool := n_result n && negb (n_start n =? n_end n).

Inductive kx (p : publisher) : N -> ptree -> Prop :=
  | kx_node k n D : p_nodes p !! k = Some n -> n_result n = true -> k <> 0 -> kxs p (n_children n) D ->
      kx p k (TNode (n_rule n) (n_start n) (n_end n) true D)
with kxs (p : publisher) : list N -> list ptree -> Prop :=
  | kx_nil : kxs p [] []
  | kx_skipk c m F D : p_nodes p !! c = Some m -> visible m = false -> kxs p F D -> kxs p (c :: F) D
  | kx_skipd d F D : keep d = false -> kxs p F D -> kxs p F (d :: D)
  | kx_keep c d F D : kx p c d -> kxs p F D -> kxs p (c :: F) (d :: D).
Scheme kx_mut := Induction for kx Sort Prop
  with kxs_mut := Induction for kxs Sort Prop.
Combined Scheme kx_all from kx_mut, kxs_mut.

Lemma kxs_app p F F' D D' : kxs p F D -> kxs p F' D' -> kxs p (F ++ F') (D ++ D').
Proof.
  induction 1; intros; simpl; [done|eapply kx_skipk; eauto|by apply kx_skipd; auto|by apply kx_keep; auto].
Qed.
Lemma kxs_end p i j F D : kxs p F D -> laid_out i j D -> forall c m, c ∈ F -> p_nodes p !! c = Some m -> visible m = true -> n_end m <= j.
Proof.
  intros H. induction H as [|c m F D Hm Hv H IH|d F D Hk H IH|c d F D Hx H IH] in i |- *; intros HL c' m' Hc Hm' Hv'.
  - by apply elem_of_nil in Hc.
  - apply elem_of_cons in Hc as [->|Hc]; [congruence|by eapply IH].
  - inversion HL; subst. by eapply IH.
  - inversion HL as [|? ? r a z b C D' ? HC HD]; subst. apply elem_of_cons in Hc as [->|Hc]; [|by eapply IH].
    inversion Hx; subst. simplify_eq. by eapply laid_le.
Qed.

Section tree.
  Context {U : Type} (pr : program U) (s : list N) (fn : N -> N) (Pl Nr : N -> bool).
  Context (Hs : N.of_nat (length s) < u32_modulus).
  Context (Hwf : program_wf pr fn) (Hnh : no_hooks pr) (HPl : plain_ok pr Pl) (HT : tidy_program Nr pr).
  Notation g := (grammar_of pr).
  Notation src := (source_new s).
  Notation LD := (lderiv g s Pl).
  Implicit Types st : pstate U.

  (** What a finished call does to the nodes that existed before it: only
      nodes still open (and the root) get children. *)
  Definition ext (p p' : publisher) : Prop := p_len p <= p_len p' /\ forall k n, p_nodes p !! k = Some n ->
    exists n' l, p_nodes p' !! k = Some n' /\ n_rule n' = n_rule n /\ n_children n' = n_children n ++ l /\
      n_result n' = n_result n /\ (n_result n = true -> n_start n' = n_start n /\ n_end n' = n_end n) /\
      (n_result n = true -> k <> 0 -> l = []).
  Lemma ext_refl p : ext p p.
  Proof. split; [lia|]. intros k n Hn. exists n, []. by rewrite app_nil_r. Qed.
  Lemma ext_trans p1 p2 p3 : ext p1 p2 -> ext p2 p3 -> ext p1 p3.
  Proof.
    intros [L1 H1] [L2 H2]. split; [lia|]. intros k n Hn.
    destruct (H1 k n Hn) as (n1 & l1 & Hn1 & A1 & B1 & C1 & D1 & E1). destruct (H2 k n1 Hn1) as (n2 & l2 & Hn2 & A2 & B2 & C2 & D2 & E2).
    exists n2, (l1 ++ l2). split; [done|]. split; [congruence|]. split; [by rewrite B2, B1, app_assoc|]. split; [congruence|]. split.
    - intros Hr. destruct (D1 Hr) as [<- <-]. apply D2. congruence.
    - intros Hr Hk. rewrite E1, E2 by congruence. done.
  Qed.
  Lemma ext_visible p p' k n n' : ext p p' -> p_nodes p !! k = Some n -> p_nodes p' !! k = Some n' ->
    visible n' = visible n /\ (visible n = true -> n_end n' = n_end n).
  Proof.
    intros [_ H] Hn Hn'. destruct (H k n Hn) as (n1 & l & Hn1 & _ & _ & E1 & E2 & _). rewrite Hn' in Hn1. injection Hn1 as <-.
    unfold visible. rewrite E1. destruct (n_result n); [|done]. by destruct (E2 eq_refl) as [-> ->].
  Qed.
  Lemma kx_ext p p' : ext p p' -> (forall k d, kx p k d -> kx p' k d) /\ (forall F D, kxs p F D -> kxs p' F D).
  Proof.
    intros HE. apply kx_all.
    - intros k n D Hn Hr Hk _ IH. pose proof HE as [_ H]. destruct (H k n Hn) as (n1 & l & Hn1 & E1 & E2 & E3 & E4 & E5).
      rewrite (E5 Hr Hk), app_nil_r in E2. destruct (E4 Hr) as [<- <-]. rewrite <-E1. constructor; [done|congruence|done|by rewrite E2].
    - constructor.
    - intros c m F D Hm Hv _ IH. pose proof HE as [_ H]. destruct (H c m Hm) as (n1 & l & Hn1 & _).
      eapply kx_skipk; [exact Hn1| |done]. rewrite <-Hv. by eapply ext_visible.
    - intros. by apply kx_skipd.
    - intros. by apply kx_keep.
  Qed.

  Definition orphan (p : publisher) (k : N) : Prop := forall k' n, p_nodes p !! k' = Some n -> k ∉ n_children n.
  (** Writing the result into an open node that nothing refers to yet. *)
  Lemma kx_upd p k n b i q : p_nodes p !! k = Some n -> n_result n = false -> orphan p k ->
    (forall k' d, kx p k' d -> kx (set_node p k (upd n b i q)) k' d) /\
    (forall F D, kxs p F D -> k ∉ F -> kxs (set_node p k (upd n b i q)) F D).
  Proof.
    intros Hn Hr HO. apply kx_all.
    - intros k' m D Hm Hr' Hk _ IH. assert (k' <> k) by congruence. constructor; [|done|done|].
      + simpl. by rewrite lookup_insert_ne.
      + apply IH. by eapply HO.
    - intros _. constructor.
    - intros c m F D Hm Hv _ IH Hk. apply not_elem_of_cons in Hk as [Hc Hk]. eapply kx_skipk; [|exact Hv|auto].
      simpl. by rewrite lookup_insert_ne.
    - intros. apply kx_skipd; auto.
    - intros c d F D _ IH1 _ IH2 Hk. apply not_elem_of_cons in Hk as [Hc Hk]. apply kx_keep; auto.
  Qed.

  Definition mclaim (p : publisher) (r i : N) (b : bool) (q k : N) : Prop :=
    (exists n, p_nodes p !! k = Some n /\ n_result n = b) /\ (is_Some (pr_fn pr (fn r)) -> (b = false -> q = i) /\
    (b = true -> exists D body, pr_fn pr (fn r) = Some body /\ kx p k (TNode r i q true D) /\ LD (pexp_of body) i q D) /\
    (Pl (fn r) = true -> peg g s (PRef (Some r) (fn r)) i (outcome b q))).
  Record TInv (st : pstate U) : Prop := mkTInv {
    ti_wf : pub_wf (pub st);
    ti_root : 0 < p_len (pub st);
    ti_ch : forall k n c, p_nodes (pub st) !! k = Some n -> c ∈ n_children n -> c < p_len (pub st);
    ti_memo : forall r i b q k, check (st_ctx st) r i = Some (b, q, k) -> mclaim (pub st) r i b q k;
  }.
  Notation mkey := (@mkey U).
  (** New children are keys that were memoised or did not exist. *)
  Definition kids st (p' : publisher) : Prop := forall k n' c, p_nodes p' !! k = Some n' -> c ∈ n_children n' ->
    (exists n, p_nodes (pub st) !! k = Some n /\ c ∈ n_children n) \/ mkey st c \/ p_len (pub st) <= c.
  Definition R (st st' : pstate U) : Prop := ext (pub st) (pub st') /\ (forall k, mkey st' k -> mkey st k \/ p_len (pub st) <= k) /\
    kids st (pub st').
  Lemma R_refl st : R st st.
  Proof. split; [apply ext_refl|]. split; [auto|]. intros k n c Hn Hc. left. eauto. Qed.
  Lemma R_trans st1 st2 st3 : R st1 st2 -> R st2 st3 -> R st1 st3.
  Proof.
    intros (E1 & M1 & K1) (E2 & M2 & K2). split; [by eapply ext_trans|]. split.
    - intros k [Hk|Hk]%M2; [auto|]. right. destruct E1. lia.
    - intros k n c Hn Hc. destruct (K2 k n c Hn Hc) as [(n2 & Hn2 & Hc2)|[Hm|Hl]]; [by eapply K1| |].
      + right. by apply M1.
      + right. right. destruct E1. lia.
  Qed.
  Lemma TInv_mkey st k : TInv st -> mkey st k -> k < p_len (pub st).
  Proof. intros [W _ _ Hm] (r & i & b & q & Hc). destruct (Hm _ _ _ _ _ Hc) as ((n & Hn & _) & _). apply W. eauto. Qed.

  (** The open node a call reports to. *)
  Definition open (p : publisher) (parent pos : N) : Prop := exists n, p_nodes p !! parent = Some n /\
    (n_result n = true -> parent = 0) /\
    ((exists f, Pl f = false) -> forall c m, c ∈ n_children n -> p_nodes p !! c = Some m -> visible m = true -> n_end m <= pos).
  Definition grew (parent : N) (p p' : publisher) (l : list N) : Prop :=
    (exists n n', p_nodes p !! parent = Some n /\ p_nodes p' !! parent = Some n' /\ n_children n' = n_children n ++ l) /\
    forall k n, k <> parent -> p_nodes p !! k = Some n -> exists n', p_nodes p' !! k = Some n' /\ n_children n' = n_children n.
  Definition TPost (e : pexp) (fc cl : bool) (parent pos : N) st (r : bool * N) st' : Prop :=
    R st st' /\ TInv st' /\ (fst r = false -> snd r = pos) /\
    (plain Pl e = true -> peg g s e pos (outcome (fst r) (snd r))) /\
    exists l, grew parent (pub st) (pub st') l /\
      (fst r = true -> exists D, LD e pos (snd r) D /\ kxs (pub st') l D) /\
      (fst r = false -> fc = true -> kxs (pub st') l []) /\ (cl = true -> kxs (pub st') l []).
  Definition tsound (e : pexp) (fc cl : bool) (f : parser U) : Prop :=
    forall st parent pos, TInv st -> open (pub st) parent pos ->
      pc (f parent pos) st (TPost e fc cl parent pos st).

  Lemma grew_refl parent p : is_Some (p_nodes p !! parent) -> grew parent p p [].
  Proof. intros [n Hn]. split; [exists n, n; by rewrite app_nil_r|eauto]. Qed.
  Lemma grew_trans parent p1 p2 p3 l1 l2 : grew parent p1 p2 l1 -> grew parent p2 p3 l2 -> grew parent p1 p3 (l1 ++ l2).
  Proof.
    intros [(n & n1 & Hn & Hn1 & E1) S1] [(n1' & n2 & Hn1' & Hn2 & E2) S2]. simplify_eq. split.
    - exists n, n2. split; [done|]. split; [done|]. by rewrite E2, E1, app_assoc.
    - intros k m Hk Hm. destruct (S1 k m Hk Hm) as (m1 & Hm1 & <-). by apply S2.
  Qed.
  (** The parent stays open for what comes next. *)
  Lemma open_next st parent pos q p' l D i : TInv st -> open (pub st) parent pos -> ext (pub st) p' -> grew parent (pub st) p' l ->
    kxs p' l D -> laid_out i q D -> pos <= q -> open p' parent q.
  Proof.
    intros HI (n & Hn & H0 & HB) HE [(n1 & n' & Hn1 & Hn' & El) _] HK HL Hq. rewrite Hn in Hn1. injection Hn1 as <-.
    exists n'. split; [done|]. split.
    - pose proof HE as [_ H]. destruct (H parent n Hn) as (n2 & l2 & Hn2 & _ & _ & E & _). rewrite Hn' in Hn2. injection Hn2 as <-. by rewrite E.
    - intros HL0 c m Hc Hm Hv. specialize (HB HL0). rewrite El in Hc. apply elem_of_app in Hc as [Hc|Hc]; [|by eapply kxs_end].
      destruct (proj2 (ti_wf _ HI c)) as [m0 Hm0]; [by eapply (ti_ch _ HI)|].
      destruct (ext_visible _ _ _ _ _ HE Hm0 Hm) as [E1 E2]. rewrite E1 in Hv. rewrite E2 by done.
      transitivity pos; [by eapply HB|done].
  Qed.
  Lemma TPost_open_ok e fc cl parent pos st q st' : TInv st -> open (pub st) parent pos ->
    TPost e fc cl parent pos st (true, q) st' -> open (pub st') parent q.
  Proof.
    intros HI HO ((HE & _) & _ & _ & _ & l & HG & HD & _). destruct (HD eq_refl) as (D & HD1 & HK). simpl in *.
    eapply open_next; [done|done|done|done|exact HK|by eapply lderiv_laid|by eapply lderiv_le].
  Qed.
  Lemma TPost_open_fail e cl parent pos st q st' : TInv st -> open (pub st) parent pos ->
    TPost e true cl parent pos st (false, q) st' -> open (pub st') parent pos.
  Proof.
    intros HI HO ((HE & _) & _ & _ & _ & l & HG & _ & HF & _). simpl in *.
    eapply (open_next _ _ pos pos); [done|done|done|done|by apply HF|constructor; reflexivity|lia].
  Qed.
  Lemma open_some p parent pos : open p parent pos -> is_Some (p_nodes p !! parent).
  Proof. intros (n & -> & _). eauto. Qed.

  (** ** Combinators *)
  Lemma pure_T e parent pos st b q : TInv st -> open (pub st) parent pos ->
    (b = false -> q = pos) -> peg g s e pos (outcome b q) -> (b = true -> LD e pos q []) ->
    TPost e true true parent pos st (b, q) st.
  Proof.
    intros HI Hp H1 H2 H3. split; [apply R_refl|]. split; [done|]. split; [done|]. split; [done|].
    exists []. split; [by eapply grew_refl, open_some|]. split; [|split; constructor].
    intros Hb. exists []. split; [by apply H3|constructor].
  Qed.
  Lemma terminal_t c : tsound (PChar c) true true (terminal_kernel src c).
  Proof.
    intros st parent pos HI Hp. unfold wp. rewrite terminal_eq by done. simpl.
    case_decide; apply pure_T; try done; intros; by constructor.
  Qed.
  Lemma range_t a b : tsound (PRange a b) true true (ordered_choice_match_range_kernel src a b).
  Proof.
    intros st parent pos HI Hp. unfold wp. rewrite range_eq by done. simpl.
    destruct (s !! N.to_nat pos) as [v|] eqn:E.
    - destruct ((a <=? v) && (v <=? b)) eqn:E2.
      + apply andb_true_iff in E2 as [?%N.leb_le ?%N.leb_le]. apply pure_T; try done; intros; by econstructor.
      + apply pure_T; try done. constructor. intros x Hx [? ?]. simplify_eq.
        apply andb_false_iff in E2 as [?%N.leb_gt|?%N.leb_gt]; lia.
    - apply pure_T; try done. constructor. congruence.
  Qed.
  Lemma string_t l : tsound (PStr l) true true (string_terminal_kernel src l).
  Proof.
    intros st parent pos HI Hp. unfold wp, string_terminal_kernel. rewrite string_loop_eq by done. simpl.
    case_decide; apply pure_T; try done; intros; by constructor.
  Qed.

  Lemma quiet_app p l1 l2 : kxs p l1 [] -> kxs p l2 [] -> kxs p (l1 ++ l2) [].
  Proof. apply (kxs_app p l1 l2 [] []). Qed.
  Lemma kxs_of p p' F D : ext p p' -> kxs p F D -> kxs p' F D.
  Proof. intros H. by apply kx_ext. Qed.

  Lemma seq_t e1 e2 fc1 cl1 fc2 cl2 f1 f2 : tsound e1 fc1 cl1 f1 -> tsound e2 fc2 cl2 f2 ->
    tsound (PSeq e1 e2) (cl1 && fc2) (cl1 && cl2) (sequence_kernel f1 f2).
  Proof.
    intros H1 H2 st parent pos HI Hp. unfold sequence_kernel. apply wp_bind.
    eapply wp_mono; [by apply H1|]. intros [b q] st1 P1. pose proof P1 as (R1 & I1 & F1 & G1 & l1 & W1 & D1 & A1 & B1). simpl in *. destruct b.
    - apply wp_bind. eapply wp_mono; [apply H2; [done|exact (TPost_open_ok _ _ _ _ _ _ _ _ HI Hp P1)]|]. intros [b2 q2] st2 (R2 & I2 & F2 & G2 & l2 & W2 & D2 & A2 & B2). simpl in *.
      assert (Hpeg : plain Pl e1 && plain Pl e2 = true -> peg g s (PSeq e1 e2) pos (outcome b2 q2)).
      { intros [Q1 Q2]%andb_true_iff. eapply peg_seq_ok; [by apply G1|by apply G2]. }
      assert (E2 : ext (pub st1) (pub st2)) by apply R2.
      destruct b2; apply wp_ret; (split; [by eapply R_trans|]); (split; [done|]); (split; [done|]); (split; [done|]);
        (exists (l1 ++ l2); split; [by eapply grew_trans|]).
      + split; [|split; [done|]].
        * intros _. destruct (D1 eq_refl) as (D & HD & PD), (D2 eq_refl) as (D' & HD' & PD').
          exists (D ++ D'). split; [by eapply ld_seq|]. apply kxs_app; [by eapply kxs_of|done].
        * intros [C1 C2]%andb_true_iff. apply quiet_app; [eapply kxs_of; [exact E2|by apply B1]|by apply B2].
      + split; [done|]. split.
        * intros _ [C1 C2]%andb_true_iff. apply quiet_app; [eapply kxs_of; [exact E2|by apply B1]|by apply A2].
        * intros [C1 C2]%andb_true_iff. apply quiet_app; [eapply kxs_of; [exact E2|by apply B1]|by apply B2].
    - apply wp_ret. split; [done|]. split; [done|]. split; [done|]. split.
      { simpl. intros [Q1 Q2]%andb_true_iff. apply peg_seq_fail. by apply G1. }
      exists l1. split; [done|]. split; [done|]. split; [intros _|]; intros [C1 C2]%andb_true_iff; by apply B1.
  Qed.
  Lemma choice_t e1 e2 cl1 fc2 cl2 f1 f2 : tsound e1 true cl1 f1 -> tsound e2 fc2 cl2 f2 ->
    tsound (PAlt e1 e2) fc2 (cl1 && cl2) (ordered_choice_kernel f1 f2).
  Proof.
    intros H1 H2 st parent pos HI Hp. unfold ordered_choice_kernel. apply wp_bind.
    eapply wp_mono; [by apply H1|]. intros [b q] st1 P1. pose proof P1 as (R1 & I1 & F1 & G1 & l1 & W1 & D1 & A1 & B1). simpl in *. destruct b.
    - apply wp_ret. split; [done|]. split; [done|]. split; [done|]. split.
      { simpl. intros [Q1 Q2]%andb_true_iff. apply peg_alt_1. by apply G1. }
      exists l1. split; [done|]. split; [|split; [done|]].
      + intros _. destruct (D1 eq_refl) as (D & HD & PD). exists D. split; [by apply ld_alt_1|done].
      + intros [C1 C2]%andb_true_iff. by apply B1.
    - apply wp_bind. eapply wp_mono; [apply H2; [done|exact (TPost_open_fail _ _ _ _ _ _ _ HI Hp P1)]|]. intros [b2 q2] st2 (R2 & I2 & F2 & G2 & l2 & W2 & D2 & A2 & B2). simpl in *.
      assert (Hpeg : plain Pl e1 && plain Pl e2 = true -> peg g s (PAlt e1 e2) pos (outcome b2 q2)).
      { intros [Q1 Q2]%andb_true_iff. eapply peg_alt_2; [by apply G1|by apply G2]. }
      assert (E2 : ext (pub st1) (pub st2)) by apply R2.
      pose proof (kxs_of _ _ _ _ E2 (A1 eq_refl eq_refl)) as Q1.
      destruct b2; apply wp_ret; (split; [by eapply R_trans|]); (split; [done|]); (split; [done|]); (split; [done|]);
        (exists (l1 ++ l2); split; [by eapply grew_trans|]).
      + split; [|split; [done|]].
        * intros _. destruct (D2 eq_refl) as (D' & HD' & PD'). exists D'. split; [apply ld_alt_2; [exact G1|done]|].
          by apply (kxs_app _ l1 l2 [] D').
        * intros [C1 C2]%andb_true_iff. apply quiet_app; [done|by apply B2].
      + split; [done|]. split; [intros _ HF|intros [C1 C2]%andb_true_iff]; (apply quiet_app; [done|]); [by apply A2|by apply B2].
  Qed.
  Lemma and_t e fc f : tsound e fc true f -> tsound (PAnd e) true true (and_predicate_kernel f).
  Proof.
    intros H1 st parent pos HI Hp. unfold and_predicate_kernel. apply wp_bind.
    eapply wp_mono; [by apply H1|]. intros [b q] st1 (R1 & I1 & F1 & G1 & l1 & W1 & D1 & A1 & B1). simpl in *.
    destruct b; apply wp_ret; (split; [done|]); (split; [done|]); (split; [done|]); simpl; (split; [|exists l1; split; [done|]; split; [|auto]]).
    - intros Q. eapply peg_and_ok. by apply G1.
    - intros _. exists []. split; [|by apply B1]. constructor. intros Q. eexists. by apply G1.
    - intros Q. eapply peg_and_fail. by apply G1.
    - done.
  Qed.
  Lemma not_t e fc f : tsound e fc true f -> tsound (PNot e) true true (not_predicate_kernel f).
  Proof.
    intros H1 st parent pos HI Hp. unfold not_predicate_kernel. apply wp_bind.
    eapply wp_mono; [by apply H1|]. intros [b q] st1 (R1 & I1 & F1 & G1 & l1 & W1 & D1 & A1 & B1). simpl in *.
    destruct b; apply wp_ret; (split; [done|]); (split; [done|]); (split; [done|]); simpl; (split; [|exists l1; split; [done|]; split; [|auto]]).
    - intros Q. eapply peg_not_fail. by apply G1.
    - done.
    - intros Q. eapply peg_not_ok. by apply G1.
    - intros _. exists []. split; [|by apply B1]. constructor. exact G1.
  Qed.
  Lemma opt_t e cl f : tsound e true cl f -> tsound (POpt e) true cl (optional_kernel f).
  Proof.
    intros H1 st parent pos HI Hp. unfold optional_kernel. apply wp_bind.
    eapply wp_mono; [by apply H1|]. intros [b q] st1 (R1 & I1 & F1 & G1 & l1 & W1 & D1 & A1 & B1). simpl in *.
    destruct b; apply wp_ret; (split; [done|]); (split; [done|]); (split; [done|]); simpl; (split; [|exists l1; split; [done|]; split; [|done]]).
    - intros Q. eapply peg_opt_some. by apply G1.
    - intros _. destruct (D1 eq_refl) as (D & HD & PD). exists D. split; [by apply ld_opt_some|done].
    - intros Q. eapply peg_opt_none. by apply G1.
    - intros _. exists []. split; [|by apply A1]. apply ld_opt_none. exact G1.
  Qed.
  Lemma sub_t e fc cl f : tsound e fc cl f -> tsound e fc cl (subexpression_kernel f).
  Proof.
    intros H1 st parent pos HI Hp. unfold subexpression_kernel. apply wp_bind.
    eapply wp_mono; [by apply H1|]. intros [b q] st1 (R1 & I1 & F1 & G1 & D1). simpl in *.
    destruct b; apply wp_ret; [done|]. by rewrite F1 in * by done.
  Qed.
  Lemma loop_t e cl f fuel : tsound e true cl f -> forall st parent pos, TInv st -> open (pub st) parent pos ->
    pc (repeat_loop fuel f parent pos) st (fun r st' => TPost (PStar e) true cl parent pos st r st' /\ fst r = true).
  Proof.
    intros H1. induction fuel as [|fuel IH]; intros st parent pos HI Hp; [done|].
    cbn [repeat_loop]. apply wp_bind.
    eapply wp_mono; [by apply H1|]. intros [b q] st1 P1. pose proof P1 as (R1 & I1 & F1 & G1 & l1 & W1 & D1 & A1 & B1). simpl in *. destruct b; simpl.
    - eapply wp_mono; [apply IH; [done|exact (TPost_open_ok _ _ _ _ _ _ _ _ HI Hp P1)]|]. intros [b2 q2] st2 [(R2 & I2 & F2 & G2 & l2 & W2 & D2 & A2 & B2) Hb2]. simpl in *. subst b2.
      split; [|done]. split; [by eapply R_trans|]. split; [done|]. simpl. split; [done|]. split.
      { intros Q. eapply peg_star_more; [by apply G1|by apply G2]. }
      assert (E2 : ext (pub st1) (pub st2)) by apply R2.
      exists (l1 ++ l2). split; [by eapply grew_trans|]. split; [|split; [done|]].
      + intros _. destruct (D1 eq_refl) as (D & HD & PD), (D2 eq_refl) as (D' & HD' & PD').
        exists (D ++ D'). split; [by eapply ld_star_more|]. apply kxs_app; [by eapply kxs_of|done].
      + intros C. apply quiet_app; [eapply kxs_of; [exact E2|by apply B1]|by apply B2].
    - apply wp_ret. split; [|done]. split; [done|]. split; [done|]. split; [done|]. split.
      { intros Q. apply peg_star_stop. by apply G1. }
      exists l1. split; [done|]. split; [|split; [done|done]].
      intros _. exists []. split; [|by apply A1]. apply ld_star_stop. exact G1.
  Qed.
  Lemma star_t e cl f fuel : tsound e true cl f -> tsound (PStar e) true cl (zero_or_more_kernel fuel f).
  Proof.
    intros H st parent pos HI Hp. unfold zero_or_more_kernel. eapply wp_mono; [by eapply loop_t|]. by intros r st' [? _].
  Qed.
  Lemma plus_t e cl f fuel : tsound e true cl f -> tsound (PPlus e) true cl (one_or_more_kernel fuel f).
  Proof.
    intros H1 st parent pos HI Hp. unfold one_or_more_kernel. apply wp_bind.
    eapply wp_mono; [by apply H1|]. intros [b q] st1 P1. pose proof P1 as (R1 & I1 & F1 & G1 & l1 & W1 & D1 & A1 & B1). simpl in *. destruct b; simpl.
    - eapply wp_mono; [eapply loop_t; [done|done|exact (TPost_open_ok _ _ _ _ _ _ _ _ HI Hp P1)]|]. intros [b2 q2] st2 [(R2 & I2 & F2 & G2 & l2 & W2 & D2 & A2 & B2) Hb2]. simpl in *. subst b2.
      split; [by eapply R_trans|]. split; [done|]. simpl. split; [done|]. split.
      { intros Q. eapply peg_plus_ok; [by apply G1|by apply G2]. }
      assert (E2 : ext (pub st1) (pub st2)) by apply R2.
      exists (l1 ++ l2). split; [by eapply grew_trans|]. split; [|split; [done|]].
      + intros _. destruct (D1 eq_refl) as (D & HD & PD), (D2 eq_refl) as (D' & HD' & PD').
        exists (D ++ D'). split; [by eapply ld_plus|]. apply kxs_app; [by eapply kxs_of|done].
      + intros C. apply quiet_app; [eapply kxs_of; [exact E2|by apply B1]|by apply B2].
    - apply wp_ret. split; [done|]. split; [done|]. split; [done|]. split.
      { intros Q. apply peg_plus_fail. by apply G1. }
      exists l1. split; [done|]. split; [done|]. split; [auto|done].
  Qed.

  (** ** State updates *)
  Definition still (p p' : publisher) : Prop := forall k n, p_nodes p !! k = Some n ->
    exists n', p_nodes p' !! k = Some n' /\ n_children n' = n_children n.
  (** Since the beginning of the call, no node that existed got a child. *)
  Definition RS st st' : Prop := R st st' /\ still (pub st) (pub st').
  Lemma RS_refl st : RS st st.
  Proof. split; [apply R_refl|]. intros k n Hn. eauto. Qed.
  Lemma RS_trans st1 st2 st3 : RS st1 st2 -> RS st2 st3 -> RS st1 st3.
  Proof.
    intros [R1 S1] [R2 S2]. split; [by eapply R_trans|]. intros k n Hn. destruct (S1 k n Hn) as (n1 & Hn1 & <-). by apply S2.
  Qed.

  Lemma TInv_eq st st1 : pub st1 = pub st -> c_memo (cch st1) = c_memo (cch st) -> TInv st -> TInv st1.
  Proof. intros E1 E2 [W Z C M]. split; rewrite E1; [done|done|done|]. intros r i b q k H. apply M. unfold check in *. by rewrite <-E2. Qed.
  Lemma RS_eq st st1 : pub st1 = pub st -> c_memo (cch st1) = c_memo (cch st) -> RS st st1.
  Proof.
    intros E1 E2. split; [|rewrite E1; intros k n Hn; eauto]. split; [rewrite E1; apply ext_refl|]. split.
    - intros k Hk. left. by eapply mkey_eq.
    - rewrite E1. intros k n c Hn Hc. left. eauto.
  Qed.
  Lemma mclaim_ext p p' r i b q k : ext p p' -> mclaim p r i b q k -> mclaim p' r i b q k.
  Proof.
    intros HE ((n & Hn & Hb) & HX). destruct (kx_ext _ _ HE) as [GK _].
    pose proof HE as [_ H]. destruct (H k n Hn) as (n' & l & Hn' & _ & _ & E & _).
    split; [exists n'; split; [done|congruence]|]. intros Hso. destruct (HX Hso) as (H1 & H2 & H3). split; [done|]. split; [|done].
    intros Hbt. destruct (H2 Hbt) as (D & body & A1 & A2 & A3). exists D, body. auto.
  Qed.
  Lemma TInv_ext st st1 : ext (pub st) (pub st1) -> pub_wf (pub st1) ->
    (forall k n c, p_nodes (pub st1) !! k = Some n -> c ∈ n_children n -> c < p_len (pub st1)) ->
    c_memo (cch st1) = c_memo (cch st) -> TInv st -> TInv st1.
  Proof.
    intros HE W HC E [_ Z _ M]. split; [done|destruct HE; lia|done|].
    intros r i b q k H. eapply mclaim_ext; [done|]. apply M. unfold check in *. by rewrite <-E.
  Qed.

  (** A call's own node: it did not exist before, nothing refers to it yet. *)
  Definition own (st0 st : pstate U) (r k : N) (n : node) : Prop :=
    p_len (pub st0) <= k /\ ~ mkey st k /\ p_nodes (pub st) !! k = Some n /\ n_rule n = r /\ n_result n = false /\ orphan (pub st) k.
  Lemma own_open st0 st r k n pos : own st0 st r k n -> n_children n = [] -> open (pub st) k pos.
  Proof.
    intros (_ & _ & Hn & _ & Hr & _) Hc. exists n. split; [done|]. split; [congruence|]. rewrite Hc. by intros _ c m ?%elem_of_nil.
  Qed.
  Lemma own_R st0 st st' r k n : own st0 st r k n -> TInv st -> R st st' -> exists n', own st0 st' r k n'.
  Proof.
    intros (H1 & H2 & H3 & H4 & H5 & H6) HI (HE & HM & HK). assert (Hlt : k < p_len (pub st)) by (apply HI; eauto).
    pose proof HE as [HL H]. destruct (H k n H3) as (n' & l & Hn' & E1 & E2 & E3 & _).
    exists n'. split; [done|]. split; [|split; [done|split; [congruence|split; [congruence|]]]].
    - intros [Hk|Hk]%HM; [done|lia].
    - intros k' m Hm Hc. destruct (HK k' m k Hm Hc) as [(m0 & Hm0 & Hc0)|[?|?]]; [by apply (H6 k' m0)|done|lia].
  Qed.
  Lemma own_eq st0 st st1 r k n : pub st1 = pub st -> c_memo (cch st1) = c_memo (cch st) -> own st0 st r k n -> own st0 st1 r k n.
  Proof.
    intros E1 E2 (A & B & C). split; [done|]. rewrite E1. split; [|done]. intros Hk. apply B. by eapply mkey_eq.
  Qed.

  Lemma res_own st0 st st1 r : TInv st -> RS st0 st ->
    pub st1 = Publisher (<[p_len (pub st) := Node (p_len (pub st)) r 0 0 false []]> (p_nodes (pub st))) (p_len (pub st) + 1) ->
    cch st1 = cch st ->
    TInv st1 /\ RS st0 st1 /\ ext (pub st) (pub st1) /\ own st0 st1 r (p_len (pub st)) (Node (p_len (pub st)) r 0 0 false []).
  Proof.
    intros HI HR E1 E2. assert (Hlt : forall k, is_Some (p_nodes (pub st) !! k) -> k <> p_len (pub st)).
    { intros k Hk. apply HI in Hk. lia. }
    assert (Em : c_memo (cch st1) = c_memo (cch st)) by by rewrite E2.
    assert (Hin : forall k n c, p_nodes (pub st1) !! k = Some n -> c ∈ n_children n -> p_nodes (pub st) !! k = Some n).
    { intros k n c Hn Hc. rewrite E1 in Hn. simpl in Hn. apply lookup_insert_Some in Hn as [[_ <-]|[_ Hn]]; [by apply elem_of_nil in Hc|done]. }
    assert (HE : ext (pub st) (pub st1)).
    { rewrite E1. split; [simpl; lia|]. intros k m Hm. exists m, []. simpl. rewrite app_nil_r.
      split; [|done]. rewrite lookup_insert_ne; [done|]. intros <-. by apply (Hlt (p_len (pub st))). }
    assert (HI1 : TInv st1).
    { eapply TInv_ext; [done|rewrite E1; apply pub_wf_add, HI| |done|done].
      intros k n c Hn Hc. rewrite E1. simpl. assert (c < p_len (pub st)); [|lia]. by eapply (ti_ch _ HI); [eapply Hin|]. }
    assert (HR1 : RS st st1).
    { split; [split; [done|split]|].
      - intros k Hk. left. by eapply mkey_eq.
      - intros k n c Hn Hc. left. eauto.
      - intros k n Hn. exists n. split; [|done]. rewrite E1. simpl. rewrite lookup_insert_ne; [done|]. intros <-. by apply (Hlt (p_len (pub st))). }
    split; [done|]. split; [by eapply RS_trans|]. split; [done|].
    split; [destruct HR as [[[? _] _] _]; done|]. split.
    { intros Hk. apply (mkey_eq st) in Hk; [|done]. apply (TInv_mkey st) in Hk; [lia|done]. }
    split; [rewrite E1; simpl; apply lookup_insert|]. split; [done|]. split; [done|].
    intros k n Hn Hc. pose proof (Hin _ _ _ Hn Hc) as Hn0. pose proof (ti_ch _ HI _ _ _ Hn0 Hc). lia.
  Qed.

  (** Writing the result into one's own node. *)
  Lemma mclaim_upd p k n b i q r' i' b' q' k' : p_nodes p !! k = Some n -> n_result n = false -> orphan p k -> k' <> k ->
    mclaim p r' i' b' q' k' -> mclaim (set_node p k (upd n b i q)) r' i' b' q' k'.
  Proof.
    intros Hn Hr HO Hk ((m & Hm & Hb) & HX). destruct (kx_upd p k n b i q Hn Hr HO) as [GK _].
    split; [exists m; split; [simpl; by rewrite lookup_insert_ne|done]|]. intros Hso. destruct (HX Hso) as (H1 & H2 & H3). split; [done|]. split; [|done].
    intros Hbt. destruct (H2 Hbt) as (D & body & A1 & A2 & A3). exists D, body. auto.
  Qed.
  Lemma upd_own st0 st st1 r k n b i q : TInv st0 -> own st0 st r k n -> TInv st -> RS st0 st ->
    pub st1 = set_node (pub st) k (upd n b i q) -> c_memo (cch st1) = c_memo (cch st) ->
    TInv st1 /\ RS st0 st1.
  Proof.
    intros I0 (H1 & H2 & H3 & H4 & H5 & H6) HI HR E1 E2. split.
    - split.
      + rewrite E1. eapply pub_wf_set; [apply HI|]. apply HI. eauto.
      + rewrite E1. exact (ti_root _ HI).
      + intros k' m c Hm Hc. rewrite E1 in Hm |- *. simpl in *. apply lookup_insert_Some in Hm as [[-> <-]|[_ Hm]]; by eapply (ti_ch _ HI).
      + intros r' i' b' q' k' Hc.
        assert (Hc' : check (st_ctx st) r' i' = Some (b', q', k')) by (unfold check in *; by rewrite <-E2).
        rewrite E1. apply mclaim_upd; [done|done|done| |by apply HI]. intros ->. apply H2. by exists r', i', b', q'.
    - destruct HR as [((HL & HE) & HM & HK) HS]. split; [split; [|split]|].
      + split; [rewrite E1; exact HL|]. intros k' m Hm. destruct (HE k' m Hm) as (m' & l & A). exists m', l. rewrite E1. simpl.
        rewrite lookup_insert_ne; [done|]. intros ->. assert (k' < p_len (pub st0)); [apply I0; eauto|lia].
      + intros k' Hk'. apply HM. by eapply mkey_eq.
      + intros k' m c Hm Hc. rewrite E1 in Hm. simpl in Hm. apply lookup_insert_Some in Hm as [[-> <-]|[_ Hm]]; [|by eapply HK].
        by eapply (HK k' n c H3).
      + intros k' m Hm. destruct (HS k' m Hm) as (m' & Hm' & El). exists m'. split; [|done]. rewrite E1. simpl.
        rewrite lookup_insert_ne; [done|]. intros ->. assert (k' < p_len (pub st0)); [apply I0; eauto|lia].
  Qed.

  (** ** Rule calls *)
  Lemma node_claim st0 st1 st2 r ck pos body fc cl b q n1 n2 p3 : pr_fn pr (fn r) = Some body -> TInv st0 ->
    TPost (pexp_of body) fc cl ck pos st1 (b, q) st2 -> p_nodes (pub st1) !! ck = Some n1 -> n_children n1 = [] ->
    own st0 st2 r ck n2 -> p3 = set_node (pub st2) ck (upd n2 b pos q) -> mclaim p3 r pos b q ck.
  Proof.
    intros Hf I0 (HR & HI & HF & HG & l & [(m1 & m2 & Hm1 & Hm2 & El) _] & HD & _) Hn1 Hc1 (H1 & H2 & H3 & H4 & H5 & H6) E. simpl in *.
    assert (Hn3 : p_nodes p3 !! ck = Some (upd n2 b pos q)) by (rewrite E; simpl; apply lookup_insert).
    split; [by eexists|]. intros _. split; [done|]. split.
    - intros ->. pose proof E as E0. destruct (HD eq_refl) as (D & HLD & HK). exists D, body. split; [done|]. split; [|done].
      assert (El' : l = n_children n2) by (rewrite Hn1 in Hm1; rewrite H3 in Hm2; simplify_eq; by rewrite El, Hc1). subst l.
      clear E HR. rewrite <-H4.
      change (kx p3 ck (TNode (n_rule (upd n2 true pos q)) (n_start (upd n2 true pos q)) (n_end (upd n2 true pos q)) true D)).
      apply kx_node; [done|done| |].
      + pose proof (ti_root _ I0). lia.
      + simpl. rewrite E0. apply kx_upd; [done|done|done|done|]. by apply (H6 ck n2).
    - intros HP. eapply peg_ref; [unfold grammar_of; by rewrite Hf|]. apply HG. by eapply po_body.
  Qed.
  Lemma ins_T st0 st st1 r i b q k : TInv st -> RS st0 st -> mclaim (pub st) r i b q k -> (mkey st0 k \/ p_len (pub st0) <= k) ->
    pub st1 = pub st -> c_memo (cch st1) = <[(r, i) := (b, q, k)]> (c_memo (cch st)) -> TInv st1 /\ RS st0 st1.
  Proof.
    intros [W Z C M] [(HE & HM & HK) HS] HC Hk E1 E2. split.
    - split; rewrite E1; [done|done|done|]. intros r' i' b' q' k' Hc. unfold check in Hc. rewrite E2 in Hc.
      apply lookup_insert_Some in Hc as [[[= -> ->] [= -> -> ->]]|[_ Hc]]; [done|by apply M].
    - split; [|by rewrite E1]. split; [by rewrite E1|]. split; [|by rewrite E1].
      intros k' (r' & i' & b' & q' & Hc). unfold check in Hc. rewrite E2 in Hc.
      apply lookup_insert_Some in Hc as [[_ [= -> -> ->]]|[_ Hc]]; [done|]. apply HM. by exists r', i', b', q'.
  Qed.
  (** Same, for the insertion in the final, connected state. *)
  Lemma ins_R st0 st st1 r i b q k : TInv st -> R st0 st -> mclaim (pub st) r i b q k -> (mkey st0 k \/ p_len (pub st0) <= k) ->
    pub st1 = pub st -> c_memo (cch st1) = <[(r, i) := (b, q, k)]> (c_memo (cch st)) -> TInv st1 /\ R st0 st1.
  Proof.
    intros [W Z C M] (HE & HM & HK) HC Hk E1 E2. split.
    - split; rewrite E1; [done|done|done|]. intros r' i' b' q' k' Hc. unfold check in Hc. rewrite E2 in Hc.
      apply lookup_insert_Some in Hc as [[[= -> ->] [= -> -> ->]]|[_ Hc]]; [done|by apply M].
    - split; [by rewrite E1|]. split; [|by rewrite E1].
      intros k' (r' & i' & b' & q' & Hc). unfold check in Hc. rewrite E2 in Hc.
      apply lookup_insert_Some in Hc as [[_ [= -> -> ->]]|[_ Hc]]; [done|]. apply HM. by exists r', i', b', q'.
  Qed.
  Lemma conn_T st0 st st1 r pos b q k parent n : is_Some (pr_fn pr (fn r)) -> open (pub st0) parent pos ->
    TInv st -> RS st0 st -> mclaim (pub st) r pos b q k -> (mkey st0 k \/ p_len (pub st0) <= k) -> p_nodes (pub st) !! parent = Some n ->
    pub st1 = set_node (pub st) parent (with_children n (n_children n ++ [k])) -> cch st1 = cch st ->
    TPost (PRef (Some r) (fn r)) true false parent pos st0 (b, q) st1.
  Proof.
    intros Hso (n0 & Hn0 & H0 & _) HI [HR HS] HC Hk Hn E1 E2.
    pose proof HR as ((HL & HE0) & HM & HK).
    destruct (HE0 parent n0 Hn0) as (n' & l' & Hn' & A1 & A2 & A3 & A4 & A5). rewrite Hn in Hn'. injection Hn' as <-.
    destruct (HS parent n0 Hn0) as (n' & Hn' & Ech). rewrite Hn in Hn'. injection Hn' as <-.
    assert (HE : ext (pub st) (pub st1)).
    { rewrite E1. split; [simpl; lia|]. intros k' m Hm. simpl. destruct (decide (k' = parent)) as [->|Hk'].
      - rewrite lookup_insert. simplify_eq. eexists _, [k]. split; [done|]. simpl. split; [done|]. split; [done|]. split; [done|]. split; [done|].
        intros Hr Hp0. rewrite A3 in Hr. by apply H0 in Hr.
      - rewrite lookup_insert_ne by done. exists m, []. by rewrite app_nil_r. }
    assert (Hkl : k < p_len (pub st)).
    { destruct HC as ((m & Hm & _) & _). apply HI. eauto. }
    assert (HI1 : TInv st1).
    { eapply TInv_ext; [done| | |by rewrite E2|done].
      - rewrite E1. apply pub_wf_set; [apply HI|]. apply HI. eauto.
      - intros k' m c Hm Hc. rewrite E1 in Hm |- *. simpl in *. apply lookup_insert_Some in Hm as [[-> <-]|[_ Hm]]; [|by eapply (ti_ch _ HI)].
        simpl in Hc. apply elem_of_app in Hc as [Hc|Hc%elem_of_list_singleton]; [by eapply (ti_ch _ HI)|by subst]. }
    pose proof (mclaim_ext _ _ _ _ _ _ _ HE HC) as ((m & Hm & Hmb) & CX). destruct (CX Hso) as (C1 & C2 & C3).
    split.
    { split; [eapply ext_trans; [split; [exact HL|exact HE0]|done]|]. split.
      - intros k' Hk'. apply HM. eapply mkey_eq; [|exact Hk']. by rewrite E2.
      - intros k' m' c Hm' Hc. rewrite E1 in Hm'. simpl in Hm'. apply lookup_insert_Some in Hm' as [[-> <-]|[_ Hm']]; [|by eapply HK].
        simpl in Hc. apply elem_of_app in Hc as [Hc|Hc%elem_of_list_singleton]; [by eapply HK|]. subst c. by right. }
    split; [done|]. split; [done|]. split; [done|]. exists [k]. split; [|split; [|split; [|done]]].
    - split.
      + eexists n0, _. split; [done|]. split; [rewrite E1; simpl; apply lookup_insert|]. simpl. by rewrite Ech.
      + intros k' m' Hk' Hm'. destruct (HS k' m' Hm') as (m'' & Hm'' & El). exists m''. split; [|done]. rewrite E1. simpl. by rewrite lookup_insert_ne.
    - simpl. intros ->. destruct (C2 eq_refl) as (D & body & Hb & HX & HD). exists [TNode r pos q true D]. split.
      + eapply ld_rule; [|done]. unfold grammar_of. by rewrite Hb.
      + apply kx_keep; [done|constructor].
    - simpl. intros -> _. eapply kx_skipk; [exact Hm| |constructor]. unfold visible. by rewrite Hmb.
  Qed.
  (** Already connected: then the match was empty. *)
  Lemma skip_T st0 st st1 r pos b q k parent n : Pl (fn r) = false -> is_Some (pr_fn pr (fn r)) -> TInv st0 -> open (pub st0) parent pos ->
    TInv st -> RS st0 st -> mclaim (pub st) r pos b q k -> p_nodes (pub st) !! parent = Some n ->
    k ∈ n_children n -> pub st1 = pub st -> cch st1 = cch st ->
    TPost (PRef (Some r) (fn r)) true false parent pos st0 (b, q) st1.
  Proof.
    intros Hnp Hso I0 (n0 & Hn0 & H0 & HB) HI HR HC Hn Hin E1 E2. specialize (HB (ex_intro _ _ Hnp)). pose proof HR as [((HL & HE0) & HM & HK) HS].
    destruct (HS parent n0 Hn0) as (n' & Hn' & Ech). rewrite Hn in Hn'. injection Hn' as <-.
    pose proof HC as ((m & Hm & Hmb) & CX). destruct (CX Hso) as (C1 & C2 & C3).
    split. { eapply R_trans; [apply HR|]. apply (RS_eq st st1); [done|by rewrite E2]. }
    split; [eapply TInv_eq; [exact E1|by rewrite E2|done]|]. split; [done|]. split; [done|]. exists [].
    assert (HG : grew parent (pub st0) (pub st1) []).
    { split; [|intros k' m' _ Hm'; rewrite E1; by apply HS]. exists n0, n. rewrite app_nil_r, E1. done. }
    split; [done|]. split; [|split; [constructor|constructor]].
    simpl. intros ->. destruct (C2 eq_refl) as (D & body & Hb & HX & HD). exists [TNode r pos q true D]. split.
    - eapply ld_rule; [|done]. unfold grammar_of. by rewrite Hb.
    - apply kx_skipd; [|constructor]. unfold keep. simpl. apply negb_false_iff, N.eqb_eq. 
      pose proof (lderiv_le _ _ _ _ _ _ _ HD) as Hle. destruct (N.eq_dec pos q) as [|Hne]; [done|]. exfalso.
      inversion HX as [k' n1 D' Hn1 Hr1 Hk0 _ Ek Et]. subst k' D'. rewrite Hm in Hn1. injection Hn1 as <-.
      rewrite Ech in Hin.
      assert (Hv : visible m = true).
      { unfold visible. rewrite Hr1. simpl. apply negb_true_iff, N.eqb_neq. congruence. }
      destruct (proj2 (ti_wf _ I0 k)) as [m0 Hm0]; [by eapply (ti_ch _ I0)|].
      destruct (ext_visible (pub st0) (pub st) k m0 m) as [V1 V2]; [by split|done|done|].
      assert (n_end m0 <= pos) by (eapply HB; [exact Hin|done|congruence]).
      assert (n_end m = n_end m0) by (apply V2; congruence). assert (n_end m = q) by congruence. lia.
  Qed.

  Section call.
    Context (r : N) (body : expr) (func : parser U) (fc cl : bool).
    Context (Hf : pr_fn pr (fn r) = Some body).
    Context (Hfunc : tsound (pexp_of body) fc cl func).

    Lemma run_own st0 st ck pos (K : bool * N -> M (pstate U) (bool * N)) Q n :
      TInv st0 -> TInv st -> RS st0 st -> own st0 st r ck n -> n_children n = [] ->
      (forall b q st2 n2, TInv st2 -> RS st0 st2 -> ext (pub st) (pub st2) -> own st0 st2 r ck n2 ->
         mclaim (set_node (pub st2) ck (upd n2 b pos q)) r pos b q ck -> pc (K (b, q)) st2 Q) ->
      pc (mbind' (func ck pos) K) st Q.
    Proof.
      intros I0 HI HR HO Hc HK. apply wp_bind. pose proof HO as (O1 & O2 & O3 & O4 & O5 & O6).
      eapply wp_mono; [apply Hfunc; [done|by eapply own_open]|]. intros [b q] st2 P2.
      pose proof P2 as (R2 & I2 & _ & _ & l & [_ HG] & _).
      destruct (own_R st0 st st2 r ck n HO HI R2) as (n2 & HO2).
      eapply HK; [done| |apply R2|done|].
      - split; [eapply R_trans; [apply HR|exact R2]|]. intros k m Hm. destruct HR as [_ HS]. destruct (HS k m Hm) as (m1 & Hm1 & <-).
        apply HG; [|done]. assert (k < p_len (pub st0)); [apply I0; eauto|lia].
      - eapply node_claim; [done|exact I0|exact P2|done|done|exact HO2|done].
    Qed.

    (** Own call, then write result, memoise, connect - in either order. *)
    Lemma default_t parent pos st : TInv st -> open (pub st) parent pos ->
      pc (default_behaviour func r parent pos) st (TPost (PRef (Some r) (fn r)) true false parent pos st).
    Proof.
      intros HI Hp. unfold default_behaviour. apply st_reserve. intros st1 E1 E1'.
      destruct (res_own st st st1 r HI (RS_refl st) E1 E1') as (I1 & R1 & _ & O1).
      eapply run_own; [exact HI|exact I1|exact R1|exact O1|done|]. intros b q st2 n2 I2 R2 _ O2 C2. cbn [fst snd].
      apply st_cache; [done|]. intros st3 P3 M3. apply st_update. intros n3 st4 Hn3 P4 M4. apply st_connect.
      intros n4 st5 Hn4 _ P5 M5. apply wp_ret. rewrite P3 in Hn3, P4. pose proof O2 as (_ & _ & Hn2 & _). rewrite Hn2 in Hn3. injection Hn3 as <-.
      set (sx := PState (Context (cch st2) (pub st4)) (st_user st2)).
      destruct (upd_own st st2 sx r (p_len (pub st)) n2 b pos q) as (Ix & Rx); [done|done|done|done|done|done|].
      destruct (ins_T st sx st4 r pos b q (p_len (pub st))) as [I4 R4]; [done|done|simpl; by rewrite P4|by right|done| |].
      { rewrite M4, M3. done. }
      eapply (conn_T st st4); [by rewrite Hf|done|done|done|rewrite P4; exact C2|by right|done|done|done].
    Qed.
    Lemma var_t : tsound (PRef (Some r) (fn r)) true false (var_name_kernel r func).
    Proof.
      intros st parent pos HI Hp. unfold var_name_kernel. apply pc_get.
      destruct (check (st_ctx st) r pos) as [[[b q] k]|] eqn:Ec; [|by apply default_t].
      unfold memoized_behaviour. apply st_connect. intros n st1 Hn _ E1 E2. apply wp_ret.
      eapply (conn_T st st st1); [by rewrite Hf|done|done|apply RS_refl|by apply HI| |done|done|done]. left. by exists r, pos, b, q.
    Qed.

    Lemma upd_memo st st1 pos b q k n : TInv st -> check (st_ctx st) r pos = Some (b, q, k) -> p_nodes (pub st) !! k = Some n ->
      pub st1 = set_node (pub st) k (upd n b pos q) -> cch st1 = cch st -> TInv st1 /\ RS st st1 /\ ext (pub st) (pub st1).
    Proof.
      intros HI Hc Hn E E2. destruct (ti_memo _ HI _ _ _ _ _ Hc) as ((n' & Hn' & Hb) & HX). destruct (HX (mk_is_Some _ _ Hf)) as (_ & HD & _). rewrite Hn in Hn'. injection Hn' as <-.
      assert (Hcase : forall k' m, p_nodes (pub st) !! k' = Some m -> exists m', p_nodes (pub st1) !! k' = Some m' /\ n_children m' = n_children m).
      { intros k' m Hm. rewrite E. simpl. destruct (decide (k' = k)) as [->|Hk].
        - rewrite lookup_insert. rewrite Hn in Hm. injection Hm as <-. eauto.
        - rewrite lookup_insert_ne by done. eauto. }
      assert (Hback : forall k' m c, p_nodes (pub st1) !! k' = Some m -> c ∈ n_children m -> exists m0, p_nodes (pub st) !! k' = Some m0 /\ c ∈ n_children m0).
      { intros k' m c Hm Hc'. rewrite E in Hm. simpl in Hm. apply lookup_insert_Some in Hm as [[-> <-]|[_ Hm]]; eauto. }
      assert (HE : ext (pub st) (pub st1)).
      { rewrite E. split; [simpl; lia|]. intros k' m Hm. simpl. destruct (decide (k' = k)) as [->|Hk].
        - rewrite lookup_insert. rewrite Hn in Hm. injection Hm as <-. eexists _, []. rewrite app_nil_r. split; [done|]. simpl.
          split; [done|]. split; [done|]. split; [done|]. split; [|done]. intros Hr. rewrite Hr in Hb. subst b. destruct (HD eq_refl) as (D & bd & _ & HK & _).
          inversion HK; subst. simplify_eq. done.
        - rewrite lookup_insert_ne by done. exists m, []. by rewrite app_nil_r. }
      split; [|split; [|done]].
      - eapply TInv_ext; [done| | |by rewrite E2|done].
        + rewrite E. apply pub_wf_set; [apply HI|]. apply HI. eauto.
        + intros k' m c Hm Hc'. destruct (Hback _ _ _ Hm Hc') as (m0 & Hm0 & Hc0). rewrite E. simpl. by eapply (ti_ch _ HI).
      - split; [|exact Hcase]. split; [done|]. split; [intros k' Hk'; left; eapply mkey_eq; [|exact Hk']; by rewrite E2|].
        intros k' m c Hm Hc'. left. eauto.
    Qed.

    Lemma TPost_eq e fc' cl' parent pos st0 res st st1 : TPost e fc' cl' parent pos st0 res st ->
      TInv st1 -> R st0 st1 -> pub st1 = pub st -> TPost e fc' cl' parent pos st0 res st1.
    Proof. intros (A & B & C & D & E) HI HR E1. split; [done|]. split; [done|]. split; [done|]. split; [done|]. by rewrite E1. Qed.

    Lemma growth_t st0 parent pos prev fuel : TInv st0 -> open (pub st0) parent pos ->
      forall st last lk ck n, TInv st -> RS st0 st -> mclaim (pub st) r pos (fst last) (snd last) lk ->
      (mkey st0 lk \/ p_len (pub st0) <= lk) -> own st0 st r ck n -> n_children n = [] -> lk <> ck ->
      pc (growth_loop fuel r parent pos func prev last lk ck) st (TPost (PRef (Some r) (fn r)) true false parent pos st0).
    Proof.
      intros HI0 Hp. induction fuel as [|fuel IH]; intros st last lk ck n HI HR HC Hlk HO Hcn Hne; [done|].
      cbn [growth_loop]. apply st_heads.
      { intros c c' Hc. unfold reinitialize_eval_set in Hc. case_match; [|discriminate]. by injection Hc as <-. }
      intros st1 P1 M1.
      assert (I1 : TInv st1) by (by eapply TInv_eq).
      assert (R1 : RS st0 st1) by (eapply RS_trans; [exact HR|by apply RS_eq]).
      assert (O1 : own st0 st1 r ck n) by (by eapply own_eq).
      eapply run_own; [exact HI0|exact I1|exact R1|exact O1|done|]. intros b q st2 n2 I2 R2 E2 O2 C2. rewrite P1 in E2.
      assert (HC2 : mclaim (pub st2) r pos (fst last) (snd last) lk) by (by eapply mclaim_ext).
      apply pc_get.
      assert (Next : forall st3 b' q' k', TInv st3 -> RS st0 st3 -> mclaim (pub st3) r pos (fst last) (snd last) lk ->
        mclaim (pub st3) r pos b' q' k' -> (mkey st0 k' \/ p_len (pub st0) <= k') ->
        pc (if negb b' || (q' <=? snd last) then
              mbind' (upd_ctx (fun c => ctx_connect c parent lk)) (fun _ =>
              mbind' (upd_ctx (fun c => Ok (set_current_active_lr_position c prev))) (fun _ =>
              mbind' (upd_ctx (fun c => Ok (create_cache_entry c r (fst last) pos (snd last) lk))) (fun _ => mret last)))
            else mbind' (with_ctx (fun c => reserve_publisher_entry c r)) (fun ck' =>
              growth_loop fuel r parent pos func prev (b', q') k' ck')) st3
          (TPost (PRef (Some r) (fn r)) true false parent pos st0)).
      { intros st3 b' q' k' I3 R3 C3 C3' Hk'. destruct (negb b' || (q' <=? snd last)).
        - apply st_connect. intros n3 st4 Hn3 _ P4 M4.
          assert (T4 : TPost (PRef (Some r) (fn r)) true false parent pos st0 last st4).
          { destruct last as [lb lq]. eapply (conn_T st0 st3 st4); [by rewrite Hf|done..]. }
          apply st_cache; [done|]. intros st5 P5 M5. apply st_cache; [done|]. intros st6 P6 M6. apply wp_ret.
          assert (C4 : mclaim (pub st4) r pos (fst last) (snd last) lk).
          { eapply mclaim_ext; [|exact C3]. destruct Hp as (n0 & Hn0 & H0 & _). destruct R3 as [((_ & HE3) & _) _].
            destruct (HE3 parent n0 Hn0) as (n' & l' & Hn' & _ & _ & A3 & _). rewrite Hn3 in Hn'. injection Hn' as <-.
            rewrite P4. split; [simpl; lia|]. intros k'' m Hm. simpl. destruct (decide (k'' = parent)) as [->|Hk''].
            - rewrite lookup_insert. rewrite Hn3 in Hm. injection Hm as <-. eexists _, [lk]. split; [done|]. simpl. split; [done|]. split; [done|]. split; [done|]. split; [done|].
              intros Hr Hp0. rewrite A3 in Hr. by apply H0 in Hr.
            - rewrite lookup_insert_ne by done. exists m, []. by rewrite app_nil_r. }
          destruct (ins_R st0 st4 st6 r pos (fst last) (snd last) lk) as [I6 R6]; [apply T4|apply T4|done|done|congruence| |].
          { rewrite M6, M5. done. }
          eapply TPost_eq; [exact T4|done|done|congruence].
        - apply st_reserve. intros st4 P4 M4. destruct (res_own st0 st3 st4 r I3 R3 P4 M4) as (I4 & R4 & E4 & O4).
          eapply IH; [exact I4|exact R4|by eapply mclaim_ext|exact Hk'|exact O4|done|].
          destruct C3' as ((m & Hm & _) & _). assert (k' < p_len (pub st3)); [apply I3; eauto|lia]. }
      destruct (check (st_ctx st2) r pos) as [[[b' q'] k']|] eqn:Ec.
      - apply st_update. intros n3 st3 Hn3 P3 M3. cbn [fst snd] in *.
        destruct (upd_memo st2 st3 pos b' q' k' n3 I2 Ec Hn3 P3 M3) as (I3 & R3' & E3).
        assert (R3 : RS st0 st3) by (eapply RS_trans; [exact R2|done]).
        apply Next; [done|done|by eapply mclaim_ext|eapply mclaim_ext; [exact E3|by apply I2]|].
        apply R2. by exists r, pos, b', q'.
      - apply st_update. intros n3 st3 Hn3 P3 M3. cbn [fst snd] in *. pose proof O2 as (O2a & O2b & Hn2 & _ & Hr2 & Ho2).
        rewrite Hn2 in Hn3. injection Hn3 as <-.
        destruct (upd_own st0 st2 st3 r ck n2 b pos q) as (I3 & R3); [done|done|done|done|done|by rewrite M3|].
        apply Next; [done|done| |by rewrite P3|by right]. rewrite P3. by apply mclaim_upd.
    Qed.

    Context (Hnp : Pl (fn r) = false).
    Lemma false_claim p pos k n : p_nodes p !! k = Some n -> n_result n = false -> mclaim p r pos false pos k.
    Proof using Hnp. intros H1 H2. split; [eauto|]. intros _. split; [done|]. split; [done|]. congruence. Qed.
    Lemma growth_fn_t fuel inv prev st0 st parent pos : TInv st0 -> open (pub st0) parent pos ->
      TInv st -> RS st0 st ->
      pc (growth_function fuel inv r func parent pos prev) st (TPost (PRef (Some r) (fn r)) true false parent pos st0).
    Proof.
      intros HI0 Hp HI HR. unfold growth_function. apply st_reserve. intros st1 P1 M1.
      destruct (res_own st0 st st1 r HI HR P1 M1) as (I1 & R1 & E1 & O1).
      apply st_update. intros n2 st2 Hn2 P2 M2. pose proof O1 as (O1a & O1b & Hn1 & _). rewrite Hn1 in Hn2. injection Hn2 as <-.
      destruct (upd_own st0 st1 st2 r (p_len (pub st)) _ false 0 0 HI0 O1 I1 R1 P2) as (I2 & R2); [by rewrite M2|].
      apply st_reserve. intros st3 P3 M3. destruct (res_own st0 st2 st3 r I2 R2 P3 M3) as (I3 & R3 & E3 & O3).
      apply st_cache; [done|]. intros st4 P4 M4.
      assert (M4' : c_memo (cch st4) = c_memo (cch st3)) by (rewrite M4; done).
      assert (Hlk : p_nodes (pub st2) !! p_len (pub st) = Some (upd (Node (p_len (pub st)) r 0 0 false []) false 0 0)).
      { rewrite P2. simpl. apply lookup_insert. }
      assert (O4 : own st0 st4 r (p_len (pub st2)) (Node (p_len (pub st2)) r 0 0 false [])) by (by eapply own_eq).
      eapply growth_t; [done|done|by eapply TInv_eq|eapply RS_trans; [exact R3|by apply RS_eq]| |by right|exact O4|done|].
      - rewrite P4. cbn [fst snd]. eapply mclaim_ext; [exact E3|]. eapply false_claim; [exact Hlk|done].
      - assert (p_len (pub st) < p_len (pub st2)); [apply I2; eauto|lia].
    Qed.

    Lemma lr_t fuel inv : tsound (PRef (Some r) (fn r)) true false (var_name_kernel_indirect_left_recursion fuel inv r func).
    Proof.
      intros st parent pos HI Hp. unfold var_name_kernel_indirect_left_recursion. apply wp_bind.
      eapply (wp_mono _ _ _ (fun _ st1 => pub st1 = pub st /\ c_memo (cch st1) = c_memo (cch st))).
      { unfold should_go_into_growth_function. apply pc_get. destruct (get_current_active_lr_position _) as [a|].
        - destruct (check_head _ _ _); [by apply wp_ret|]. apply wp_bind. unfold wp at 1, with_ctx.
          destruct (rule_in_involved_set _ _ _) as [b| |]; simpl; try done. destruct b; [by apply wp_ret|].
          apply st_cache; [done|]. intros st1 P1 M1. apply wp_ret. split; [by rewrite P1|]. by rewrite M1.
        - apply st_cache; [done|]. intros st1 P1 M1. apply wp_ret. split; [by rewrite P1|]. by rewrite M1. }
      intros [go prev] st1 [P1 M1]. cbn [fst snd].
      assert (I1 : TInv st1) by (by eapply TInv_eq). assert (R1 : RS st st1) by by apply RS_eq.
      destruct go; [by apply (growth_fn_t fuel inv prev st st1)|].
      apply pc_get. destruct (get_current_active_lr_position _) as [a|]; [|done].
      apply wp_bind. unfold wp at 1, with_ctx. destruct (rule_in_eval_set _ _ _) as [b| |]; simpl; try done. destruct b.
      - apply st_reserve. intros st2 P2 M2. cbn [st_ctx] in *.
        destruct (res_own st st1 st2 r I1 R1 P2 M2) as (I2 & R2 & E2 & O2).
        apply st_heads.
        { intros c c' Hc. unfold remove_from_eval_set in Hc. case_match; [|discriminate]. by injection Hc as <-. }
        intros st3 P3 M3.
        assert (I3 : TInv st3) by (by eapply TInv_eq).
        assert (R3 : RS st st3) by (eapply RS_trans; [exact R2|by apply RS_eq]).
        assert (O3 : own st st3 r (p_len (pub st1)) (Node (p_len (pub st1)) r 0 0 false [])) by (by eapply own_eq).
        eapply run_own; [exact HI|exact I3|exact R3|exact O3|done|]. intros b q st4 n4 I4 R4 E4 O4 C4. cbn [fst snd].
        apply st_update. intros n5 st5 Hn5 P5 M5. pose proof O4 as (O4a & _ & Hn4 & _). rewrite Hn4 in Hn5. injection Hn5 as <-.
        destruct (upd_own st st4 st5 r (p_len (pub st1)) n4 b pos q) as (I5 & R5); [done|done|done|done|done|by rewrite M5|].
        apply st_cache; [done|]. intros st6 P6 M6.
        destruct (ins_T st st5 st6 r pos b q (p_len (pub st1))) as [I6 R6]; [done|done|by rewrite P5|by right|done|by rewrite M6|].
        apply st_connect. intros n7 st7 Hn7 _ P7 M7. apply wp_ret.
        eapply (conn_T st st6); [by rewrite Hf|done|done|done|rewrite P6, P5; exact C4|by right|done|done|done].
      - apply pc_get. cbn [st_ctx]. destruct (check (st_ctx st1) r pos) as [[[b q] k]|] eqn:Ec.
        + apply st_connect_if. intros n st2 Hn M2 HP. cbn [st_ctx] in *. apply wp_ret. destruct HP as [[HP Hin]|HP].
          * eapply (skip_T st st1 st2); [done|by rewrite Hf|done|done|done|done|by apply I1|done|done|done|done].
          * eapply (conn_T st st1 st2); [by rewrite Hf|done|done|done|by apply I1| |done|done|done]. left.
            eapply mkey_eq; [exact M1|]. by exists r, pos, b, q.
        + apply wp_ret. set (sx := PState (st_ctx st1) (st_user st1)). assert (Rx : RS st sx) by (eapply RS_trans; [exact R1|by apply RS_eq]).
          split; [apply Rx|]. split; [by eapply TInv_eq|].
          split; [done|]. split; [simpl; by rewrite Hnp|]. exists []. split; [|split; [done|split; constructor]].
          destruct Hp as (n0 & Hn0 & _). destruct Rx as [_ HS]. split; [|intros k m _; apply HS].
          destruct (HS _ _ Hn0) as (n1 & Hn1 & E). exists n0, n1. by rewrite app_nil_r.
    Qed.
  End call.

  (** ** Every closure *)
  Lemma tsound_weaken e (fc cl fc' cl' : bool) f : (fc' = true -> fc = true) -> (cl' = true -> cl = true) ->
    tsound e fc cl f -> tsound e fc' cl' f.
  Proof.
    intros H1 H2 H st parent pos HI Hp. eapply wp_mono; [by apply H|]. intros r st' (A & B & C & D & l & G & E & F1 & F2).
    split; [done|]. split; [done|]. split; [done|]. split; [done|]. exists l. split; [done|]. split; [done|]. split; auto.
  Qed.

  Theorem eval_t m : forall e, expr_wf pr fn e -> targets_ok Pl e -> tidy Nr e = true ->
    tsound (pexp_of e) (fails_clean Nr e) (callless Nr e) (eval pr src m e).
  Proof.
    induction m as [|m IH]; intros e Hw Ht Htd; [by intros st parent pos _ _|].
    assert (Hsub : forall f body, pr_fn pr f = Some body -> tsound (pexp_of body) (fails_clean Nr body) (callless Nr body) (eval pr src m body)).
    { intros f body Hf. apply IH; [by eapply Hwf| |by eapply tp_tidy]. intros f'. by eapply po_calls. }
    cbn [eval]. destruct e; cbn [pexp_of fails_clean callless]; simpl in Hw; cbn [tidy] in Htd;
      repeat match goal with H : _ && _ = true |- _ => apply andb_true_iff in H as [? ?] end.
    - apply terminal_t.
    - apply string_t.
    - apply range_t.
    - destruct Hw. eapply seq_t; (apply IH; [done| |done]; intros f Hf; apply Ht; simpl; apply elem_of_app; auto).
    - destruct Hw. assert (Hl : fails_clean Nr e1 = true) by done. rewrite Hl. apply choice_t.
      + rewrite <-Hl. apply IH; [done| |done]. intros f Hf. apply Ht. simpl. apply elem_of_app. auto.
      + apply IH; [done| |done]. intros f Hf. apply Ht. simpl. apply elem_of_app. auto.
    - assert (Hc : callless Nr e = true) by done. rewrite Hc. eapply and_t. rewrite <-Hc. by apply IH.
    - assert (Hc : callless Nr e = true) by done. rewrite Hc. eapply not_t. rewrite <-Hc. by apply IH.
    - assert (Hl : fails_clean Nr e = true) by done. rewrite Hl. eapply plus_t. rewrite <-Hl. by apply IH.
    - assert (Hl : fails_clean Nr e = true) by done. eapply star_t. rewrite <-Hl. by apply IH.
    - assert (Hl : fails_clean Nr e = true) by done. eapply opt_t. rewrite <-Hl. by apply IH.
    - eapply sub_t. by apply IH.
    - destruct Hw as [<- [body Hf]]. eapply var_t; [exact Hf|]. rewrite Hf. by apply (Hsub (fn rule)).
    - destruct Hw as [body Hf]. rewrite Hf.
      assert (HN : Nr f = true -> callless Nr body = true) by (intros HN; by eapply tp_callless).
      intros st parent pos HI Hp.
      eapply wp_mono; [by eapply (Hsub f)|]. intros res st' (A & B & C & D & l & G & E & F1 & F2).
      split; [done|]. split; [done|]. split; [done|]. split.
      { simpl. intros HP. eapply peg_ref; [unfold grammar_of; by rewrite Hf|]. apply D. by eapply po_body. }
      exists l. split; [done|]. split; [|split; auto].
      intros Hr. destruct (E Hr) as (D' & HD & PD). exists D'. split; [eapply ld_inline; [unfold grammar_of; by rewrite Hf|done]|done].
    - destruct Hw as [<- [body Hf]]. eapply lr_t; [exact Hf|rewrite Hf; by apply (Hsub (fn rule))|].
      apply Ht. simpl. by apply elem_of_list_singleton.
    - rewrite Hnh. by apply IH.
  Qed.

  Lemma TInv_init gr u : TInv (PState (context_new gr) u).
  Proof.
    split; [apply pub_wf_new|simpl; lia| |].
    - intros k n c Hn Hc. simpl in Hn. apply lookup_singleton_Some in Hn as [_ <-]. by apply elem_of_nil in Hc.
    - intros r i b q k Hc. unfold check in Hc. simpl in Hc. by rewrite lookup_empty in Hc.
  Qed.
End tree.
