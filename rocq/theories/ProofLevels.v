(** Proofs about left recursion on several levels (SpecLevels.v). *)
From Verif Require Import SpecSafe SpecSession ProofBasics ProofPeg ProofSound ProofSafe ProofLR ProofLRTree ProofExact TheoremsDeriv TheoremsLRTree TheoremsExamples SpecLevels.
From Verif Require Import ProofCycle ProofCycleTree.
Local Open Scope N_scope.

(** ** One level: what the code of its tails and seeds does is given *)
Section below.
  Context {U : Type} (lo : N -> bool).
  Implicit Types st : pstate U.
  (** [lo r]: rule [r] belongs below. *)
  Definition same_lo st st' : Prop :=
    c_active (cache st') = c_active (cache st) /\
    (forall r i, lo r = false -> c_heads (cache st') !! (r, i) = c_heads (cache st) !! (r, i)) /\
    (forall r i, lo r = false -> c_memo (cache st') !! (r, i) = c_memo (cache st) !! (r, i)).
  Definition low_same st st' : Prop := forall r i, lo r = true ->
    c_memo (cache st') !! (r, i) = c_memo (cache st) !! (r, i) /\ c_heads (cache st') !! (r, i) = c_heads (cache st) !! (r, i).
  Definition keeps st st' : Prop :=
    (forall k d, kx (pub st) k d -> kx (pub st') k d) /\
    forall k n, mkey st k -> p_nodes (pub st) !! k = Some n -> exists n', p_nodes (pub st') !! k = Some n' /\ n_result n' = n_result n.
  (** A recursion above is going on. *)
  Definition above st : Prop := exists a h, c_active (cache st) = Some a /\ c_heads (cache st) !! a = Some h /\ lo (fst a) = false /\
    forall r, lo r = true -> r ∉ h_involved h /\ r ∉ h_eval h.
  Definition openl (pb : publisher) (parent pos : N) : Prop := exists n, p_nodes pb !! parent = Some n /\ (n_result n = true -> parent = 0) /\
    forall c m, c ∈ n_children n -> p_nodes pb !! c = Some m -> visible m = true -> lo (n_rule m) = true -> n_end m <= pos.

  Lemma same_lo_refl st : same_lo st st.
  Proof. done. Qed.
  Lemma same_lo_trans a b c : same_lo a b -> same_lo b c -> same_lo a c.
  Proof. intros (H1 & H2 & H3) (H4 & H5 & H6). split_and!; [congruence|..]; intros r i Hr; [by rewrite H5, H2|by rewrite H6, H3]. Qed.
  Lemma same_lo_c st st' : cache st' = cache st -> same_lo st st'.
  Proof. unfold same_lo. by intros ->. Qed.
  Lemma low_same_c st st' : cache st' = cache st -> low_same st st'.
  Proof. unfold low_same. by intros ->. Qed.
  Lemma keeps_ext st st' : ext (pub st) (pub st') -> keeps st st'.
  Proof.
    intros HE. split; [apply (kx_ext _ _ HE)|]. intros k n _ Hn. destruct HE as [_ H]. destruct (H k n Hn) as (n' & l & Hn' & _ & _ & E & _). eauto.
  Qed.
  Lemma above_same st st' : same_lo st st' -> above st -> above st'.
  Proof. intros (H1 & H2 & _) ([ra ia] & h & A1 & A2 & A3 & A4). exists (ra, ia), h. rewrite H1, H2 by done. done. Qed.
  Lemma kxs_low pb L D j : kxs pb L D -> (forall t, t ∈ D -> lo (t_label t) = true -> t_end t <= j) ->
    forall c m, c ∈ L -> p_nodes pb !! c = Some m -> visible m = true -> lo (n_rule m) = true -> n_end m <= j.
  Proof.
    intros H. induction H as [|c m F D Hm Hv H IH|d F D Hk H IH|c d F D Hx H IH]; intros HD c' m' Hc Hm' Hv' Hl.
    - by apply elem_of_nil in Hc.
    - apply elem_of_cons in Hc as [->|Hc]; [congruence|by eapply IH].
    - eapply IH; [|done..]. intros t Ht. apply HD. by right.
    - apply elem_of_cons in Hc as [->|Hc].
      + inversion Hx; subst. simplify_eq. by apply (HD _ (elem_of_list_here _ _)).
      + eapply IH; [|done..]. intros t Ht. apply HD. by right.
  Qed.
  Lemma openl_kids pb parent n pos D : open (fun _ => true) pb parent pos -> p_nodes pb !! parent = Some n -> kxs pb (n_children n) D ->
    (forall t, t ∈ D -> lo (t_label t) = true -> t_end t <= pos) -> openl pb parent pos.
  Proof.
    intros (n' & Hn' & H0 & _) Hn HK HD. rewrite Hn in Hn'. injection Hn' as <-. exists n. split; [done|]. split; [done|]. by eapply kxs_low.
  Qed.
  Lemma openl_grew pb pb' parent pos j l D : ext pb pb' -> openl pb parent pos -> (forall k n c, p_nodes pb !! k = Some n -> c ∈ n_children n -> is_Some (p_nodes pb !! c)) ->
    grew parent pb pb' l -> kxs pb' l D -> pos <= j -> (forall t, t ∈ D -> lo (t_label t) = true -> t_end t <= j) -> openl pb' parent j.
  Proof.
    intros HE (n & Hn & H0 & HC) Hch [(n1 & n' & Hn1 & Hn' & El) _] HK Hle HD. rewrite Hn in Hn1. injection Hn1 as <-.
    pose proof HE as [_ HX]. destruct (HX _ _ Hn) as (n2 & l2 & Hn2 & _ & _ & Er & _). rewrite Hn' in Hn2. injection Hn2 as <-.
    exists n'. split; [done|]. split; [by rewrite Er|]. intros c m Hc Hm Hv Hl. rewrite El in Hc. apply elem_of_app in Hc as [Hc|Hc].
    - destruct (Hch _ _ _ Hn Hc) as [m1 Hm1]. destruct (HX _ _ Hm1) as (m2 & lm & Hm2 & Elab & _). rewrite Hm in Hm2. injection Hm2 as <-.
      destruct (ext_visible _ _ _ _ _ HE Hm1 Hm) as [Ev1 Ev2]. rewrite Ev1 in Hv. rewrite (Ev2 Hv). transitivity pos; [|done]. eapply HC; [done|done|done|congruence].
    - by eapply kxs_low.
  Qed.
  Lemma openl_open pb parent pos j : openl pb parent pos -> open (fun _ => true) pb parent j.
  Proof. intros (n & Hn & H0 & _). exists n. split; [done|]. split; [done|]. by intros [f Hf]. Qed.
End below.

Section gcycle.
  Context {U : Type} (pr : program U) (fn : N -> N) (plain : N -> bool) (Nr : N -> bool) (inv : list N).
  Context (s : list N) (Hs : N.of_nat (length s) < u32_modulus) (Hwf : program_wf pr fn).
  Context (lo : N -> bool) (Hlo : forall r, lo r = false -> plain (fn r) = false).
  Context (code : expr -> Prop) (runs : expr -> N -> answer -> Prop) (LI : pstate U -> Prop).
  Notation g := (grammar_of pr).
  Notation src := (source_new s).
  Notation all := (fun _ : N => true).
  Notation prr := (pr' pr plain).
  Notation TI := (TInv prr s fn all).
  Implicit Types st : pstate U.
  Notation same_lo := (same_lo lo).
  Notation low_same := (low_same lo).
  Notation above := (above lo).
  Notation openl := (openl lo).
  Definition LInv st : Prop := TI st /\ LI st.
  Notation Inv := LInv.
  Definition LPost (e : expr) (parent pos : N) st (r : bool * N) st' : Prop :=
    Inv st' /\ R st st' /\ same_lo st st' /\ (fst r = false -> snd r = pos) /\
    exists o, runs e pos o /\ outcome (fst r) (snd r) = fst <$> o /\
    exists l, grew parent (pub st) (pub st') l /\
      match o with Some (_, D) => kxs (pub st') l D | None => fails_clean Nr e = true -> kxs (pub st') l [] end /\
      (callless Nr e = true -> kxs (pub st') l []).
  Context (PT : forall n e parent pos st, code e -> expr_wf pr fn e -> tidy Nr e = true -> Inv st -> above st -> openl (pub st) parent pos ->
    W (eval pr src n e parent pos) st (LPost e parent pos st)).
  Context (LI_step : forall st st1, LI st -> keeps st st1 -> low_same st st1 -> LI st1).
  Context (code_seq : forall a b, code (ESeq a b) -> code a /\ code b).
  Context (runs_le : forall e i j D, runs e i (Some (j, D)) -> i <= j /\ forall t, t ∈ D -> t_end t <= j).
  Context (runs_ok : forall a b i j k D1 D2, code (ESeq a b) -> runs a i (Some (j, D1)) -> runs b j (Some (k, D2)) -> runs (ESeq a b) i (Some (k, D1 ++ D2))).
  Context (runs_1 : forall a b i, code (ESeq a b) -> runs a i None -> runs (ESeq a b) i None).
  Context (runs_2 : forall a b i j D, code (ESeq a b) -> runs a i (Some (j, D)) -> runs b j None -> runs (ESeq a b) i None).

  Context (m0 : member) (rest : list member) (p : N).
  Notation r0 := (m_label m0).
  Context (Hlabels : NoDup (map m_label (m0 :: rest))) (Hinv : forall r, r ∈ inv <-> r ∈ map m_label (m0 :: rest)).
  Definition code_alternative (a : alternative) : Prop :=
    match a with
    | Follow None => True
    | Follow (Some t) => code t /\ tidy Nr t = true /\ fails_clean Nr t = true
    | Seed e => code e /\ tidy Nr e = true /\ fails_clean Nr e = true
    end.
  Definition gmember (m next : member) : Prop :=
    fn (m_label m) = m_fn m /\ plain (m_fn m) = false /\
    (exists body, pr_fn pr (m_fn m) = Some body /\ alternatives inv (m_label next) (m_fn next) body = m_alts m) /\
    (exists t l, m_alts m = Follow t :: l) /\ Forall code_alternative (m_alts m).
  Fixpoint glinked (ms : list member) (last : member) : Prop :=
    match ms with
    | [] => True
    | m :: ms => gmember m (match ms with n :: _ => n | [] => last end) /\ glinked ms last
    end.
  Context (Hlinked : glinked (m0 :: rest) m0).
  Context (Hlow : forall r, r ∈ inv -> lo r = false).

  Notation growing := (growing inv m0 p).
  Notation tries := (tries runs p).
  Notation ext_trans := (ProofExact.ext_trans s Hs).
  Notation R_trans := (ProofExact.R_trans s Hs).
  Notation R_refl := (ProofExact.R_refl s Hs).
  Notation RS_eq := (ProofExact.RS_eq s Hs).
  Notation RS_trans := (ProofExact.RS_trans s Hs).
  Notation RS_refl := (ProofExact.RS_refl s Hs).
  Notation own_R := (ProofExact.own_R prr s fn all Hs).
  Notation res_own := (ProofExact.res_own prr s fn all Hs).
  Notation upd_own := (ProofExact.upd_own prr s fn all Hs).
  Notation ins_T := (ProofExact.ins_T prr s fn all).
  Notation conn_I := (conn_I pr fn plain s Hs).
  Notation rewrite_I := (rewrite_I pr fn plain s Hs).
  Notation noded := (noded p).
  Notation holds := (holds p).
  Notation remt := (remt p).
  Notation kidsof := (kidsof p).
  Notation linked_in := (linked_in p).
  Notation asked := (asked p).
  Notation made := (made p).

  (** What is above is not touched. *)
  Definition outer st st' : Prop :=
    (forall r i, lo r = false -> r ∉ inv \/ i <> p -> c_memo (cache st') !! (r, i) = c_memo (cache st) !! (r, i)) /\
    (forall r i, lo r = false -> (r, i) <> (r0, p) -> c_heads (cache st') !! (r, i) = c_heads (cache st) !! (r, i)).
  Definition frame (parent : N) st st' : Prop := R st st' /\
    (forall k n, k <> parent -> p_nodes (pub st) !! k = Some n -> exists n', p_nodes (pub st') !! k = Some n' /\ n_children n' = n_children n) /\
    outer st st'.
  Lemma outer_refl st : outer st st.
  Proof. done. Qed.
  Lemma outer_trans (a b c : pstate U) : outer a b -> outer b c -> outer a c.
  Proof. intros [A1 A2] [B1 B2]. split; intros r i H1 H2; [by rewrite B1, A1|by rewrite B2, A2]. Qed.
  Lemma outer_same st st' : same_lo st st' -> outer st st'.
  Proof. intros (_ & H2 & H3). split; auto. Qed.
  Lemma outer_c st st' : cache st' = cache st -> outer st st'.
  Proof. intros H. by apply outer_same, same_lo_c. Qed.

  Lemma holds_same st st' r x : lo r = false -> same_lo st st' -> ext (pub st) (pub st') -> holds st r x -> holds st' r x.
  Proof. intros Hr (_ & _ & H) HE (b & q & k & H1 & H2). exists b, q, k. rewrite H by done. split; [done|]. by eapply noded_ext. Qed.
  Lemma remt_same st st' r x : lo r = false -> same_lo st st' -> ext (pub st) (pub st') -> remt st r x -> remt st' r x.
  Proof. intros Hr HS HE [H|[H ->]]; [left; by eapply holds_same|right]. destruct HS as (_ & _ & H3). by rewrite H3. Qed.
  Lemma remt_label st r t : remt st r (Some t) -> t_label t = r.
  Proof. intros [(b & q & k & _ & _ & H)|[_ H]]; [|done]. destruct b; [|done]. destruct H as (D & [= ->] & _). done. Qed.
  Lemma linked_same st st' r L L' : lo r = false -> same_lo st st' -> L ⊆ L' -> linked_in st r L -> linked_in st' r L'.
  Proof. intros Hr (_ & _ & H) HL HX b q k Hk. apply HL. rewrite H in Hk by done. by eapply HX. Qed.
  Lemma frame_refl k st : frame k st st.
  Proof. split; [apply R_refl|]. split; [|apply outer_refl]. intros k' n _ Hn. eauto. Qed.
  Lemma frame_trans k (a b c : pstate U) : frame k a b -> frame k b c -> frame k a c.
  Proof.
    intros (R1 & F1 & O1) (R2 & F2 & O2). split; [by eapply R_trans|]. split; [|by eapply outer_trans].
    intros k' n Hk Hn. destruct (F1 k' n Hk Hn) as (n1 & H1 & <-). by apply F2.
  Qed.
  Lemma frame_ext k (a b : pstate U) : frame k a b -> ext (pub a) (pub b).
  Proof. by intros [[H _] _]. Qed.
  Lemma grew_frame st st' parent l : R st st' -> same_lo st st' -> grew parent (pub st) (pub st') l -> frame parent st st'.
  Proof. intros HR HS [_ H]. split; [done|]. split; [|by apply outer_same]. intros k n Hk Hn. by apply H. Qed.
  Lemma Inv_ext st st1 : TI st1 -> ext (pub st) (pub st1) -> low_same st st1 -> Inv st -> Inv st1.
  Proof. intros HT HE HL [_ HM]. split; [done|]. eapply LI_step; [done|by apply keeps_ext|done]. Qed.
  Lemma ext_eq (pb pb' : publisher) : pb' = pb -> ext pb pb'.
  Proof. intros ->. split; [reflexivity|]. intros k0 n0 Hn0. exists n0, []. by rewrite app_nil_r. Qed.
  Lemma growing_same E st st' : same_lo st st' -> growing E st -> growing E st'.
  Proof.
    intros (H1 & H2 & _) (H3 & H4). unfold ProofCycle.growing. rewrite H1, H2; [done|]. apply Hlow, Hinv. by left.
  Qed.
  Lemma growing_above E st : growing E st -> E ⊆ list_to_set inv -> above st.
  Proof.
    intros (Ha & h & Hh & Hi & He) HE. exists (r0, p), h. split_and!; [done|done|apply Hlow, Hinv; by left|].
    intros r Hr. rewrite Hi, He. assert (r ∉ (list_to_set inv : gset N)). { rewrite elem_of_list_to_set. intros Hin%Hlow. congruence. } split; [done|]. set_solver.
  Qed.
  Lemma kids_openl st parent L D j : kidsof st parent L -> kxs (pub st) L D -> (forall t, t ∈ D -> lo (t_label t) = true -> t_end t <= j) -> openl (pub st) parent j.
  Proof.
    intros [HO (n & Hn & <-)] HK HD. eapply openl_kids; [|done|done|done]. eapply open_ext; [done|by apply ext_eq].
  Qed.

  (** A call of an involved rule that is no longer to be evaluated. *)
  Lemma call_memo_T n r f E x parent st : Inv st -> growing E st -> r ∈ inv -> r ∉ E -> remt st r x ->
    (kidsof st parent [] \/ asked st parent r x) ->
    W (eval pr src n (ELR inv r f) parent p) st (fun res st' => outcome (fst res) (snd res) = end_of x /\ Inv st' /\ frame parent st st' /\ same_lo st st' /\ asked st' parent r x).
  Proof.
    intros HI HG Hr HE Hx Hkids. destruct n as [|n]; [done|]. simpl. unfold var_name_kernel_indirect_left_recursion. apply wp_bind. unfold wp at 1.
    rewrite (should_not_grow _ _ _ _ _ _ HG Hr). cbn [sat fst snd]. pose proof HG as (Ha & h & Hh & Hi & He).
    apply wp_bind, W_get. unfold get_current_active_lr_position. rewrite Ha. apply wp_bind. unfold wp at 1, with_ctx, rule_in_eval_set. rewrite Hh. cbn [rbind sat fst snd]. rewrite He.
    rewrite bool_decide_eq_false_2 by done. replace (PState (st_ctx st) (st_user st)) with st by (by destruct st).
    apply wp_bind, W_get. unfold check. pose proof Hx as Hx'. destruct Hx' as [(b & q & k & Hk & Hn)|[Hk ->]].
    - rewrite Hk. apply connect_if_st. intros nd st1 Hnd E1 HP. apply wp_ret. cbn [fst snd]. rewrite (noded_end _ _ _ _ _ _ _ Hn). split; [done|].
      assert (Hopen : open all (pub st) parent p) by (destruct Hkids as [[? _]|(_ & L & [? _] & _)]; done).
      destruct HP as [[P1 Hin]|[Hnin P1]].
      + destruct Hkids as [[_ (n1 & Hn1 & Hc)]|Hask].
        { rewrite Hnd in Hn1. injection Hn1 as <-. rewrite Hc in Hin. by apply elem_of_nil in Hin. }
        assert (E1m : c_memo (cch st1) = c_memo (cch st)) by (by rewrite E1).
        assert (T1 : TI st1) by (by eapply TInv_eq; [..|apply HI]).
        split; [eapply Inv_ext; [done|by apply ext_eq|by apply low_same_c|done]|]. split.
        { split; [by apply RS_eq|]. split; [|by apply outer_c]. rewrite P1. eauto. }
        split; [by apply same_lo_c|]. destruct Hask as (_ & L & [A1 A2] & A3 & A4). split.
        { left. exists b, q, k. rewrite E1, P1. done. }
        exists L. rewrite P1. split; [split; by rewrite P1|]. split; [done|]. intros b' q' k'. rewrite E1. apply A4.
      + assert (n_children nd = []) as Hc.
        { destruct Hkids as [[_ (n1 & Hn1 & Hc)]|(_ & L & [_ (n1 & Hn1 & HL)] & _ & HA)]; [rewrite Hnd in Hn1; by injection Hn1 as ->|]. exfalso. apply Hnin. rewrite Hnd in Hn1. injection Hn1 as <-. rewrite HL. by eapply HA. }
        destruct (conn_I st st st1 parent k nd p) as (T1 & R1 & X1 & F1 & N1); [apply HI|apply R_refl|done|destruct Hn as [(? & -> & _) _]; eauto| |done|done|by rewrite E1|].
        { left. exists r, p, b, q. done. }
        assert (Hn1 : noded (pub st1) r k b q x) by (by eapply noded_ext).
        split; [eapply Inv_ext; [done|done|by apply low_same_c|done]|]. split; [split; [done|split; [eauto|by apply outer_c]]|]. split; [by apply same_lo_c|]. split.
        { left. exists b, q, k. rewrite E1. done. }
        exists [k]. split; [|split].
        * split; [by eapply open_ext|]. eexists. split; [exact N1|]. simpl. by rewrite Hc.
        * by eapply noded_kxs.
        * intros b' q' k'. rewrite E1, Hk. intros [= <- <- <-]. by left.
    - rewrite Hk. apply wp_ret. split_and!; try done; [apply frame_refl|]. split; [by right|]. destruct Hkids as [Hkids|(_ & H)]; [|done].
      exists []. split; [done|]. split; [constructor|]. intros b q k. by rewrite Hk.
  Qed.

  (** A call of an involved rule that is to be evaluated. *)
  Lemma call_eval_T m body E parent st (K : option ptree -> pstate U -> Prop) n :
    pr_fn pr (m_fn m) = Some body ->
    growing E st -> m_label m ∈ inv -> m_label m ∈ E -> Inv st -> kidsof st parent [] ->
    (forall n k st1, Inv st1 -> growing (E ∖ {[m_label m]}) st1 -> c_memo (cache st1) = c_memo (cache st) -> ext (pub st) (pub st1) -> kidsof st1 k [] ->
      W (eval pr src n body k p) st1 (fun res st2 => Inv st2 /\ frame k st1 st2 /\ exists y, K y st2 /\ outcome (fst res) (snd res) = end_of y /\ made st2 (m_label m) k y)) ->
    W (eval pr src n (ELR inv (m_label m) (m_fn m)) parent p) st (fun res st' => Inv st' /\ frame parent st st' /\ exists y st2,
      K y st2 /\ outcome (fst res) (snd res) = end_of y /\ holds st' (m_label m) y /\ asked st' parent (m_label m) y /\
      c_heads (cache st') = c_heads (cache st2) /\ c_active (cache st') = c_active (cache st2) /\
      forall r x, r <> m_label m -> holds st2 r x -> holds st' r x).
  Proof.
    intros Hb HG Hr HE HI Hkids Hbody. pose proof (Hlow _ Hr) as Hlr. pose proof (Hlo _ Hlr) as Hpl.
    assert (Hlr0 : lo r0 = false) by (apply Hlow, Hinv; by left).
    destruct n as [|n]; [done|]. simpl. unfold var_name_kernel_indirect_left_recursion. apply wp_bind. unfold wp at 1.
    rewrite (should_not_grow _ _ _ _ _ _ HG Hr). cbn [sat fst snd]. pose proof HG as (Ha & h & Hh & Hi & He).
    apply wp_bind, W_get. unfold get_current_active_lr_position. rewrite Ha. apply wp_bind. unfold wp at 1, with_ctx, rule_in_eval_set. rewrite Hh. cbn [rbind sat fst snd]. rewrite He.
    rewrite bool_decide_eq_true_2 by done. replace (PState (st_ctx st) (st_user st)) with st by (by destruct st).
    apply st_reserve. intros st1 P1 C1. destruct (res_own st st st1 (m_label m) (proj1 HI) (RS_refl st) P1 C1) as (T1 & R1 & X1 & O1).
    set (k := p_len (pub st)) in *.
    apply wp_bind, W_upd. intros c' Hc'. unfold remove_from_eval_set in Hc'. rewrite C1, Hh in Hc'. injection Hc' as <-. rewrite Hb.
    match goal with |- W (mbind' _ _) ?x _ => set (st1' := x) end.
    assert (P1' : pub st1' = pub st1) by done. assert (M1' : c_memo (cch st1') = c_memo (cch st)) by (simpl; by rewrite C1).
    assert (H1' : forall r i, (r, i) <> (r0, p) -> c_heads (cch st1') !! (r, i) = c_heads (cch st) !! (r, i)).
    { intros r i Hne. simpl. by rewrite lookup_insert_ne by done. }
    assert (OU1 : outer st st1') by (split; intros r i _ Hi'; [by rewrite M1'|by apply H1']).
    assert (LS1 : low_same st st1'). { intros r i Hl. rewrite M1'. split; [done|]. apply H1'. intros [= -> ->]. congruence. }
    assert (T1' : TI st1') by (eapply TInv_eq; [exact P1'| |exact T1]; simpl; by rewrite C1).
    assert (O1' : own st st1' (m_label m) k (Node k (m_label m) 0 0 false [])) by (eapply own_eq; [exact P1'| |exact O1]; simpl; by rewrite C1).
    assert (HK1 : kidsof st1' k []). { split; [by eapply (own_open all)|]. destruct O1' as (_ & _ & Hn & _). eauto. }
    apply wp_bind. eapply wp_mono.
    { apply Hbody; [apply (Inv_ext st); [done|by rewrite P1'|done|done]| |done|by rewrite P1'|done]. split; simpl; [by rewrite C1|]. rewrite lookup_insert. eexists. split; [done|]. simpl. by rewrite He. }
    intros [b q] st2 (HI2 & (HR2 & HF2 & OU2) & y & HKy & Hy & Hmade). cbn [fst snd] in *.
    destruct (own_R st st1' st2 (m_label m) k _ O1' T1' HR2) as (n2 & O2).
    assert (Hlt : forall k', is_Some (p_nodes (pub st) !! k') -> k' < k) by (intros k' Hk'; by apply (proj1 HI)).
    assert (RS1' : RS st st1') by (eapply RS_trans; [exact R1|]; apply RS_eq; [done|by rewrite M1', C1]).
    assert (RS2 : RS st st2).
    { split; [eapply R_trans; [apply RS1'|done]|]. intros k' m' Hm'. destruct RS1' as [_ HS1]. destruct (HS1 _ _ Hm') as (m1 & Hm1 & <-).
      apply HF2; [|done]. assert (k' < k) by (apply Hlt; eauto). lia. }
    pose proof O2 as (_ & Hnk & Hn2 & Hr2 & Hf2 & Horph).
    apply st_update. intros n3 st3 Hn3 P3 C3. rewrite Hn2 in Hn3. injection Hn3 as <-.
    destruct (upd_own st st2 st3 (m_label m) k n2 b p q (proj1 HI) O2 (proj1 HI2) RS2 P3) as (T3 & R3); [by rewrite C3|].
    destruct (kx_upd (pub st2) k n2 b p q Hn2 Hf2 Horph) as [KX KXS]. rewrite <- P3 in KX, KXS.
    assert (Hn3 : p_nodes (pub st3) !! k = Some (upd n2 b p q)) by (rewrite P3; simpl; apply lookup_insert).
    assert (Hk0 : k <> 0) by (pose proof (ti_root _ _ _ _ _ (proj1 HI)); unfold k; lia).
    assert (HI3 : Inv st3).
    { split; [done|]. eapply LI_step; [apply HI2| |by apply low_same_c]. split; [exact KX|]. intros k' n' Hk' Hn'. exists n'. split; [|done]. rewrite P3. simpl.
      rewrite lookup_insert_ne; [done|]. intros <-. done. }
    assert (HN3 : noded (pub st3) (m_label m) k b q y).
    { split; [by eexists|]. destruct b; cbn [outcome] in Hy; [|by destruct y]. destruct y as [t|]; [|done]. cbn in Hy. injection Hy as Hy.
      destruct Hmade as (D & L & Ht & [_ (n2' & Hn2' & HL)] & HK). rewrite Hn2 in Hn2'. injection Hn2' as <-. rewrite <- Hy in Ht. exists D. split; [by rewrite Ht|].
      rewrite <- Hr2. change (kx (pub st3) k (TNode (n_rule (upd n2 true p q)) (n_start (upd n2 true p q)) (n_end (upd n2 true p q)) true D)).
      apply kx_node; [done|done|done|]. simpl. rewrite HL. apply KXS; [done|]. rewrite <- HL. by apply (Horph k n2). }
    apply st_cache; [done|]. intros st4 P4 C4.
    destruct (ins_T st st3 st4 (m_label m) p b q k T3 R3) as [T4 R4]; [|by right|done|by rewrite C4|].
    { split; [by eexists|]. simpl. rewrite Hpl. by intros []. }
    destruct Hkids as [Hopen (np & Hnp & Hcp)].
    assert (O4 : open all (pub st4) parent p) by (eapply open_ext; [exact Hopen|apply R4]).
    apply st_connect. intros n5 st5 Hn5 Hne P5 C5. apply wp_ret. cbn [fst snd].
    destruct (conn_I st st4 st5 parent k n5 p T4 (proj1 R4) O4) as (T5 & R5 & X5 & F5 & N5); [rewrite P4; eauto|by right|done|done|by rewrite C5|].
    assert (M5 : c_memo (cch st5) = <[(m_label m, p) := (b, q, k)]> (c_memo (cch st2))) by (rewrite C5, C4; simpl; by rewrite C3).
    assert (H5 : c_heads (cch st5) = c_heads (cch st2)) by (rewrite C5, C4; simpl; by rewrite C3).
    assert (M53 : forall r i, (r, i) <> (m_label m, p) -> c_memo (cch st5) !! (r, i) = c_memo (cch st2) !! (r, i)) by (intros r i Hne'; by rewrite M5, lookup_insert_ne).
    assert (OU5 : outer st st5).
    { eapply outer_trans; [exact OU1|]. eapply outer_trans; [exact OU2|]. split; intros r i Hl Hi'; [|by rewrite H5]. apply M53. intros [= -> ->]. by destruct Hi'. }
    assert (Hc5 : n_children n5 = []). { destruct R4 as [_ HS4]. destruct (HS4 _ _ Hnp) as (n5' & Hn5' & E5). rewrite Hn5 in Hn5'. injection Hn5' as <-. congruence. }
    assert (HN5 : noded (pub st5) (m_label m) k b q y) by (eapply noded_ext; [exact X5|by rewrite P4]).
    assert (Hh5 : holds st5 (m_label m) y) by (exists b, q, k; rewrite M5, lookup_insert; done).
    split; [eapply (Inv_ext st3); [done|by rewrite <- P4| |done]|].
    { intros r i Hl. rewrite M53, H5, C3; [done|]. intros [= -> ->]. congruence. }
    split.
    { split; [done|]. split; [|done]. intros k' m' Hk' Hm'. destruct R4 as [_ HS4]. destruct (HS4 _ _ Hm') as (m4 & Hm4 & <-). exists m4. split; [|done]. by apply F5. }
    exists y, st2. split_and!; [done|done|done| |done|by rewrite C5, C4; simpl; rewrite C3|].
    - split; [by left|]. exists [k]. split; [|split; [by eapply noded_kxs|]].
      + split; [by eapply open_ext|]. eexists. split; [exact N5|]. simpl. by rewrite Hc5.
      + intros b' q' k'. rewrite M5, lookup_insert. intros [= <- <- <-]. by left.
    - intros r x Hrn (b' & q' & k' & Hk' & Hn'). exists b', q', k'. split; [rewrite M5, lookup_insert_ne; [done|congruence]|].
      eapply noded_ext; [exact X5|]. rewrite P4. destruct Hn' as [(nd & Hnd & Hnb) HX].
      assert (Hkk : k' <> k). { intros ->. apply Hnk. by exists r, p, b', q'. }
      split; [exists nd; split; [|done]; rewrite P3; simpl; by rewrite lookup_insert_ne|]. destruct b'; [|done]. destruct HX as (D & -> & HXX). exists D. split; [done|]. by apply KX.
  Qed.

  (** ** The body of a rule, the next rule being [nr] *)
  Definition tl_ok (t : option expr) : Prop :=
    match t with None => True | Some t => code t /\ expr_wf pr fn t /\ tidy Nr t = true end.
  Definition tl_fc (t : option expr) : bool := match t with None => true | Some t => fails_clean Nr t end.
  Definition tl_cl (t : option expr) : bool := match t with None => true | Some t => callless Nr t end.
  Definition alt_ok (a : alternative) : Prop :=
    match a with Follow t => tl_ok t /\ tl_fc t = true | Seed e => tl_ok (Some e) /\ fails_clean Nr e = true end.

  Section body.
    Context (nr nf : N) (Hnr : nr ∈ inv).
    Notation leading := (leading inv nr nf).
    Notation alternatives := (alternatives inv nr nf).
    Definition readyt (x : option ptree) st : Prop := exists E, growing E st /\ E ⊆ list_to_set inv /\ nr ∉ E /\ remt st nr x.
    Lemma readyt_same x st st' : same_lo st st' -> ext (pub st) (pub st') -> readyt x st -> readyt x st'.
    Proof. intros HS HE (E & H1 & H2 & H3 & H4). exists E. split_and!; [by eapply growing_same|done|done|]. eapply remt_same; [by apply Hlow|done..]. Qed.
    Lemma readyt_above x st : readyt x st -> above st.
    Proof. intros (E & H1 & H2 & _). by eapply growing_above. Qed.
    Lemma readyt_label t st : readyt (Some t) st -> lo (t_label t) = false.
    Proof. intros (E & _ & _ & _ & H). rewrite (remt_label _ _ _ H). by apply Hlow. Qed.

    Definition calledT st (P : N -> Prop) (K : option ptree -> pstate U -> Prop) : Prop := forall n parent, P parent ->
      W (eval pr src n (ELR inv nr nf) parent p) st (fun r st1 => Inv st1 /\ frame parent st st1 /\
        exists x, outcome (fst r) (snd r) = end_of x /\ readyt x st1 /\ asked st1 parent nr x /\ K x st1).
    Definition aftercall st (parent : N) (K : option ptree -> pstate U -> Prop) (A : option ptree -> Prop) st' : Prop :=
      Inv st' /\ frame parent st st' /\ exists x st1, K x st1 /\ same_lo st1 st' /\ ext (pub st1) (pub st') /\ readyt x st' /\ A x.
    Definition follows_T (t : option expr) (r : bool * N) (parent : N) st' (x : option ptree) : Prop :=
      exists L, kidsof st' parent L /\ linked_in st' nr L /\
      match x with
      | None => fst r = false /\ kxs (pub st') L []
      | Some n => exists o, tail_runs runs t (t_end n) o /\ outcome (fst r) (snd r) = fst <$> o /\
          match o with Some (_, D) => kxs (pub st') L (n :: D) | None => tl_fc t = true -> kxs (pub st') L [n] end /\
          (tl_cl t = true -> kxs (pub st') L [n])
      end.

    Lemma tail_le t q j D : tail_runs runs t q (Some (j, D)) -> q <= j /\ forall t', t' ∈ D -> t_end t' <= j.
    Proof. destruct t; simpl; [apply runs_le|]. intros [= -> ->]. split; [reflexivity|]. by intros t' ?%elem_of_nil. Qed.
    Lemma leading_T st P K n : calledT st P K -> forall e t, leading e = Some t -> tl_ok t -> forall parent, P parent ->
      W (eval pr src n e parent p) st (fun r st' => aftercall st parent K (follows_T t r parent st') st').
    Proof.
      intros Hc. induction n as [|n IH]; intros e t Ht Hok parent HP; [done|]. destruct e; try done.
      - (* sequence *)
        simpl in Ht |- *. destruct (leading e1) as [t1|] eqn:E1; [|done].
        assert (exists t2, t = Some t2 /\ tl_ok (Some e2) /\ tl_ok t1 /\ match t1 with Some t1 => t2 = ESeq t1 e2 /\ code (ESeq t1 e2) | None => t2 = e2 end) as (t2 & -> & P2 & P1 & Et2).
        { destruct t1 as [t1|]; injection Ht as <-; simpl in Hok; [|eexists; split_and!; done]. destruct Hok as (HA & [B1 B2] & [C1 C2]%andb_true_iff).
          destruct (code_seq _ _ HA) as [A1 A2]. eexists. split; [done|]. split; [done|]. split; [done|]. done. }
        unfold sequence_kernel. apply wp_bind. eapply wp_mono; [by apply (IH _ _ E1 P1)|].
        intros [b q] st1 (I1 & F1 & x & stx & HK & HS & HX & Hrd & L & HL & Hlk & Hm). cbn [fst snd] in Hm. destruct b; cbn [outcome] in Hm.
        + destruct x as [nd|]; [|by destruct Hm]. destruct Hm as ([[j1 D1]|] & M1 & Mo & K1 & M4); [|done]. cbn in Mo. injection Mo as <-.
          destruct P2 as (Q1 & Q2 & Q3). apply wp_bind. eapply wp_mono; [apply (PT n e2 parent q st1 Q1 Q2 Q3 I1)|].
          { by eapply readyt_above. }
          { eapply kids_openl; [exact HL|exact K1|]. intros t' [->|Ht']%elem_of_cons Hl; [|by apply (tail_le _ _ _ _ M1)]. pose proof (readyt_label _ _ Hrd). congruence. }
          intros [b q2] st2 (I2 & R2 & S2 & _ & o2 & Hp2 & Ho2 & l & G2 & D2 & B2). cbn [fst snd] in *. assert (X2 : ext (pub st1) (pub st2)) by apply R2.
          pose proof (kids_grew _ _ _ _ _ _ HL X2 G2) as HL2. destruct (kx_ext _ _ X2) as [_ KX2].
          apply (wp_mono _ _ _ (fun r st' => st' = st2 /\ r = if b then (true, q2) else (false, p))); [by destruct b; apply wp_ret|].
          intros r st3 [-> ->].
          assert (Ho : outcome b q2 = outcome (fst (if b then (true, q2) else (false, p))) (snd (if b then (true, q2) else (false, p)))) by (by destruct b).
          split; [done|]. split; [eapply frame_trans; [exact F1|by eapply grew_frame]|]. exists (Some nd), stx.
          split; [done|]. split; [by eapply same_lo_trans|]. split; [by eapply ext_trans|]. split; [by eapply readyt_same|].
          exists (L ++ l). split; [done|]. split; [eapply linked_same; [by apply Hlow|exact S2| |exact Hlk]; intros z Hz; apply elem_of_app; by left|]. rewrite <- Ho, Ho2.
          destruct o2 as [[j2 D']|].
          * exists (Some (j2, D1 ++ D')). split; [|split; [done|split]].
            -- destruct t1 as [t1|]; simpl in M1 |- *.
               ++ destruct Et2 as [-> Hcs]. by eapply runs_ok.
               ++ subst t2. injection M1 as -> ->. done.
            -- change (nd :: D1 ++ D') with ((nd :: D1) ++ D'). apply kxs_app; [by apply KX2|done].
            -- intros Hcl. assert (Hcl' : tl_cl t1 = true /\ callless Nr e2 = true).
               { destruct t1 as [t1|]; [destruct Et2 as [-> _]|subst t2]; simpl in Hcl |- *; [by apply andb_true_iff in Hcl|done]. }
               destruct Hcl' as [C1 C2]. change [nd] with ([nd] ++ []). apply kxs_app; [by apply KX2, M4|by apply B2].
          * exists None. split; [|split; [done|split]].
            -- destruct t1 as [t1|]; simpl in M1 |- *.
               ++ destruct Et2 as [-> Hcs]. by eapply runs_2.
               ++ subst t2. injection M1 as -> ->. done.
            -- intros Hfc. assert (Hcl : tl_cl t1 = true /\ fails_clean Nr e2 = true).
               { destruct t1 as [t1|]; [destruct Et2 as [-> _]|subst t2]; simpl in Hfc |- *; [by apply andb_true_iff in Hfc|done]. }
               destruct Hcl as [C1 C2]. change [nd] with ([nd] ++ []). apply kxs_app; [by apply KX2, M4|by apply D2].
            -- intros Hcl. assert (Hcl' : tl_cl t1 = true /\ callless Nr e2 = true).
               { destruct t1 as [t1|]; [destruct Et2 as [-> _]|subst t2]; simpl in Hcl |- *; [by apply andb_true_iff in Hcl|done]. }
               destruct Hcl' as [C1 C2]. change [nd] with ([nd] ++ []). apply kxs_app; [by apply KX2, M4|by apply B2].
        + apply wp_ret. split; [done|]. split; [done|]. exists x, stx. split_and!; [done..|]. exists L. split; [done|]. split; [done|]. cbn [fst snd outcome].
          destruct x as [nd|]; [|done]. destruct Hm as ([[j1 D1]|] & M1 & Mo & _ & M4); [done|]. destruct t1 as [t1|]; [|done]. destruct Et2 as [-> Hcs].
          exists None. split; [by apply runs_1|]. split; [done|].
          split; simpl; intros [C1 C2]%andb_true_iff; by apply M4.
      - (* subexpression *)
        simpl in Ht |- *. unfold subexpression_kernel. apply wp_bind. eapply wp_mono; [by apply (IH _ _ Ht Hok)|].
        intros [b q] st' H. destruct b; simpl; apply wp_ret; exact H.
      - (* the call *)
        simpl in Ht. destruct (decide _) as [(-> & -> & ->)|]; [|done]. injection Ht as <-. eapply wp_mono; [by apply Hc|].
        intros [b q] st' (H1 & H2 & x & H3 & H4 & (H5 & L & H6 & H7 & H8) & H9). cbn [fst snd] in *. split; [done|]. split; [done|]. exists x, st'.
        split; [done|]. split; [done|]. split; [by apply ext_eq|]. split; [done|].
        exists L. split; [done|]. split; [done|]. destruct x as [nd|]; cbn [fst snd]; [|split; [by destruct b|done]]. exists (Some (t_end nd, [])). split; [done|].
        split; [by rewrite H3|]. done.
    Qed.

    Lemma tries_app x l1 l2 o1 o2 : tries x l1 o1 -> (o1 = None -> tries x l2 o2) -> tries x (l1 ++ l2) (match o1 with Some y => Some y | None => o2 end).
    Proof. clear. induction 1; simpl; intros H2; [by apply H2|..]; try (econstructor; by eauto). Qed.
    Definition bodypost (e : expr) (parent : N) (r : bool * N) st' (x : option ptree) : Prop :=
      exists o, tries x (alternatives e) o /\ outcome (fst r) (snd r) = fst <$> o /\
      match o with Some (j, D) => exists L, kidsof st' parent L /\ kxs (pub st') L (first_child x ++ D) | None => asked st' parent nr x end.

    Lemma follow_post t r parent st' x e : alternatives e = [Follow t] -> tl_fc t = true -> readyt x st' -> follows_T t r parent st' x -> bodypost e parent r st' x.
    Proof.
      intros Ea Hfc (E & _ & _ & _ & Hre) (L & HL & Hlk & H). unfold bodypost. rewrite Ea. destruct r as [b q]. cbn [fst snd] in *. destruct x as [nd|].
      - destruct H as (o & H1 & Ho & H3 & _). destruct o as [[j D]|].
        + exists (Some (j, D)). split_and!; [by eapply tries_follow|done|]. by exists L.
        + exists None. split_and!; [apply tries_follow_next; [done|constructor]|done|]. split; [done|]. exists L. split_and!; [done|by apply H3|done].
      - destruct H as [-> H]. exists None. split_and!; [apply tries_follow_next; [done|constructor]|done|]. split; [done|]. by exists L.
    Qed.
    Lemma asked_plain st st' parent x l : same_lo st st' -> R st st' -> asked st parent nr x -> grew parent (pub st) (pub st') l -> kxs (pub st') l [] -> asked st' parent nr x.
    Proof.
      intros HS HR (A1 & L & A2 & A3 & A4) HG HK. assert (X : ext (pub st) (pub st')) by apply HR. split; [eapply remt_same; [by apply Hlow|done..]|]. exists (L ++ l). split; [by eapply kids_grew|]. split.
      - rewrite <- (app_nil_r (first_child x)). apply kxs_app; [by apply (kx_ext _ _ X)|done].
      - eapply linked_same; [by apply Hlow|exact HS| |exact A4]. intros z Hz. apply elem_of_app. by left.
    Qed.
    Lemma memo_called_T x st : Inv st -> readyt x st ->
      calledT st (fun parent => kidsof st parent [] \/ asked st parent nr x) (fun y st1 => y = x /\ same_lo st st1 /\ ext (pub st) (pub st1)).
    Proof.
      intros HI HR n parent HP. pose proof HR as (E & H1 & H2 & H3 & H4). eapply wp_mono; [by eapply call_memo_T|]. intros r st' (A1 & A2 & A3 & A4 & A5).
      split; [done|]. split; [done|]. exists x. split; [done|]. assert (X : ext (pub st) (pub st')) by (by eapply frame_ext). split; [by eapply readyt_same|]. done.
    Qed.

    Lemma body_ready_T n : forall e x parent st, Forall alt_ok (alternatives e) -> Inv st -> readyt x st -> asked st parent nr x ->
      W (eval pr src n e parent p) st (fun r st' => Inv st' /\ frame parent st st' /\ same_lo st st' /\ bodypost e parent r st' x).
    Proof.
      induction n as [|n IH]; intros e x parent st Hal HI HR HA; [done|]. destruct (single_cases inv nr nf e) as [(a & b & ->)|[(a & ->)|Ha]].
      - simpl in Hal |- *. apply Forall_app in Hal as [P1 P2]. unfold ordered_choice_kernel. apply wp_bind. eapply wp_mono; [by apply (IH a x)|].
        intros [b1 q1] st1 (I1 & F1 & S1 & o1 & X1 & E1 & Y1). cbn [fst snd] in *. destruct b1.
        + apply wp_ret. split_and!; [done..|]. destruct o1 as [[j D]|]; [|done]. exists (Some (j, D)). split_and!; [|done|done].
          by apply (tries_app _ _ _ _ None X1).
        + destruct o1 as [[j D]|]; [done|]. apply wp_bind. eapply wp_mono; [apply (IH b x); [done..| |done]|].
          { eapply readyt_same; [done|by eapply frame_ext|done]. }
          intros [b2 q2] st2 (I2 & F2 & S2 & o2 & X2 & E2 & Y2). cbn [fst snd] in *.
          pose proof (tries_app _ _ _ _ _ X1 (fun _ => X2)) as X. simpl in X.
          destruct b2; apply wp_ret; (split_and!; [done|by eapply frame_trans|by eapply same_lo_trans|by exists o2]).
      - simpl in Hal |- *. unfold subexpression_kernel. apply wp_bind. eapply wp_mono; [by apply (IH a x)|].
        intros [b1 q1] st1 H. destruct b1; simpl; apply wp_ret; exact H.
      - rewrite Ha in Hal. destruct (leading e) as [t|] eqn:El.
        + apply Forall_inv in Hal. simpl in Hal. destruct Hal as [Hok Hfc].
          eapply wp_mono; [apply (leading_T st _ _ (S n) (memo_called_T x st HI HR) e t El Hok parent); by right|].
          intros r st' (I1 & F1 & y & st1 & (-> & S1 & X1) & S2 & X2 & Hrd & Hf). split_and!; [done|done|by eapply same_lo_trans|]. by eapply follow_post.
        + apply Forall_inv in Hal. destruct Hal as ((Q1 & Q2 & Q3) & Hfc).
          eapply wp_mono; [apply (PT (S n) e parent p st Q1 Q2 Q3 HI); [by eapply readyt_above|]|].
          { destruct HA as (_ & L & HL & HK & _). eapply kids_openl; [exact HL|exact HK|]. destruct x as [nd|]; simpl; [|by intros t' ?%elem_of_nil].
            intros t' ->%elem_of_list_singleton Hl. pose proof (readyt_label _ _ HR). congruence. }
          intros [b q] st' (I' & R' & S' & _ & o & Hp & Ho & l & G' & D' & _). cbn [fst snd] in *. split_and!; [done|by eapply grew_frame|done|].
          unfold bodypost. rewrite Ha. destruct o as [[j D]|].
          * exists (Some (j, D)). split_and!; [by apply tries_seed|done|]. destruct HA as (A1 & L & A2 & A3 & A4). exists (L ++ l). split.
            -- eapply kids_grew; [done|apply R'|done].
            -- apply kxs_app; [|done]. destruct (kx_ext (pub st) (pub st')) as [_ KX]; [apply R'|]. by apply KX.
          * exists None. split_and!; [apply tries_seed_next; [done|constructor]|done|]. eapply asked_plain; [done|done|done|exact G'|by apply D'].
    Qed.

    Lemma body_called_T st P K n : calledT st P K -> forall e t l, alternatives e = Follow t :: l -> Forall alt_ok (alternatives e) -> forall parent, P parent ->
      W (eval pr src n e parent p) st (fun r st' => aftercall st parent K (bodypost e parent r st') st').
    Proof.
      intros Hc. induction n as [|n IH]; intros e t l Ht Hal parent HP; [done|]. destruct (single_cases inv nr nf e) as [(a & b & ->)|[(a & ->)|Ha]].
      - simpl in Ht, Hal |- *. apply Forall_app in Hal as [P1 P2]. destruct (alternatives_cons inv nr nf a) as (a1 & la & Ea).
        assert (a1 = Follow t) as -> by (rewrite Ea in Ht; by injection Ht).
        unfold ordered_choice_kernel. apply wp_bind. eapply wp_mono; [by apply (IH a t la)|].
        intros [b1 q1] st1 (I1 & F1 & x & stx & HK & HS & HX & Hrd & o1 & X1 & E1 & Y1). cbn [fst snd] in *. destruct b1.
        + apply wp_ret. split; [done|]. split; [done|]. exists x, stx. split_and!; [done..|]. destruct o1 as [[j D]|]; [|done]. exists (Some (j, D)). split_and!; [|done|done].
          by apply (tries_app _ _ _ _ None X1).
        + destruct o1 as [[j D]|]; [done|]. apply wp_bind. eapply wp_mono; [by apply (body_ready_T n b x)|].
          intros [b2 q2] st2 (I2 & F2 & S2 & o2 & X2 & E2 & Y2). cbn [fst snd] in *.
          pose proof (tries_app _ _ _ _ _ X1 (fun _ => X2)) as X. simpl in X. assert (Xp : ext (pub st1) (pub st2)) by (by eapply frame_ext).
          destruct b2; apply wp_ret; (split; [done|]; split; [by eapply frame_trans|]; exists x, stx; split_and!; [done|by eapply same_lo_trans|by eapply ext_trans|by eapply readyt_same|by exists o2]).
      - simpl in Ht, Hal |- *. unfold subexpression_kernel. apply wp_bind. eapply wp_mono; [by apply (IH a t l)|].
        intros [b1 q1] st1 H. destruct b1; simpl; apply wp_ret; exact H.
      - rewrite Ha in Hal, Ht. destruct (leading e) as [t'|] eqn:El; [|done]. injection Ht as -> <-. apply Forall_inv in Hal. destruct Hal as [Hok Hfc].
        eapply wp_mono; [by apply (leading_T st _ _ (S n) Hc e t El Hok parent)|].
        intros r st' (I1 & F1 & y & st1 & HK & S1 & X1 & Hrd & Hf). split; [done|]. split; [done|]. exists y, st1. split_and!; [done..|]. by eapply follow_post.
    Qed.
  End body.

  (** ** Once round the cycle *)
  Lemma member_alts m nx body : pr_fn pr (m_fn m) = Some body -> alternatives inv (m_label nx) (m_fn nx) body = m_alts m ->
    Forall code_alternative (m_alts m) -> Forall alt_ok (m_alts m).
  Proof.
    intros Hb Ha Hpl. pose proof (alts_wf pr fn inv (m_label nx) (m_fn nx) body (Hwf _ _ Hb)) as Hw. rewrite Ha in Hw.
    apply list.Forall_forall. intros a Hain.
    rewrite list.Forall_forall in Hpl, Hw. specialize (Hpl a Hain). specialize (Hw a Hain).
    destruct a as [[t|]|e]; simpl in *; [destruct Hpl as (? & ? & ?); done|done|destruct Hpl as (? & ? & ?); done].
  Qed.
  Notation hd_of := (hd_of m0).
  Lemma in_inv m : m ∈ m0 :: rest -> m_label m ∈ inv.
  Proof. intros H. apply Hinv. apply elem_of_list_fmap. eauto. Qed.
  Lemma hd_in ms pre : rest = pre ++ ms -> hd_of ms ∈ m0 :: rest.
  Proof. intros ->. destruct ms as [|m ms]; simpl; [by left|]. right. apply elem_of_app. right. by left. Qed.
  Lemma linked_suffix ms last pre m : glinked (pre ++ m :: ms) last -> gmember m (match ms with n :: _ => n | [] => last end).
  Proof. clear. induction pre as [|a pre IH]; simpl; [by intros [? _]|]. intros [_ H]. auto. Qed.
  Notation passes := (passes runs p).
  Notation node_of := (node_of p).
  Notation inv_set ms := (list_to_set (r0 :: map m_label ms) : gset N).

  Lemma chain_T ms : forall pre, rest = pre ++ ms -> forall n parent st x, Inv st -> growing (inv_set ms) st ->
    remt st (m_label (hd_of rest)) x -> kidsof st parent [] ->
    W (eval pr src n (ELR inv (m_label (hd_of ms)) (m_fn (hd_of ms))) parent p) st (fun r st' => Inv st' /\ frame parent st st' /\ growing ∅ st' /\
      exists o z, tries x (m_alts m0) o /\ passes ms (node_of r0 x o) z /\ holds st' r0 (node_of r0 x o) /\ holds st' (m_label (hd_of ms)) z /\
        asked st' parent (m_label (hd_of ms)) z /\ outcome (fst r) (snd r) = end_of z).
  Proof.
    induction ms as [|m ms IH]; intros pre Epre n parent st x HI HG Hx Hkids.
    - pose proof Hlinked as [(E1 & E2 & (body & Hb & Ha) & (t & l & Ht) & Hpl) _].
      assert (Hnext : (match rest with n :: _ => n | [] => m0 end) = hd_of rest) by (by destruct rest). rewrite Hnext in Ha.
      assert (Hin0 : m0 ∈ m0 :: rest) by (by left). assert (Hinr : hd_of rest ∈ m0 :: rest) by (by apply (hd_in rest [])).
      pose proof (member_alts m0 _ body Hb Ha Hpl) as Hal. rewrite <- Ha in Hal, Ht.
      cbn [ProofCycle.hd_of]. eapply wp_mono.
      { apply (call_eval_T m0 body _ parent st (fun y st2 => growing ∅ st2 /\ exists o, tries x (m_alts m0) o /\ y = node_of r0 x o) n Hb HG (in_inv _ Hin0)); [simpl; clear; set_solver|done|done|].
        intros n' k st1 I1 HG1 Hmm X1 Hk1.
        assert (HGe : growing ∅ st1). { replace (∅ : gset N) with (inv_set [] ∖ {[r0]}); [done|]. apply leibniz_equiv. clear. set_solver. }
        assert (Hrd : readyt (m_label (hd_of rest)) x st1).
        { exists ∅. split_and!; [done|clear; set_solver|clear; set_solver|]. destruct Hx as [(b & q & k' & H1 & H2)|[H1 H2]]; [left; exists b, q, k'|right]; rewrite Hmm; [|done]. split; [done|]. by eapply noded_ext. }
        eapply wp_mono.
        { eapply (body_called_T (m_label (hd_of rest)) (m_fn (hd_of rest)) (in_inv _ Hinr) st1 _ _ n' (memo_called_T _ _ (in_inv _ Hinr) x st1 I1 Hrd) body t l Ht Hal k). by left. }
        intros r st2 (I2 & F2 & x' & st1' & (-> & S1 & _) & S2 & X2 & Hrd2 & o & B & Ho & Hpost). rewrite Ha in B.
        split; [done|]. split; [done|]. exists (node_of r0 x o). split; [|split].
        - split; [|eauto]. eapply growing_same; [|exact HGe]. by eapply same_lo_trans.
        - rewrite Ho. by destruct o as [[j D]|].
        - destruct o as [[j D]|]; [|done]. destruct Hpost as (L & HL & HK). exists (first_child x ++ D), L. done. }
      intros r st' (I' & F' & y & st2 & (G2 & o & B & ->) & Ho & Hh & Hask & Eh & Ea & _). split; [done|]. split; [done|]. split.
      { destruct G2 as (A1 & A2). unfold ProofCycle.growing. by rewrite Eh, Ea. }
      exists o, (node_of r0 x o). split_and!; done.
    - assert (Hin : m ∈ m0 :: rest) by (rewrite Epre; right; apply elem_of_app; right; by left).
      pose proof Hlinked as [_ HL]. rewrite Epre in HL. apply linked_suffix in HL. change (match ms with n :: _ => n | [] => m0 end) with (hd_of ms) in HL.
      destruct HL as (E1 & E2 & (body & Hb & Ha) & (t & l & Ht) & Hpl).
      assert (Epre' : rest = (pre ++ [m]) ++ ms) by (by rewrite <- app_assoc).
      pose proof (hd_in ms _ Epre') as Hinr.
      assert (Hfresh : m_label m <> r0 /\ m_label m ∉ map m_label ms).
      { pose proof Hlabels as HN. simpl in HN. apply list.NoDup_cons in HN as [N1 N2]. rewrite Epre, map_app in N1, N2. simpl in N1, N2.
        apply NoDup_app in N2 as (_ & _ & N2). apply list.NoDup_cons in N2 as [N2 _]. split; [|done]. intros E. apply N1. rewrite <- E. apply elem_of_app. right. by left. }
      destruct Hfresh as [Hf1 Hf2].
      pose proof (member_alts m _ body Hb Ha Hpl) as Hal. rewrite <- Ha in Hal, Ht.
      assert (Hin1 : m_label m ∈ inv_set (m :: ms)) by (simpl; clear; set_solver).
      cbn [ProofCycle.hd_of]. eapply wp_mono.
      { apply (call_eval_T m body _ parent st (fun z st2 => growing ∅ st2 /\ exists o z' o', tries x (m_alts m0) o /\ passes ms (node_of r0 x o) z' /\ tries z' (m_alts m) o' /\
          z = node_of (m_label m) z' o' /\ holds st2 r0 (node_of r0 x o)) n Hb HG (in_inv _ Hin)); [done|done|done|].
        intros n' k st1 I1 HG1 Hmm X1 Hk1.
        assert (HGe : growing (inv_set ms) st1).
        { replace (inv_set ms) with (inv_set (m :: ms) ∖ {[m_label m]}); [done|]. apply leibniz_equiv. simpl.
          assert (m_label m ∉ (list_to_set (map m_label ms) : gset N)) by (by rewrite elem_of_list_to_set). clear - H Hf1. set_solver. }
        assert (Hx1 : remt st1 (m_label (hd_of rest)) x).
        { destruct Hx as [(b & q & k' & H1 & H2)|[H1 H2]]; [left; exists b, q, k'|right]; rewrite Hmm; [|done]. split; [done|]. by eapply noded_ext. }
        eapply wp_mono.
        { apply (body_called_T (m_label (hd_of ms)) (m_fn (hd_of ms)) (in_inv _ Hinr) st1 (fun k => kidsof st1 k [])
            (fun z' st2 => growing ∅ st2 /\ exists o, tries x (m_alts m0) o /\ passes ms (node_of r0 x o) z' /\ holds st2 r0 (node_of r0 x o)) n') with (t := t) (l := l); [|done..].
          intros n2 parent2 Hp2. eapply wp_mono; [by apply (IH (pre ++ [m]) Epre' n2 parent2 st1 x)|].
          intros r st2 (I2 & F2 & G2 & o & z & B1 & B2 & B3 & B4 & B5 & B6). split; [done|]. split; [done|]. exists z. split; [done|]. split; [|split; [done|split; [done|by exists o]]].
          exists ∅. split_and!; [done|clear; set_solver|clear; set_solver|by left]. }
        intros r st2 (I2 & F2 & z' & st3 & (G3 & o & B1 & B2 & B3) & S3 & X3 & Hrd & o' & B4 & Ho & Hpost). rewrite Ha in B4. split; [done|]. split; [done|].
        exists (node_of (m_label m) z' o'). split; [|split].
        - split; [by eapply growing_same|]. exists o, z', o'. split_and!; try done. eapply holds_same; [apply Hlow, in_inv; by left|exact S3|exact X3|done].
        - rewrite Ho. by destruct o' as [[j D]|].
        - destruct o' as [[j D]|]; [|done]. destruct Hpost as (L & HL & HK). exists (first_child z' ++ D), L. done. }
      intros r st' (I' & F' & z & st2 & (G2 & o & z' & o' & B1 & B2 & B3 & -> & B4) & Ho & Hh & Hask & Eh & Ea & Htr). split; [done|]. split; [done|]. split.
      { destruct G2 as (A1 & A2). unfold ProofCycle.growing. by rewrite Eh, Ea. }
      exists o, (node_of (m_label m) z' o'). split; [done|]. split; [exists z', o'; done|]. split; [by apply Htr|]. done.
  Qed.

  (** ** Growing *)
  Context (body : expr) (Hbody : pr_fn pr (m_fn m0) = Some body).
  Notation members := (m0 :: rest).
  Notation started := (started inv m0 p).
  Lemma first_body : alternatives inv (m_label (hd_of rest)) (m_fn (hd_of rest)) body = m_alts m0 /\ (exists t l, m_alts m0 = Follow t :: l) /\ Forall code_alternative (m_alts m0).
  Proof.
    pose proof Hlinked as [(_ & _ & (body' & Hb & Ha) & Ht & Hpl) _]. rewrite Hbody in Hb. injection Hb as <-.
    assert (Hnext : (match rest with n :: _ => n | [] => m0 end) = hd_of rest) by (by destruct rest). rewrite Hnext in Ha. done.
  Qed.
  Lemma one_round_T n k st x : Inv st -> growing (list_to_set inv) st -> remt st (m_label (hd_of rest)) x -> kidsof st k [] ->
    W (eval pr src n body k p) st (fun r st' => Inv st' /\ frame k st st' /\ growing ∅ st' /\
      exists o z, tries x (m_alts m0) o /\ passes rest (node_of r0 x o) z /\ holds st' r0 (node_of r0 x o) /\ holds st' (m_label (hd_of rest)) z).
  Proof.
    intros HI HG Hx Hkids. destruct first_body as (Ha & (t & l & Ht) & Hpl).
    pose proof (member_alts m0 _ body Hbody Ha Hpl) as Hal. rewrite <- Ha in Ht, Hal. pose proof (hd_in rest [] eq_refl) as Hinr.
    assert (Hinv' : (list_to_set inv : gset N) = inv_set rest).
    { apply leibniz_equiv. intros r. rewrite !elem_of_list_to_set. apply Hinv. }
    rewrite Hinv' in HG. eapply wp_mono.
    { apply (body_called_T (m_label (hd_of rest)) (m_fn (hd_of rest)) (in_inv _ Hinr) st (fun k => kidsof st k [])
        (fun z st2 => growing ∅ st2 /\ exists o, tries x (m_alts m0) o /\ passes rest (node_of r0 x o) z /\ holds st2 r0 (node_of r0 x o) /\ holds st2 (m_label (hd_of rest)) z) n) with (t := t) (l := l); [|done..].
      intros n2 parent2 Hp2. eapply wp_mono; [by apply (chain_T rest [] eq_refl n2 parent2 st x)|].
      intros r st2 (I2 & F2 & G2 & o & z & B1 & B2 & B3 & B4 & B5 & B6). split; [done|]. split; [done|]. exists z. split; [done|]. split; [|split; [done|split; [done|by exists o]]].
      exists ∅. split_and!; [done|clear; set_solver|clear; set_solver|by left]. }
    intros r st2 (I2 & F2 & z & st3 & (G3 & o & B1 & B2 & B3 & B4) & S3 & X3 & _). split; [done|]. split; [done|]. split; [by eapply growing_same|].
    exists o, z. split; [done|]. split; [done|]. split.
    - eapply holds_same; [apply Hlow, in_inv; by left|exact S3|exact X3|done].
    - eapply holds_same; [by apply Hlow, in_inv|exact S3|exact X3|done].
  Qed.

  (** What is left when the growth loop ends with [r] in state [st']. *)
  Definition GPost (prev : option (N * N)) st0 (parent : N) (L0 : list N) (r : bool * N) (y : option ptree) st' : Prop :=
    Inv st' /\ frame parent st0 st' /\ c_active (cache st') = prev /\ is_Some (c_heads (cache st') !! (r0, p)) /\
    exists lk, c_memo (cache st') !! (r0, p) = Some (fst r, snd r, lk) /\ kidsof st' parent (L0 ++ [lk]) /\ noded (pub st') r0 lk (fst r) (snd r) y.
  Notation func n := (fun k pos => eval pr src n body k pos).

  Lemma loop_step_T fuel n parent prev last lt lk ck st0 st x L0 (Q : bool * N -> pstate U -> Prop) :
    TI st0 -> kidsof st0 parent L0 -> RS st0 st -> outer st0 st -> Inv st -> started st -> remt st (m_label (hd_of rest)) x ->
    kidsof st ck [] -> p_len (pub st0) <= ck -> noded (pub st) r0 lk (fst last) (snd last) lt -> (mkey st0 lk \/ p_len (pub st0) <= lk) ->
    (forall o z st', tries x (m_alts m0) o -> passes rest (node_of r0 x o) z -> RS st0 st' -> outer st0 st' -> Inv st' -> started st' -> remt st' (m_label (hd_of rest)) z ->
      if (match end_of (node_of r0 x o) with Some q => q <=? snd last | None => true end) then (forall st'', GPost prev st0 parent L0 last lt st'' -> Q last st'')
      else forall q k' ck', end_of (node_of r0 x o) = Some q -> kidsof st' ck' [] -> p_len (pub st0) <= ck' ->
        noded (pub st') r0 k' true q (node_of r0 x o) -> (mkey st0 k' \/ p_len (pub st0) <= k') ->
        W (growth_loop fuel r0 parent p (func n) prev (true, q) k' ck') st' Q) ->
    W (growth_loop (S fuel) r0 parent p (func n) prev last lk ck) st Q.
  Proof.
    intros HI0 Hp0 HRS HOU HI [E (Ha & h & Hh & Hi & He)] Hx Hck Hcklt Hlk Hlkey HQ. cbn [growth_loop].
    assert (Hin0 : m0 ∈ m0 :: rest) by (by left). assert (Hl0 : lo r0 = false) by (by apply Hlow, in_inv).
    apply wp_bind, W_upd. intros c'. unfold reinitialize_eval_set. rewrite Hh. intros [= <-].
    match goal with |- W _ ?x _ => set (st1 := x) end.
    assert (P1 : pub st1 = pub st) by reflexivity.
    assert (M1 : c_memo (cache st1) = c_memo (cache st)) by reflexivity.
    assert (H1 : forall r i, (r, i) <> (r0, p) -> c_heads (cache st1) !! (r, i) = c_heads (cache st) !! (r, i)).
    { intros r i Hne. simpl. by rewrite lookup_insert_ne by done. }
    assert (OU1 : outer st0 st1) by (eapply outer_trans; [exact HOU|]; split; intros r i _ Hi'; [by rewrite M1|by apply H1]).
    assert (I1 : Inv st1).
    { apply (Inv_ext st); [apply (TInv_eq _ _ _ _ st); [exact P1|exact M1|apply HI]|by apply ext_eq| |exact HI].
      intros r i Hl. rewrite M1. split; [done|]. apply H1. intros [= -> ->]. congruence. }
    assert (RS1 : RS st0 st1).
    { eapply RS_trans; [exact HRS|]. apply RS_eq; [exact P1|exact M1]. }
    apply wp_bind. eapply wp_mono.
    { apply (one_round_T n ck st1 x I1); [|exact Hx|exact Hck]. split; simpl; [done|]. rewrite lookup_insert. eexists. split; [done|]. simpl. by rewrite Hi. }
    intros r st2 (I2 & F2 & G2 & o & z & B1 & B2 & (b & q & k & X3 & Hnk) & B4). apply wp_bind, W_get. unfold check. rewrite X3. cbv iota beta.
    assert (RS2 : RS st0 st2).
    { split; [eapply R_trans; [apply RS1|apply F2]|]. intros k' m' Hm'. destruct RS1 as [_ HS1]. destruct (HS1 _ _ Hm') as (m1 & Hm1 & <-). apply F2; [|done].
      assert (k' < p_len (pub st0)) by (apply HI0; eauto). lia. }
    assert (OU2 : outer st0 st2) by (eapply outer_trans; [exact OU1|apply F2]).
    apply st_update. intros nd st3 Hnd P3 C3. cbn [fst snd] in *.
    pose proof Hnk as [(nd' & Hnd' & Hnb) HX]. rewrite Hnd in Hnd'. injection Hnd' as <-.
    destruct (rewrite_I st2 st3 k nd b p q (proj1 I2) Hnd Hnb) as [T3 R3]; [|done|by rewrite C3|].
    { intros ->. destruct HX as (D & _ & HK). inversion HK as [k0 n0 D0 Hn0 Hr0 Hk0 HK0 E1 E2]; subst. rewrite Hnd in Hn0. injection Hn0 as <-. done. }
    assert (X3' : ext (pub st2) (pub st3)) by apply R3.
    assert (RS3 : RS st0 st3) by (eapply RS_trans; [exact RS2|done]).
    assert (OU3 : outer st0 st3) by (eapply outer_trans; [exact OU2|by apply outer_c]).
    assert (I3 : Inv st3) by (apply (Inv_ext st2); [done|done|by apply low_same_c|done]).
    assert (St3 : started st3). { exists ∅. destruct G2 as (A1 & A2). unfold ProofCycle.growing. by rewrite C3. }
    assert (Hz3 : remt st3 (m_label (hd_of rest)) z).
    { left. destruct B4 as (b' & q' & k' & Hz1 & Hz2). exists b', q', k'. rewrite C3. split; [done|]. by eapply noded_ext. }
    assert (Hlk3 : noded (pub st3) r0 lk (fst last) (snd last) lt).
    { eapply noded_ext; [exact X3'|]. eapply noded_ext; [by eapply frame_ext|]. exact Hlk. }
    assert (Hnk3 : noded (pub st3) r0 k b q (node_of r0 x o)) by (by eapply noded_ext).
    pose proof (noded_end _ _ _ _ _ _ _ Hnk3) as Hend.
    assert (Hopen3 : open all (pub st3) parent p) by (eapply open_ext; [apply Hp0|apply RS3]).
    assert (Hstop : (forall st'', GPost prev st0 parent L0 last lt st'' -> Q last st'') ->
      W (do _ <- upd_ctx (fun c => ctx_connect c parent lk); do _ <- upd_ctx (fun c => Ok (set_current_active_lr_position c prev));
         do _ <- upd_ctx (fun c => Ok (create_cache_entry c r0 (fst last) p (snd last) lk)); mret last) st3 Q).
    { intros H. apply st_connect. intros n4 st4 Hn4 _ P4 C4. apply st_cache; [done|]. intros st5 P5 C5. apply st_cache; [done|]. intros st6 P6 C6. apply wp_ret. apply H.
      destruct (conn_I st0 st3 st4 parent lk n4 p T3 (proj1 RS3) Hopen3) as (T4 & R4 & X4 & F4 & N4); [destruct Hlk3 as [(? & -> & _) _]; eauto|done|done|done|by rewrite C4|].
      assert (Hlk4 : noded (pub st4) r0 lk (fst last) (snd last) lt) by (by eapply noded_ext).
      assert (M6 : c_memo (cch st6) = <[(r0, p) := (fst last, snd last, lk)]> (c_memo (cch st4))) by (rewrite C6; simpl; by rewrite C5).
      assert (H6 : c_heads (cch st6) = c_heads (cch st3)) by (rewrite C6; simpl; rewrite C5; simpl; by rewrite C4).
      assert (A6 : c_active (cch st6) = prev) by (rewrite C6; simpl; by rewrite C5).
      assert (M63 : forall r i, (r, i) <> (r0, p) -> c_memo (cch st6) !! (r, i) = c_memo (cch st3) !! (r, i)) by (intros r' i Hne'; by rewrite M6, lookup_insert_ne, C4).
      pose proof (Hlo _ Hl0) as Hr0.
      destruct (ins_R prr s fn all st0 st4 st6 r0 p (fst last) (snd last) lk T4 R4) as [T6 R6]; [|done|congruence|done|].
      { split; [by destruct Hlk4|]. simpl. rewrite Hr0. by intros []. }
      assert (P6' : pub st6 = pub st4) by congruence.
      split; [apply (Inv_ext st3); [done|by rewrite P6'| |done]|].
      { intros r' i Hl. rewrite M63, H6; [done|]. intros [= -> ->]. congruence. }
      split.
      { split; [done|]. split.
        - intros k' m' Hk' Hm'. destruct RS3 as [_ HS3]. destruct (HS3 _ _ Hm') as (m3 & Hm3 & <-). exists m3. split; [|done]. rewrite P6'. by apply F4.
        - eapply outer_trans; [exact OU3|]. split; intros r' i Hl Hi'; [|by rewrite H6]. apply M63. intros [= -> ->]. destruct Hi' as [Hn|Hn]; [|done]. apply Hn. by apply in_inv. }
      split; [done|]. split; [rewrite H6; destruct St3 as (E3 & _ & h3 & Hh3 & _); eauto|].
      assert (Hlk6 : noded (pub st6) r0 lk (fst last) (snd last) lt) by (by rewrite P6').
      exists lk. split; [by rewrite M6, lookup_insert|]. split; [|done]. split; [rewrite P6'; by eapply open_ext|]. eexists. split; [rewrite P6'; exact N4|]. simpl. f_equal.
      destruct RS3 as [_ HS3]. destruct Hp0 as [_ (np & Hnp & <-)]. destruct (HS3 _ _ Hnp) as (n3 & Hn3 & E3). rewrite Hn4 in Hn3. injection Hn3 as <-. done. }
    pose proof (HQ o z) as HQ3. rewrite Hend in HQ3. destruct b; cbn [outcome negb orb] in HQ3, Hend |- *.
    - destruct (q <=? snd last) eqn:Eq.
      + apply Hstop. by apply (HQ3 st3).
      + apply st_reserve. intros st4 P4 C4. destruct (res_own st0 st3 st4 r0 T3 RS3 P4 C4) as (T4 & R4 & X4 & O4).
        apply (HQ3 st4); try done.
        * eapply outer_trans; [exact OU3|by apply outer_c].
        * apply (Inv_ext st3); [done|done|by apply low_same_c|done].
        * destruct St3 as [E4 (A1 & A2)]. exists E4. unfold ProofCycle.growing. by rewrite C4.
        * eapply remt_same; [apply Hlow, in_inv, (hd_in rest [] eq_refl)|by apply same_lo_c|exact X4|done].
        * split; [by eapply (own_open all)|]. destruct O4 as (_ & _ & Hn & _). eauto.
        * destruct O4 as (Hle & _). done.
        * by eapply noded_ext.
        * apply RS2. by exists r0, p, true, q.
    - apply Hstop. by apply (HQ3 st3).
  Qed.

  Notation grows := (grows runs p).
  Notation cycle_gives := (cycle_gives runs p).
  Lemma later_rounds_T fuel n parent prev st0 L0 : TI st0 -> kidsof st0 parent L0 -> forall t lk ck st x, RS st0 st -> outer st0 st -> Inv st -> started st -> remt st (m_label (hd_of rest)) x ->
    kidsof st ck [] -> p_len (pub st0) <= ck -> noded (pub st) r0 lk true (t_end t) (Some t) -> (mkey st0 lk \/ p_len (pub st0) <= lk) ->
    passes rest (Some t) x ->
    W (growth_loop fuel r0 parent p (func n) prev (true, t_end t) lk ck) st (fun r st' =>
      exists z, r = (true, t_end z) /\ grows members t z /\ GPost prev st0 parent L0 r (Some z) st').
  Proof.
    intros HI0 Hp0. induction fuel as [|fuel IH]; intros t lk ck st x HRS HOU HI Hst Hx Hck Hcklt Hlk Hkey Hth; [done|]. eapply loop_step_T; [done..|].
    intros o z st' B1 B2 HRS' HOU' HI' Hst' Hx'. assert (Ht : passes members (Some t) (node_of r0 x o)) by (exists x, o; done).
    destruct (node_of r0 x o) as [y|] eqn:Ey; cbn [end_of fmap option_fmap option_map snd].
    - destruct (N.leb_spec (t_end y) (t_end t)) as [Hle|Hlt].
      + intros st'' H. exists t. split; [done|]. split; [by eapply grows_stop|done].
      + intros q k' ck' [= <-] H1 H2 H3 H4. eapply wp_mono; [eapply (IH y k' ck' st' z); done|].
        intros r st'' (w & -> & H5 & H6). exists w. split; [done|]. split; [by eapply grows_more|done].
    - intros st'' H. exists t. split; [done|]. split; [by eapply grows_stop|done].
  Qed.
  Lemma all_rounds_T fuel n parent prev st0 L0 lk ck st : TI st0 -> kidsof st0 parent L0 -> RS st0 st -> outer st0 st -> Inv st -> started st ->
    c_memo (cache st) !! (m_label (hd_of rest), p) = None ->
    kidsof st ck [] -> p_len (pub st0) <= ck -> noded (pub st) r0 lk false p None -> (mkey st0 lk \/ p_len (pub st0) <= lk) ->
    W (growth_loop fuel r0 parent p (func n) prev (false, p) lk ck) st (fun r st' =>
      exists y, cycle_gives members y /\ outcome (fst r) (snd r) = end_of y /\ (fst r = false -> snd r = p) /\ GPost prev st0 parent L0 r y st').
  Proof.
    intros HI0 Hp0 HRS HOU HI Hst Hx Hck Hcklt Hlk Hkey. destruct fuel as [|fuel]; [done|].
    eapply (loop_step_T fuel n parent prev _ None lk ck st0 st None L0); [done|done|done|done|done|done|by right|done|done|done|done|].
    intros o z st' B1 B2 HRS' HOU' HI' Hst' Hx'.
    assert (Hcy : forall y, match node_of r0 None o with Some t => if t_end t <=? p then y = None else exists z, grows members t z /\ y = Some z | None => y = None end -> cycle_gives members y).
    { intros y Hy. by exists m0, rest, o. }
    destruct (node_of r0 None o) as [y|] eqn:Ey; cbn [end_of fmap option_fmap option_map snd].
    - destruct (t_end y <=? p) eqn:Ele.
      + intros st'' H. exists None. split; [by apply Hcy|]. done.
      + intros q k' ck' [= <-] H1 H2 H3 H4. eapply wp_mono; [eapply (later_rounds_T fuel n parent prev st0 L0 HI0 Hp0 y k' ck' st' z); done|].
        intros r st'' (w & -> & H5 & H6). exists (Some w). split; [apply Hcy; eauto|]. done.
    - intros st'' H. exists None. split; [by apply Hcy|]. done.
  Qed.

  (** A call of the first rule that starts to grow, outside any recursion or
      under one of a rule above. *)
  Lemma call_grows_T n parent L0 st prev : Inv st ->
    match prev with None => c_active (cache st) = None | Some a => c_active (cache st) = Some a /\ c_heads (cache st) !! (r0, p) = None /\
      exists h, c_heads (cache st) !! a = Some h /\ r0 ∉ h_involved h end ->
    (forall r, r ∈ inv -> c_memo (cache st) !! (r, p) = None) -> kidsof st parent L0 ->
    W (eval pr src n (ELR inv r0 (m_fn m0)) parent p) st (fun r st' =>
      exists y, cycle_gives members y /\ outcome (fst r) (snd r) = end_of y /\ (fst r = false -> snd r = p) /\ GPost prev st parent L0 r y st').
  Proof.
    intros HI Ha Hfresh Hkids. destruct n as [|n]; [done|]. simpl. rewrite Hbody. unfold var_name_kernel_indirect_left_recursion. apply wp_bind.
    assert (Hin0 : m0 ∈ m0 :: rest) by (by left). assert (Hl0 : lo r0 = false) by (by apply Hlow, in_inv).
    eapply (wp_mono _ _ _ (fun sh st1 => sh = (true, prev) /\ pub st1 = pub st /\ cch st1 = Cache (c_memo (cch st)) (c_heads (cch st)) (Some (r0, p)))).
    { unfold should_go_into_growth_function. apply wp_bind, W_get. unfold get_current_active_lr_position. destruct prev as [a|].
      - destruct Ha as (Ha & Hno & h & Hh & Hni). rewrite Ha. unfold check_head. rewrite Hno. apply wp_bind. unfold wp at 1, with_ctx, rule_in_involved_set. rewrite Hh. cbn [rbind sat].
        rewrite bool_decide_eq_false_2 by done. replace (PState (st_ctx st) (st_user st)) with st by (by destruct st).
        apply st_cache; [done|]. intros st1 P1 C1. apply wp_ret. split_and!; [done|done|]. by rewrite C1.
      - rewrite Ha. apply st_cache; [done|]. intros st1 P1 C1. apply wp_ret. split_and!; [done|done|]. by rewrite C1. }
    intros sh st1 (-> & P1 & C1). cbn [fst snd]. unfold growth_function.
    assert (M1 : c_memo (cch st1) = c_memo (cch st)) by (by rewrite C1).
    assert (T1 : TI st1) by (by eapply TInv_eq; [..|apply HI]).
    assert (RS1 : RS st st1) by (by apply RS_eq).
    apply st_reserve. intros st2 P2 C2. destruct (res_own st st1 st2 r0 T1 RS1 P2 C2) as (T2 & R2 & X2 & O2). set (lk := p_len (pub st1)) in *.
    apply st_update. intros n3 st3 Hn3 P3 C3. pose proof O2 as (O2a & O2b & Hn2 & _). rewrite Hn2 in Hn3. injection Hn3 as <-.
    destruct (upd_own st st2 st3 r0 lk _ false 0 0 (proj1 HI) O2 T2 R2 P3) as (T3 & R3); [by rewrite C3|].
    apply st_reserve. intros st4 P4 C4. destruct (res_own st st3 st4 r0 T3 R3 P4 C4) as (T4 & R4 & X4 & O4). set (ck := p_len (pub st3)) in *.
    apply st_cache; [done|]. intros st5 P5 C5.
    assert (M5 : c_memo (cch st5) = c_memo (cch st)) by (rewrite C5; simpl; by rewrite C4, C3, C2).
    assert (A5 : c_active (cache st5) = Some (r0, p)) by (rewrite C5; simpl; by rewrite C4, C3, C2, C1).
    assert (H5 : forall r i, (r, i) <> (r0, p) -> c_heads (cache st5) !! (r, i) = c_heads (cache st) !! (r, i)).
    { intros r i Hne. rewrite C5. simpl. rewrite lookup_insert_ne by done. by rewrite C4, C3, C2, C1. }
    assert (T5 : TI st5) by (eapply TInv_eq; [exact P5| |exact T4]; by rewrite M5, C4, C3, C2, M1).
    assert (R5 : RS st st5) by (eapply RS_trans; [exact R4|]; apply RS_eq; [done|]; by rewrite M5, C4, C3, C2, M1).
    apply (all_rounds_T n n parent prev st L0 lk ck st5).
    - apply HI.
    - done.
    - done.
    - split; intros r i _ Hi; [by rewrite M5|by apply H5].
    - apply (Inv_ext st); [done|apply R5| |done]. intros r i Hl. rewrite M5. split; [done|]. apply H5. intros [= -> ->]. congruence.
    - eexists. split; [done|]. rewrite C5. simpl. rewrite lookup_insert. eexists. split; [done|]. simpl. split; [done|]. reflexivity.
    - rewrite M5. apply Hfresh, in_inv, (hd_in rest [] eq_refl).
    - split; [eapply (open_ext (pub st4)); [by eapply (own_open all)|by apply ext_eq]|].
      rewrite P5. destruct O4 as (_ & _ & Hn & _). eauto.
    - destruct O4 as (Hle & _). done.
    - eapply (noded_ext p (pub st3)); [by rewrite P5|]. split; [|done]. rewrite P3. simpl. rewrite lookup_insert. by eexists.
    - by right.
    Unshelve. exact p.
  Qed.

End gcycle.

(** ** From one level to the next *)
Section levels_proof.
  Context {U : Type} (pr : program U) (fn : N -> N) (plain : N -> bool) (Nr : N -> bool).
  Context (s : list N) (Hs : N.of_nat (length s) < u32_modulus) (Hwf : program_wf pr fn) (Hpp : plain_part pr fn plain Nr).
  Notation g := (grammar_of pr).
  Notation src := (source_new s).
  Notation all := (fun _ : N => true).
  Notation prr := (pr' pr plain).
  Notation TI := (TInv prr s fn all).
  Notation runs := (runs g s fn plain).
  Notation ext_trans := (ProofExact.ext_trans s Hs).
  Notation R_trans := (ProofExact.R_trans s Hs).
  Notation R_refl := (ProofExact.R_refl s Hs).
  Notation RS_eq := (ProofExact.RS_eq s Hs).
  Implicit Types st : pstate U.

  Fixpoint low (ls : list level) (r : N) : bool :=
    match ls with [] => plain (fn r) | c :: ls => bool_decide (r ∈ lv_inv c) || low ls r end.
  Definition label0 (c : level) : N := m_label (lv_first c).
  (** Either the first rule has not been called at [i] yet or its tree is there. *)
  Definition done_at (below : expr -> N -> answer -> Prop) (c : level) (i : N) st : Prop :=
    (c_heads (cache st) !! (label0 c, i) = None /\ forall r, r ∈ lv_inv c -> c_memo (cache st) !! (r, i) = None) \/
    (is_Some (c_heads (cache st) !! (label0 c, i)) /\ exists y b q k, cycle_gives below i (lv_members c) y /\
      c_memo (cache st) !! (label0 c, i) = Some (b, q, k) /\ noded i (pub st) (label0 c) k b q y /\ outcome b q = end_of y /\ (b = false -> q = i)).
  Fixpoint LIs (ls : list level) st : Prop :=
    match ls with [] => memo_plain pr fn plain s st | c :: ls => LIs ls st /\ forall i, done_at (runs ls) c i st end.

  Lemma low_plain ls r : low ls r = false -> plain (fn r) = false.
  Proof using. clear. induction ls as [|c ls IH]; simpl; [done|]. intros [_ H]%orb_false_iff. by apply IH. Qed.
  Lemma noded_keeps st st' r i b q k y : keeps st st' -> c_memo (cache st) !! (r, i) = Some (b, q, k) -> noded i (pub st) r k b q y -> noded i (pub st') r k b q y.
  Proof using.
    clear. intros [HK HR] Hm [(n & Hn & Hb) HX]. split.
    - destruct (HR k n) as (n' & Hn' & E); [by exists r, i, b, q|done|]. exists n'. split; [done|congruence].
    - destruct b; [|done]. destruct HX as (D & H1 & H2). exists D. split; [done|]. by apply HK.
  Qed.
  Lemma done_keeps below c i st st' : keeps st st' -> c_heads (cache st') !! (label0 c, i) = c_heads (cache st) !! (label0 c, i) ->
    (forall r, r ∈ lv_inv c -> c_memo (cache st') !! (r, i) = c_memo (cache st) !! (r, i)) -> label0 c ∈ lv_inv c -> done_at below c i st -> done_at below c i st'.
  Proof using.
    clear. intros HK HH HM H0 [[H1 H2]|(H1 & y & b & q & k & H2 & H3 & H4 & H5 & H6)].
    - left. rewrite HH. split; [done|]. intros r Hr. rewrite HM by done. by apply H2.
    - right. rewrite HH. split; [done|]. exists y, b, q, k. rewrite HM by done. split_and!; try done. by eapply noded_keeps.
  Qed.
  Lemma label0_inv c ls : level_ok pr fn plain Nr c ls -> label0 c ∈ lv_inv c.
  Proof using. clear. intros H. apply (lo_involved _ _ _ _ _ _ H). by left. Qed.
  Lemma LIs_step ls : levels_ok pr fn plain Nr ls -> forall st st1, LIs ls st -> keeps st st1 -> low_same (low ls) st st1 -> LIs ls st1.
  Proof using.
    clear. induction ls as [|c ls IH]; simpl; intros HO st st1 HL HK HS.
    - intros r i b q k Hk Hp. destruct (HS r i Hp) as [HM _]. rewrite HM in Hk. by eapply HL.
    - destruct HO as [Hc HO], HL as [HL HD]. split; [eapply IH; [done|exact HL|done|]|].
      + intros r i Hr. apply HS. simpl. by rewrite Hr, orb_true_r.
      + intros i. assert (Hin : forall r, r ∈ lv_inv c -> low (c :: ls) r = true) by (intros r Hr; simpl; by rewrite bool_decide_eq_true_2).
        eapply done_keeps; [done| | |by eapply label0_inv|apply HD].
        * apply HS, Hin. by eapply label0_inv.
        * intros r Hr. by apply HS, Hin.
  Qed.

  (** What the answers look like. *)
  Definition sized (run : expr -> N -> answer -> Prop) : Prop := forall e i j D, run e i (Some (j, D)) -> i <= j /\ forall t, t ∈ D -> t_end t <= j.
  Lemma cycle_longer run i ms y t : cycle_gives run i ms y -> y = Some t -> i < t_end t.
  Proof using.
    clear. intros (m & rest & o & _ & _ & H) ->. destruct (node_of i (m_label m) None o) as [x|]; [|done]. destruct (N.leb_spec (t_end x) i) as [|Hlt]; [done|].
    destruct H as (z & H & [= ->]). induction H; [done|]. apply IHgrows. lia.
  Qed.
  Lemma laid_ends i j D : laid_out i j D -> forall t, t ∈ D -> t_end t <= j.
  Proof using.
    clear. induction 1 as [|i j r a z b C D Hi HC _ HD IH]; intros t Ht; [by apply elem_of_nil in Ht|]. apply elem_of_cons in Ht as [->|Ht]; [|by apply IH].
    simpl. by eapply laid_le.
  Qed.
  Lemma runs_sized ls : sized (runs ls).
  Proof using.
    clear. induction ls as [|c ls IH].
    - intros e i j D [_ H]. apply deriv_laid in H. split; [by eapply laid_le|by apply (laid_ends i)].
    - intros e i j D H. remember (Some (j, D)) as o eqn:Eo. revert j D Eo. induction H; intros j' D' [= ]; subst; try (by apply IH in H); try (by apply IHruns_above).
      + destruct y as [t|]; [|done]. injection H0 as <- <-. pose proof (cycle_longer _ _ _ _ _ H eq_refl). split; [lia|]. by intros t' ->%elem_of_list_singleton.
      + destruct (IHruns_above1 _ _ eq_refl) as [A1 A2], (IHruns_above2 _ _ eq_refl) as [B1 B2]. split; [lia|]. intros t [Ht|Ht]%elem_of_app; [apply A2 in Ht; lia|by apply B2].
      + by apply IHruns_above2.
  Qed.

  Notation LV ls := (LInv pr fn plain s (LIs ls)).
  Notation LP ls := (LPost pr fn plain Nr s (low ls) (runs ls) (LIs ls)).
  Notation code ls := (level_code fn plain ls).
  Definition PTs (ls : list level) : Prop := forall n e parent pos st, code ls e -> expr_wf pr fn e -> tidy Nr e = true -> LV ls st -> above (low ls) st ->
    openl (low ls) (pub st) parent pos -> W (eval pr src n e parent pos) st (LP ls e parent pos st).
  Lemma plain_level ls e : plain_code fn plain e -> code ls e.
  Proof using. clear. destruct e; by left. Qed.
  Lemma code_seq ls a b : code ls (ESeq a b) -> code ls a /\ code ls b.
  Proof using. clear. intros [[H1 H2]|H]; [|done]. split; by apply plain_level. Qed.
  Lemma level_0 e : code [] e -> plain_code fn plain e.
  Proof using.
    clear. induction e; simpl; intros [He|He]; try done.
    - destruct He as [H1 H2]. split; auto.
    - destruct He as [H1 H2]. split; auto.
    - auto.
    - destruct He as (? & ?%elem_of_nil & _). done.
  Qed.
  Lemma PT_0 : PTs [].
  Proof using Hs Hwf Hpp.
    intros n e parent pos st He Hw Ht HI _ HO.
    pose proof (level_0 e He) as Hc.
    eapply wp_mono; [apply (plain_T pr fn plain Nr s Hs (pp_plain _ _ _ _ Hpp) Hwf (pp_tidy _ _ _ _ Hpp) (pp_callless _ _ _ _ Hpp) n e parent pos st Hc Hw Ht HI); by eapply openl_open|].
    intros r st' (I' & R' & (S1 & S2 & S3) & Hf & Hp & l & G & H1 & H2 & H3). split; [exact I'|]. split; [done|]. split; [split_and!; [done|by intros; rewrite S1|done]|]. split; [done|].
    destruct r as [[] q]; cbn [fst snd outcome] in *.
    - destruct (H1 eq_refl) as (D & HD & HK). exists (Some (q, D)). split; [done|]. split; [done|]. by exists l.
    - exists None. split; [done|]. split; [done|]. exists l. split; [done|]. split; [by apply H2|done].
  Qed.

  Section step.
    Context (c : level) (ls : list level) (HO : levels_ok pr fn plain Nr (c :: ls)) (IHls : PTs ls).
    Notation r0 := (label0 c).
    Notation m0 := (lv_first c).
    Notation lo' := (low (c :: ls)).
    Lemma in_low r : low ls r = true -> lo' r = true.
    Proof using. clear. simpl. intros ->. by rewrite orb_true_r. Qed.
    Lemma notin_low r : lo' r = false -> low ls r = false /\ r ∉ lv_inv c.
    Proof using. clear. simpl. intros [H1 H2]%orb_false_iff. split; [done|]. by apply bool_decide_eq_false in H1. Qed.
    Lemma inv_low r : r ∈ lv_inv c -> lo' r = true.
    Proof using. clear. intros H. simpl. by rewrite bool_decide_eq_true_2. Qed.
    Lemma inv_not_below r : r ∈ lv_inv c -> low ls r = false.
    Proof using HO.
      destruct HO as [Hc HO']. intros Hr. assert (Hpl : plain (fn r) = false).
      { apply (lo_involved _ _ _ _ _ _ Hc), elem_of_list_fmap in Hr as (m & -> & Hm).
        pose proof (lo_linked _ _ _ _ _ _ Hc) as Hl. revert Hl Hm. generalize (lv_members c). clear. intros ms. generalize (lv_first c). intros last.
        induction ms as [|m' ms IH]; intros Hl Hm; [by apply elem_of_nil in Hm|]. destruct Hl as [(H1 & H2 & _) Hl]. apply elem_of_cons in Hm as [->|Hm]; [by rewrite H1|by apply IH]. }
      pose proof (lo_disjoint _ _ _ _ _ _ Hc) as Hd. clear -Hr Hpl Hd. induction ls as [|c' l IH]; simpl; [done|]. apply orb_false_iff. split.
      - apply bool_decide_eq_false. intros H. by eapply (Hd c'); [left|..].
      - apply IH. intros c2 r2 H2. apply Hd. by right.
    Qed.
    Lemma same_up st st' : same_lo (low ls) st st' -> same_lo lo' st st'.
    Proof using. clear. intros (H1 & H2 & H3). split_and!; [done|..]; intros r i [Hr _]%notin_low; auto. Qed.
    Lemma above_down st : above lo' st -> above (low ls) st.
    Proof using. clear. intros (a & h & H1 & H2 & [H3 _]%notin_low & H4). exists a, h. split_and!; try done. intros r Hr. by apply H4, in_low. Qed.
    Lemma openl_down pb parent i : openl lo' pb parent i -> openl (low ls) pb parent i.
    Proof using. clear. intros (n & H1 & H2 & H3). exists n. split; [done|]. split; [done|]. intros k m Hk Hm Hv Hl. eapply H3; [done|done|done|by apply in_low]. Qed.
    Lemma c_label0 : r0 ∈ lv_inv c.
    Proof using HO. destruct HO. by eapply label0_inv. Qed.

    (** The first call. *)
    Lemma grows_here p n parent L0 st prev : LV ls st ->
      match prev with None => c_active (cache st) = None | Some a => c_active (cache st) = Some a /\ c_heads (cache st) !! (r0, p) = None /\
        exists h, c_heads (cache st) !! a = Some h /\ r0 ∉ h_involved h end ->
      (forall r, r ∈ lv_inv c -> c_memo (cache st) !! (r, p) = None) -> kidsof p st parent L0 ->
      W (eval pr src n (lv_call c) parent p) st (fun r st' =>
        exists y, cycle_gives (runs ls) p (lv_members c) y /\ outcome (fst r) (snd r) = end_of y /\ (fst r = false -> snd r = p) /\
          GPost pr fn plain (lv_inv c) s (low ls) (LIs ls) m0 p prev st parent L0 r y st').
    Proof using HO IHls Hs Hwf Hpp.
      intros HI Hp Hf Hk. pose proof HO as [Hc HO']. pose proof (lo_linked _ _ _ _ _ _ Hc) as [(_ & _ & (body & Hb & _) & _) _].
      eapply (call_grows_T pr fn plain Nr (lv_inv c) s Hs Hwf (low ls) (low_plain ls) (code ls) (runs ls) (LIs ls) IHls); try done.
      - by apply LIs_step.
      - apply code_seq.
      - apply runs_sized.
      - intros a b i j k D1 D2 Hco. destruct ls as [|c' ls']; simpl.
        + intros [P1 H1] [P2 H2]. split; [done|]. by econstructor.
        + intros H1 H2. by econstructor.
      - intros a b i Hco. destruct ls as [|c' ls']; simpl.
        + intros [P1 H1]. split; [|by apply peg_seq_fail].
          apply code_seq in Hco as [_ Hco]. split; [done|]. by apply level_0.
        + intros H1. by constructor.
      - intros a b i j D Hco. destruct ls as [|c' ls']; simpl.
        + intros [P1 H1] [P2 H2]. split; [done|]. eapply peg_seq_ok; [|done]. by eapply deriv_peg.
        + intros H1 H2. by econstructor.
      - apply (lo_labels _ _ _ _ _ _ Hc).
      - apply (lo_involved _ _ _ _ _ _ Hc).
      - exact (lo_linked _ _ _ _ _ _ Hc).
      - apply inv_not_below.
    Qed.

    Lemma grown_done st0 st1 st2 parent L0 r y p prev : LIs (c :: ls) st0 -> (forall i, done_at (runs ls) c i st0 -> True) ->
      GPost pr fn plain (lv_inv c) s (low ls) (LIs ls) m0 p prev st0 parent L0 r y st1 -> st2 = st1 ->
      cycle_gives (runs ls) p (lv_members c) y -> outcome (fst r) (snd r) = end_of y -> (fst r = false -> snd r = p) -> LIs (c :: ls) st1.
    Proof using HO Hs.
      intros [HL HD] _ ([_ HI1] & (HR & _ & HOU1 & HOU2) & _ & Hh & lk & Hm & _ & Hn) _ Hy He Hf. split; [done|]. intros i. destruct (decide (i = p)) as [->|Hi].
      - right. split; [done|]. by exists y, (fst r), (snd r), lk.
      - eapply done_keeps; [apply keeps_ext; apply HR| | |by apply c_label0|apply HD].
        + apply HOU2; [apply inv_not_below, c_label0|]. by intros [= ->].
        + intros r' Hr'. apply HOU1; [by apply inv_not_below|by right].
    Qed.

    (** A later call. *)
    Lemma call_done p n parent st a h y b q k : LV (c :: ls) st -> c_active (cache st) = Some a -> c_heads (cache st) !! a = Some h -> r0 ∉ h_eval h ->
      is_Some (c_heads (cache st) !! (r0, p)) -> cycle_gives (runs ls) p (lv_members c) y -> c_memo (cache st) !! (r0, p) = Some (b, q, k) ->
      noded p (pub st) r0 k b q y -> outcome b q = end_of y -> openl lo' (pub st) parent p ->
      W (eval pr src n (lv_call c) parent p) st (fun r st' => r = (b, q) /\ LV (c :: ls) st' /\ R st st' /\ cache st' = cache st /\
        exists l, grew parent (pub st) (pub st') l /\ kxs (pub st') l (first_child y)).
    Proof using HO Hs.
      intros HI Ha Hh He Hhd Hy Hk Hn Hyq HOp. destruct n as [|n]; [done|]. simpl. unfold var_name_kernel_indirect_left_recursion. apply wp_bind.
      eapply (wp_mono _ _ _ (fun sh st1 => sh = (false, None) /\ st1 = st)).
      { unfold should_go_into_growth_function. apply wp_bind, W_get. unfold get_current_active_lr_position. rewrite Ha. unfold check_head. destruct Hhd as [hd Hhd].
        unfold label0 in Hhd. rewrite Hhd. by apply wp_ret. }
      intros sh st1 [-> ->]. cbn [fst snd]. apply wp_bind, W_get. unfold get_current_active_lr_position. rewrite Ha.
      apply wp_bind. unfold wp at 1, with_ctx, rule_in_eval_set. rewrite Hh. cbn [rbind sat fst snd].
      rewrite bool_decide_eq_false_2 by done. replace (PState (st_ctx st) (st_user st)) with st by (by destruct st).
      apply wp_bind, W_get. unfold check. unfold label0 in Hk. rewrite Hk. apply connect_if_st. intros nd st1 Hnd E1 HP. apply wp_ret. cbn [fst snd]. split; [done|].
      pose proof (openl_open lo' _ _ _ p HOp) as Hop.
      destruct HP as [[P1 Hin]|[Hnin P1]].
      - assert (E1m : c_memo (cch st1) = c_memo (cch st)) by (by rewrite E1).
        assert (X1 : ext (pub st) (pub st1)) by (by apply ext_eq).
        assert (T1 : TI st1) by (by eapply TInv_eq; [..|apply HI]).
        split; [split; [done|]; eapply (LIs_step (c :: ls) HO st); [apply HI|by apply keeps_ext|by apply low_same_c]|].
        split; [by apply RS_eq|]. split; [done|]. exists []. rewrite P1. split.
        { split; [|eauto]. exists nd, nd. by rewrite app_nil_r. }
        destruct y as [t|]; [|constructor]. exfalso. destruct b; [|done]. destruct Hn as [(nk & Hnk & Hb) (D & [= ->] & HX)].
        pose proof (cycle_longer _ _ _ _ _ Hy eq_refl) as Hlt. simpl in Hlt.
        destruct HOp as (nd' & Hnd' & _ & HC). rewrite Hnd in Hnd'. injection Hnd' as <-. inversion HX as [k1 n1 D1 Hn1 Hr1 Hk1 HK1 E2 E3]; subst.
        assert (n_end n1 <= n_start n1); [|lia]. eapply HC; [exact Hin|exact Hn1| |].
        + unfold visible. rewrite Hr1. simpl. apply negb_true_iff, N.eqb_neq. lia.
        + match goal with E : n_rule n1 = _ |- _ => rewrite E end. apply inv_low, c_label0.
      - destruct (ProofCycleTree.conn_I pr fn plain s Hs st st st1 parent k nd p) as (T1 & R1 & X1 & F1 & N1); [apply HI|apply R_refl|done|destruct Hn as [(? & -> & _) _]; eauto| |done|done|by rewrite E1|].
        { left. exists r0, p, b, q. done. }
        assert (Hn1 : noded p (pub st1) r0 k b q y) by (by eapply noded_ext).
        split; [split; [done|]; eapply (LIs_step (c :: ls) HO st); [apply HI|by apply keeps_ext|by apply low_same_c]|].
        split; [done|]. split; [done|]. exists [k]. split; [|by eapply noded_kxs]. split; [|eauto]. eexists _, _. split; [exact Hnd|]. split; [exact N1|done].
    Qed.

    Lemma PT_call n parent pos st : LV (c :: ls) st -> above lo' st -> openl lo' (pub st) parent pos ->
      W (eval pr src n (lv_call c) parent pos) st (LP (c :: ls) (lv_call c) parent pos st).
    Proof using HO IHls Hs Hwf Hpp.
      intros HI HA HOp. pose proof HA as (a & h & Ha & Hh & Hla & Hno). destruct (Hno r0 (inv_low _ c_label0)) as [Hni Hne].
      pose proof HI as [HT [HL HD]]. destruct (HD pos) as [[H1 H2]|(Hhd & y & b & q & k & Hy & Hk & Hn & Hyq & Hbq)].
      - assert (Hkids : exists L0, kidsof pos st parent L0).
        { pose proof HOp as (nd & Hnd & _). exists (n_children nd). split; [by eapply openl_open|]. eauto. }
        destruct Hkids as [L0 Hkids]. eapply wp_mono; [apply (grows_here pos n parent L0 st (Some a)); [by split|split_and!; eauto|done|done]|].
        intros r st' (y & Hy & He & Hf & HG). pose proof (grown_done _ _ _ _ _ _ _ _ _ (conj HL HD) (fun _ _ => I) HG eq_refl Hy He Hf) as HL'.
        destruct HG as ([HT' _] & (HR & HF & HOU1 & HOU2) & Hact & Hhd & lk & Hm & [Hop' (n' & Hn' & Hc')] & Hn).
        split; [by split|]. split; [done|]. split.
        { split; [congruence|]. split; intros r' i [Hr1 Hr2]%notin_low; [apply HOU2; [done|]|apply HOU1; [done|by left]]. intros [= -> ->]. apply Hr2, c_label0. }
        split; [done|]. exists (called_tree y). split; [by apply ra_call|]. split; [rewrite He; by destruct y|]. exists [lk]. pose proof (noded_kxs _ _ _ _ _ _ _ Hn) as HK. split.
        + split; [|exact HF]. destruct Hkids as [_ (n0 & Hn0 & <-)]. exists n0, n'. split; [done|]. by split.
        + split; [|done]. destruct y; [exact HK|intros _; exact HK].
      - eapply wp_mono; [by apply (call_done pos n parent st a h y b q k)|].
        intros r st' (-> & HI' & HR & HC & l & HG & HK). split; [done|]. split; [done|]. split; [by apply same_lo_c|]. split; [done|].
        exists (called_tree y). split; [by apply ra_call|]. split; [simpl; rewrite Hyq; by destruct y|]. exists l. split; [done|]. split; [|done]. destruct y; [exact HK|intros _; exact HK].
    Qed.

    Lemma lift n e parent pos st : code ls e -> expr_wf pr fn e -> tidy Nr e = true -> LV (c :: ls) st -> above lo' st -> openl lo' (pub st) parent pos ->
      W (eval pr src n e parent pos) st (LP (c :: ls) e parent pos st).
    Proof using HO IHls.
      intros He Hw Ht [HT [HL HD]] HA HOp. eapply wp_mono; [apply (IHls n e parent pos st He Hw Ht (conj HT HL)); [by apply above_down|by apply openl_down]|].
      intros r st' ([HT' HL'] & HR & HS & Hf & o & Ho & Hx & l & HG & HK).
      split; [split; [done|split; [done|]]|].
      { intros i. eapply done_keeps; [apply keeps_ext, HR| | |by apply c_label0|apply HD].
        - apply HS, inv_not_below, c_label0.
        - intros r' Hr'. by apply HS, inv_not_below. }
      split; [done|]. split; [by apply same_up|]. split; [done|]. exists o. split; [by apply ra_below|]. split; [done|]. by exists l.
    Qed.

    Lemma LP_sub a parent pos st (b : bool) q st' : LP (c :: ls) a parent pos st (b, q) st' -> LP (c :: ls) (ESub a) parent pos st (if b then (true, q) else (false, pos)) st'.
    Proof using.
      intros (H1 & H2 & H3 & Hf & o & H4 & H5 & l & H6 & H7 & H8). cbn [fst snd] in *.
      assert (E : (if b then (true, q) else (false, pos)) = (b, q)). { destruct b; [done|]. by rewrite Hf. }
      rewrite E. split; [done|]. split; [done|]. split; [done|]. split; [done|]. exists o. split; [by apply ra_sub|]. split; [done|]. exists l. split; [done|]. done.
    Qed.

    Lemma PT_step : PTs (c :: ls).
    Proof using HO IHls Hs Hwf Hpp.
      intros n. induction n as [|n IH]; intros e parent pos st He Hw Ht HI HA HOp; [done|].
      assert (Hpl : plain_code fn plain e -> W (eval pr src (S n) e parent pos) st (LP (c :: ls) e parent pos st)) by (intros H; apply lift; [by apply plain_level|done..]).
      destruct e as [x|x|lo1 hi1|a b|a b|a|a|a|a|a|a|r f|f|invol r f|hk a]; destruct He as [He|He]; try (by apply Hpl); try (by destruct He).
      - (* a sequence *)
        destruct He as [Ha Hb]. cbn [tidy] in Ht. apply andb_true_iff in Ht as [Ta Tb]. destruct Hw as [Wa Wb]. simpl. unfold sequence_kernel. apply wp_bind.
        eapply wp_mono; [apply (IH a parent pos st); done|]. intros [b1 q1] st1 (I1 & R1 & S1 & Hf1 & o1 & H1 & E1 & l1 & G1 & K1 & C1). cbn [fst snd] in *.
        destruct b1.
        + destruct o1 as [[j1 D1]|]; [|done]. simpl in E1. injection E1 as <-. destruct (runs_sized (c :: ls) _ _ _ _ H1) as [Hle Hends].
          apply wp_bind. eapply wp_mono; [apply (IH b parent q1 st1); [done|done|done|done|by eapply above_same|]|].
          { eapply openl_grew; [apply R1|exact HOp| |exact G1|exact K1|done|intros t Htt _; by apply Hends].
            intros k nn cc Hk Hc. destruct HI as [HT _]. apply (ti_wf _ _ _ _ _ HT). by eapply (ti_ch _ _ _ _ _ HT). }
          intros [b2 q2] st2 (I2 & R2 & S2 & Hf2 & o2 & H2 & E2 & l2 & G2 & K2 & C2). cbn [fst snd] in *.
          assert (X2 : ext (pub st1) (pub st2)) by apply R2.
          assert (RR : R st st2) by (by eapply R_trans). assert (SS : same_lo lo' st st2) by (by eapply same_lo_trans).
          pose proof (grew_trans _ _ _ _ _ _ G1 G2) as GG.
          assert (CC : callless Nr (ESeq a b) = true -> kxs (pub st2) (l1 ++ l2) []).
          { simpl. intros [U1 U2]%andb_true_iff. change (@nil ptree) with (@nil ptree ++ []). apply kxs_app; [apply (kx_ext _ _ X2); by apply C1|by apply C2]. }
          destruct b2; apply wp_ret; (split; [done|]; split; [done|]; split; [done|]; split; [done|]).
          * destruct o2 as [[j2 D2]|]; [|done]. exists (Some (j2, D1 ++ D2)). split; [by eapply ra_seq_ok|]. split; [done|]. exists (l1 ++ l2). split; [done|]. split; [|done].
            apply kxs_app; [by apply (kx_ext _ _ X2)|done].
          * destruct o2 as [[j2 D2]|]; [done|]. exists None. split; [by eapply ra_seq_2|]. split; [done|]. exists (l1 ++ l2). split; [done|]. split; [|done].
            simpl. intros [U1 U2]%andb_true_iff. change (@nil ptree) with (@nil ptree ++ []). apply kxs_app; [apply (kx_ext _ _ X2); by apply C1|by apply K2].
        + destruct o1 as [[j1 D1]|]; [done|]. apply wp_ret. split; [done|]. split; [done|]. split; [done|]. split; [done|]. exists None. split; [by apply ra_seq_1|]. split; [done|].
          exists l1. split; [done|]. split; simpl; intros [U1 U2]%andb_true_iff; by apply C1.
      - (* a choice *)
        destruct He as [Ha Hb]. cbn [tidy] in Ht. apply andb_true_iff in Ht as [[Fa Ta]%andb_true_iff Tb]. destruct Hw as [Wa Wb]. simpl. unfold ordered_choice_kernel. apply wp_bind.
        eapply wp_mono; [apply (IH a parent pos st); done|]. intros [b1 q1] st1 (I1 & R1 & S1 & Hf1 & o1 & H1 & E1 & l1 & G1 & K1 & C1). cbn [fst snd] in *.
        destruct b1.
        + destruct o1 as [[j1 D1]|]; [|done]. apply wp_ret. split; [done|]. split; [done|]. split; [done|]. split; [done|]. exists (Some (j1, D1)). split; [by apply ra_choice_1|]. split; [done|].
          exists l1. split; [done|]. split; [done|]. simpl. intros [U1 U2]%andb_true_iff. by apply C1.
        + destruct o1 as [[j1 D1]|]; [done|]. specialize (K1 Fa).
          apply wp_bind. eapply wp_mono; [apply (IH b parent pos st1); [done|done|done|done|by eapply above_same|]|].
          { eapply openl_grew; [apply R1|exact HOp| |exact G1|exact K1|done|intros t ?%elem_of_nil; done].
            intros k nn cc Hk Hc. destruct HI as [HT _]. apply (ti_wf _ _ _ _ _ HT). by eapply (ti_ch _ _ _ _ _ HT). }
          intros [b2 q2] st2 (I2 & R2 & S2 & Hf2 & o2 & H2 & E2 & l2 & G2 & K2 & C2). cbn [fst snd] in *.
          assert (X2 : ext (pub st1) (pub st2)) by apply R2.
          assert (RR : R st st2) by (by eapply R_trans). assert (SS : same_lo lo' st st2) by (by eapply same_lo_trans).
          pose proof (grew_trans _ _ _ _ _ _ G1 G2) as GG. assert (K1' : kxs (pub st2) l1 []) by (by apply (kx_ext _ _ X2)).
          assert (RC : runs (c :: ls) (EChoice a b) pos o2) by (by apply ra_choice_2).
          assert (CC : callless Nr (EChoice a b) = true -> kxs (pub st2) (l1 ++ l2) []).
          { simpl. intros [U1 U2]%andb_true_iff. change (@nil ptree) with (@nil ptree ++ []). apply kxs_app; [done|by apply C2]. }
          destruct b2; apply wp_ret; (split; [done|]; split; [done|]; split; [done|]; split; [done|]); exists o2; (split; [done|]; split; [done|]; exists (l1 ++ l2); split; [done|]; split; [|done]).
          * destruct o2 as [[j2 D2]|]; [|done]. change D2 with ([] ++ D2). by apply kxs_app.
          * destruct o2 as [[j2 D2]|]; [done|]. simpl. intros [U1 U2]%andb_true_iff. change (@nil ptree) with (@nil ptree ++ []). apply kxs_app; [done|by apply K2].
      - (* a subexpression *)
        simpl. unfold subexpression_kernel. apply wp_bind. eapply wp_mono; [by apply (IH a parent pos st)|].
        intros [b q] st1 H. apply LP_sub in H. destruct b; simpl; by apply wp_ret.
      - (* a call *)
        destruct He as (c' & Hc & Ec). apply elem_of_cons in Hc as [->|Hc].
        + rewrite Ec. by apply PT_call.
        + apply lift; try done. destruct ls; [by apply elem_of_nil in Hc|]. right. by exists c'.
    Qed.
  End step.

  Theorem PT_levels ls : levels_ok pr fn plain Nr ls -> PTs ls.
  Proof using Hs Hwf Hpp. induction ls as [|c ls IH]; intros HO; [by apply PT_0|]. apply PT_step; [done|]. apply IH, HO. Qed.
End levels_proof.
