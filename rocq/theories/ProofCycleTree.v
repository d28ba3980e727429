(** Proofs about the trees of left recursion round a cycle (SpecCycleTree.v). *)
From Verif Require Import SpecSafe SpecSession ProofBasics ProofPeg ProofSound ProofSafe ProofLR ProofLRTree ProofExact TheoremsDeriv TheoremsLRTree TheoremsExamples SpecCycleTree.
From Verif Require Import ProofCycle.
Local Open Scope N_scope.

(** ** Running only the part without left recursion *)
Section same.
  Context {S A : Type}.
  Definition msame (m m' : M S A) : Prop := forall st, m st = m' st.
End same.
Definition psame {U} (f g : parser U) : Prop := forall k i, msame (f k i) (g k i).
Lemma msame_refl {S A} (m : M S A) : msame m m.
Proof. done. Qed.
Lemma msame_bind {S A B} (m m' : M S A) (f f' : A -> M S B) : msame m m' -> (forall a, msame (f a) (f' a)) -> msame (mbind' m f) (mbind' m' f').
Proof. intros H1 H2 st. unfold mbind'. rewrite H1. destruct (m' st) as [[a st']| |]; simpl; [apply H2|done..]. Qed.
Local Ltac walk := repeat (cbv beta zeta in *; first
  [ assumption | apply msame_refl
  | match goal with
    | H : psame ?f ?g |- msame (?f _ _) (?g _ _) => apply H
    | H : forall _, _ |- msame _ _ => solve [apply H]
    | |- psame _ _ => intros ? ?
    | |- msame (mbind' _ _) (mbind' _ _) => apply msame_bind; [|intros ?]
    | |- msame (if ?b then _ else _) _ => destruct b
    | |- msame (match ?x with _ => _ end) _ => destruct x
    end ]).

Lemma wp_and {S A} (m : M S A) st (Q1 Q2 : A -> S -> Prop) : W m st Q1 -> W m st Q2 -> W m st (fun a st' => Q1 a st' /\ Q2 a st').
Proof. unfold wp. destruct (m st); simpl; auto. Qed.
Lemma wp_same {S A} (m m' : M S A) st Q : msame m m' -> W m' st Q -> W m st Q.
Proof. intros H. unfold wp. by rewrite H. Qed.

Lemma deriv_more g g' s e i j D : (forall A body, g A = Some body -> g' A = Some body) -> deriv g s e i j D -> deriv g' s e i j D.
Proof. intros H. induction 1; try (econstructor; (by eauto || (by eapply peg_more))). Qed.

Section restrict.
  Context {U : Type} (pr : program U) (fn : N -> N) (plain : N -> bool) (Nr : N -> bool).
  Context (s : list N) (Hs : N.of_nat (length s) < u32_modulus).
  Context (Hplain : forall g body, plain g = true -> pr_fn pr g = Some body -> plain_code fn plain body).
  Context (Hwf : program_wf pr fn).
  Context (Htidy : forall f e, plain f = true -> pr_fn pr f = Some e -> tidy Nr e = true).
  Context (Hcallless : forall f e, plain f = true -> pr_fn pr f = Some e -> Nr f = true -> callless Nr e = true).
  Notation g := (grammar_of pr).
  Notation src := (source_new s).
  Definition pr' : program U := Program (fun f => if plain f then pr_fn pr f else None) (fun _ _ f => f) (pr_grammar pr).
  Notation all := (fun _ : N => true).

  Lemma loop_same fuel (f f' : parser U) : psame f f' -> psame (repeat_loop fuel f) (repeat_loop fuel f').
  Proof using. intros H. induction fuel as [|n IH]; intros k i; cbn [repeat_loop]; walk. Qed.
  Lemma var_same r (f f' : parser U) : psame f f' -> psame (var_name_kernel r f) (var_name_kernel r f').
  Proof using. intros H k i. unfold var_name_kernel, memoized_behaviour, default_behaviour. walk. Qed.
  Lemma eval_same n : forall e, plain_code fn plain e -> psame (eval pr src n e) (eval pr' src n e).
  Proof using Hplain.
    induction n as [|n IH]; intros e He; [intros k i; apply msame_refl|]. cbn [eval].
    assert (Hc : forall f, plain f = true -> psame (fun key position => match pr_fn pr f with Some body => eval pr src n body key position | None => mpanic PNoFunction end)
                                   (fun key position => match pr_fn pr' f with Some body => eval pr' src n body key position | None => mpanic PNoFunction end)).
    { intros f Hf k i. simpl. rewrite Hf. destruct (pr_fn pr f) as [body|] eqn:E; [|apply msame_refl]. apply IH. by eapply Hplain. }
    destruct e; simpl in He; cbv zeta.
    - walk.
    - walk.
    - walk.
    - destruct He as [H1 H2]. pose proof (IH _ H1). pose proof (IH _ H2). unfold sequence_kernel. walk.
    - destruct He as [H1 H2]. pose proof (IH _ H1). pose proof (IH _ H2). unfold ordered_choice_kernel. walk.
    - pose proof (IH _ He). unfold and_predicate_kernel. walk.
    - pose proof (IH _ He). unfold not_predicate_kernel. walk.
    - pose proof (IH _ He). pose proof (loop_same n _ _ (IH _ He)). unfold one_or_more_kernel. walk.
    - intros k i. unfold zero_or_more_kernel. by apply loop_same, IH.
    - pose proof (IH _ He). unfold optional_kernel. walk.
    - pose proof (IH _ He). unfold subexpression_kernel. walk.
    - destruct He as [He1 He2]. by apply var_same, Hc.
    - by apply Hc.
    - done.
    - done.
  Qed.

  Lemma wf' e : plain_code fn plain e -> expr_wf pr fn e -> expr_wf pr' fn e.
  Proof using.
    induction e; simpl; try tauto.
    - intros [H1 H2]. rewrite H1, H2. tauto.
    - by intros ->.
  Qed.
  Lemma program_wf' : program_wf pr' fn.
  Proof using Hplain Hwf. intros f e Hf. simpl in Hf. destruct (plain f) eqn:E; [|done]. apply wf'; [by eapply Hplain|by eapply Hwf]. Qed.
  Lemma all_plain e : SpecLRTree.plain all e = true.
  Proof using. induction e; simpl; try done; by rewrite IHe1, IHe2. Qed.
  Lemma no_targets e : plain_code fn plain e -> lr_targets e = [].
  Proof using. induction e; simpl; try done; try tauto. all: intros [H1 H2]; by rewrite IHe1, IHe2. Qed.
  Lemma plain_ok' : plain_ok pr' all.
  Proof using Hplain.
    split; [intros; apply all_plain|]. intros f e Hf f' Hf'. simpl in Hf. destruct (plain f) eqn:E; [|done]. rewrite (no_targets e) in Hf'; [|by eapply Hplain].
    by apply elem_of_nil in Hf'.
  Qed.
  Lemma tidy' : tidy_program Nr pr'.
  Proof using Htidy Hcallless. split; intros f e Hf; simpl in Hf; destruct (plain f) eqn:E; try done; [by eapply Htidy|by eapply Hcallless]. Qed.
  Lemma grammar' A body : grammar_of pr' A = Some body -> g A = Some body.
  Proof using. unfold grammar_of. simpl. by destruct (plain A). Qed.

  Definition Inv (st : pstate U) : Prop := TInv pr' s fn all st /\ memo_plain pr fn plain s st.
  Notation same_lr := (same_lr fn plain).
  (** What running plain code does. *)
  Definition PPost (e : expr) (parent pos : N) (st : pstate U) (r : bool * N) (st' : pstate U) : Prop :=
    Inv st' /\ R st st' /\ same_lr st st' /\ (fst r = false -> snd r = pos) /\ peg g s (pexp_of e) pos (outcome (fst r) (snd r)) /\
    exists l, grew parent (pub st) (pub st') l /\
      (fst r = true -> exists D, deriv g s (pexp_of e) pos (snd r) D /\ kxs (pub st') l D) /\
      (fst r = false -> fails_clean Nr e = true -> kxs (pub st') l []) /\ (callless Nr e = true -> kxs (pub st') l []).
  Lemma plain_T n e parent pos st : plain_code fn plain e -> expr_wf pr fn e -> tidy Nr e = true -> Inv st -> open all (pub st) parent pos ->
    W (eval pr src n e parent pos) st (PPost e parent pos st).
  Proof using Hs Hplain Hwf Htidy Hcallless.
    intros He Hw Ht [HI HM] HO.
    pose proof (eval_answers pr fn plain s Hs Hplain n e He parent pos st HM) as H1.
    assert (Htg : targets_ok all e). { intros f Hf. rewrite (no_targets e He) in Hf. by apply elem_of_nil in Hf. }
    pose proof (eval_t pr' s fn all Nr Hs program_wf' (fun _ _ _ => eq_refl) plain_ok' tidy' n e (wf' e He Hw) Htg Ht st parent pos HI HO) as H2.
    eapply wp_same in H2; [|by apply (eval_same n e He)]. eapply wp_mono; [exact (wp_and _ _ _ _ H1 H2)|].
    intros r st' [(P & M' & S') (R' & I' & F' & _ & l & G' & D' & A' & B')]. split_and!; [by split|done..|].
    exists l. split; [done|]. split_and!; [|done..]. intros Hb. destruct (D' Hb) as (D & HD & HK). exists D. split; [|done].
    eapply deriv_more; [apply grammar'|]. eapply lderiv_deriv; [|exact HD|]; intros; apply all_plain.
  Qed.
End restrict.

Section cycle.
  Context {U : Type} (pr : program U) (fn : N -> N) (plain : N -> bool) (Nr : N -> bool) (inv : list N).
  Context (s : list N) (Hs : N.of_nat (length s) < u32_modulus).
  Context (m0 : member) (rest : list member) (HC : left_cycle pr fn plain inv m0 rest) (p : N).
  Context (Hwf : program_wf pr fn) (Hcc : clean_cycle pr plain Nr (m0 :: rest)).
  Notation g := (grammar_of pr).
  Notation src := (source_new s).
  Notation r0 := (m_label m0).
  Notation all := (fun _ : N => true).
  Notation prr := (pr' pr plain).
  Notation TI := (TInv prr s fn all).
  Notation Inv := (Inv pr fn plain s).
  Notation same_lr := (same_lr fn plain).
  Notation growing := (growing inv m0 p).
  Notation builds := (builds g s p).
  Notation ext_trans := (ProofExact.ext_trans s Hs).
  Notation R_trans := (ProofExact.R_trans s Hs).
  Notation R_refl := (ProofExact.R_refl s Hs).
  Notation RS_eq := (ProofExact.RS_eq s Hs).
  Notation RS_trans := (ProofExact.RS_trans s Hs).
  Notation RS_refl := (ProofExact.RS_refl s Hs).
  Notation TInv_ext := (ProofExact.TInv_ext prr s fn all Hs).
  Notation own_R := (ProofExact.own_R prr s fn all Hs).
  Notation res_own := (ProofExact.res_own prr s fn all Hs).
  Notation upd_own := (ProofExact.upd_own prr s fn all Hs).
  Notation ins_T := (ProofExact.ins_T prr s fn all).
  Implicit Types st : pstate U.

  Definition end_of (x : option ptree) : option N := t_end <$> x.
  (** The memo entry of an involved rule, and the tree of its node. *)
  Definition noded (pb : publisher) (r k : N) (b : bool) (q : N) (x : option ptree) : Prop :=
    (exists n, p_nodes pb !! k = Some n /\ n_result n = b) /\
    if b then exists D, x = Some (TNode r p q true D) /\ kx pb k (TNode r p q true D) else x = None.
  Definition holds st (r : N) (x : option ptree) : Prop :=
    exists b q k, c_memo (cache st) !! (r, p) = Some (b, q, k) /\ noded (pub st) r k b q x.
  Definition remt st (r : N) (x : option ptree) : Prop :=
    holds st r x \/ (c_memo (cache st) !! (r, p) = None /\ x = None).
  Definition kidsof st (parent : N) (L : list N) : Prop :=
    open all (pub st) parent p /\ exists n, p_nodes (pub st) !! parent = Some n /\ n_children n = L.
  Definition frame (parent : N) st st' : Prop := R st st' /\
    forall k n, k <> parent -> p_nodes (pub st) !! k = Some n -> exists n', p_nodes (pub st') !! k = Some n' /\ n_children n' = n_children n.
  Definition linked_in st (r : N) (L : list N) : Prop := forall b q k, c_memo (cache st) !! (r, p) = Some (b, q, k) -> k ∈ L.
  Definition asked st (parent r : N) (x : option ptree) : Prop :=
    remt st r x /\ exists L, kidsof st parent L /\ kxs (pub st) L (first_child x) /\ linked_in st r L.

  Lemma noded_ext pb pb' r k b q x : ext pb pb' -> noded pb r k b q x -> noded pb' r k b q x.
  Proof.
    intros HE [(n & Hn & Hb) HX]. split.
    - pose proof HE as [_ H]. destruct (H k n Hn) as (n' & l & Hn' & _ & _ & E & _). exists n'. split; [done|congruence].
    - destruct b; [|done]. destruct HX as (D & -> & HK). exists D. split; [done|]. by apply (kx_ext _ _ HE).
  Qed.
  Lemma noded_end pb r k b q x : noded pb r k b q x -> end_of x = outcome b q.
  Proof. intros [_ H]. destruct b; [destruct H as (D & -> & _)|subst x]; done. Qed.
  Lemma holds_same st st' r x : plain (fn r) = false -> same_lr st st' -> ext (pub st) (pub st') -> holds st r x -> holds st' r x.
  Proof. intros Hr (_ & _ & H) HE (b & q & k & H1 & H2). exists b, q, k. rewrite H by done. split; [done|]. by eapply noded_ext. Qed.
  Lemma remt_same st st' r x : plain (fn r) = false -> same_lr st st' -> ext (pub st) (pub st') -> remt st r x -> remt st' r x.
  Proof. intros Hr HS HE [H|[H ->]]; [left; by eapply holds_same|right]. destruct HS as (_ & _ & H3). by rewrite H3. Qed.
  Lemma linked_same st st' r L L' : plain (fn r) = false -> same_lr st st' -> L ⊆ L' -> linked_in st r L -> linked_in st' r L'.
  Proof. intros Hr (_ & _ & H) HL HX b q k Hk. apply HL. rewrite H in Hk by done. by eapply HX. Qed.
  Lemma frame_refl k st : frame k st st.
  Proof. split; [apply R_refl|]. intros k' n _ Hn. eauto. Qed.
  Lemma frame_trans k (a b c : pstate U) : frame k a b -> frame k b c -> frame k a c.
  Proof. intros [R1 F1] [R2 F2]. split; [by eapply R_trans|]. intros k' n Hk Hn. destruct (F1 k' n Hk Hn) as (n1 & H1 & <-). by apply F2. Qed.
  Lemma frame_ext k (a b : pstate U) : frame k a b -> ext (pub a) (pub b).
  Proof. by intros [[H _] _]. Qed.
  Lemma open_ext pb pb' parent i j : open all pb parent i -> ext pb pb' -> open all pb' parent j.
  Proof.
    intros (n & Hn & H0 & _) [_ HE]. destruct (HE _ _ Hn) as (n' & l & Hn' & _ & _ & E & _). exists n'. split; [done|]. split; [by rewrite E|].
    intros [f Hf]. done.
  Qed.
  Lemma kids_grew st st' parent L l : kidsof st parent L -> ext (pub st) (pub st') -> grew parent (pub st) (pub st') l -> kidsof st' parent (L ++ l).
  Proof.
    intros [HO (n & Hn & <-)] HE [(n1 & n' & Hn1 & Hn' & E) _]. split; [by eapply open_ext|]. rewrite Hn in Hn1. injection Hn1 as <-. eauto.
  Qed.
  Lemma grew_frame st st' parent l : R st st' -> grew parent (pub st) (pub st') l -> frame parent st st'.
  Proof. intros HR [_ H]. split; [done|]. intros k n Hk Hn. by apply H. Qed.

  (** Connecting a finished node to an open one. *)
  Lemma conn_I st0 st st1 parent k n pos : TI st -> R st0 st -> open all (pub st) parent pos -> is_Some (p_nodes (pub st) !! k) ->
    (mkey st0 k \/ p_len (pub st0) <= k) -> p_nodes (pub st) !! parent = Some n ->
    pub st1 = set_node (pub st) parent (with_children n (n_children n ++ [k])) -> c_memo (cch st1) = c_memo (cch st) ->
    TI st1 /\ R st0 st1 /\ ext (pub st) (pub st1) /\
    (forall k' m, k' <> parent -> p_nodes (pub st) !! k' = Some m -> p_nodes (pub st1) !! k' = Some m) /\
    p_nodes (pub st1) !! parent = Some (with_children n (n_children n ++ [k])).
  Proof.
    intros HI (HE0 & HM & HK) (n0 & Hn0 & H0 & _) Hk Hkey Hn E1 E2. rewrite Hn in Hn0. injection Hn0 as <-.
    assert (HE : ext (pub st) (pub st1)).
    { rewrite E1. split; [simpl; lia|]. intros k' m Hm. simpl. destruct (decide (k' = parent)) as [->|Hk'].
      - rewrite lookup_insert. simplify_eq. eexists _, [k]. split; [done|]. simpl. split_and!; try done. intros Hr Hp0. by apply H0 in Hr.
      - rewrite lookup_insert_ne by done. exists m, []. by rewrite app_nil_r. }
    split_and!.
    - eapply TInv_ext; [done| | |done|done].
      + rewrite E1. apply pub_wf_set; [apply HI|]. apply HI. eauto.
      + intros k' m c Hm Hc. rewrite E1 in Hm |- *. simpl in *. apply lookup_insert_Some in Hm as [[-> <-]|[_ Hm]]; [|by eapply (ti_ch _ _ _ _ _ HI)].
        simpl in Hc. apply elem_of_app in Hc as [Hc|Hc%elem_of_list_singleton]; [by eapply (ti_ch _ _ _ _ _ HI)|subst c; by apply HI].
    - split; [by eapply ext_trans|]. split.
      + intros k' Hk'. apply HM. by eapply mkey_eq.
      + intros k' m c Hm Hc. rewrite E1 in Hm. simpl in Hm. apply lookup_insert_Some in Hm as [[-> <-]|[_ Hm]]; [|by eapply HK].
        simpl in Hc. apply elem_of_app in Hc as [Hc|Hc%elem_of_list_singleton]; [by eapply HK|subst c; by right].
    - done.
    - intros k' m Hne Hm. rewrite E1. simpl. by rewrite lookup_insert_ne.
    - rewrite E1. simpl. apply lookup_insert.
  Qed.
  Lemma connect_if_st {B} st k c (K : unit -> M (pstate U) B) Q :
    (forall n st1, p_nodes (pub st) !! k = Some n -> cch st1 = cch st ->
       ((pub st1 = pub st /\ c ∈ n_children n) \/ (c ∉ n_children n /\ pub st1 = set_node (pub st) k (with_children n (n_children n ++ [c])))) ->
       W (K tt) st1 Q) ->
    W (mbind' (upd_ctx (fun cx => ctx_connect_if_not_connected cx k c)) K) st Q.
  Proof.
    intros H. unfold wp, mbind', upd_ctx, with_ctx, ctx_connect_if_not_connected, connect_if_not_connected, get_node.
    destruct (p_nodes (pub st) !! k) as [n|] eqn:E; simpl; [|done].
    destruct (existsb _ _) eqn:Ex; simpl; apply (H n); try done; [left|right].
    - split; [done|]. apply existsb_exists in Ex as (x & Hx & ->%N.eqb_eq). by apply elem_of_list_In.
    - split; [|done]. intros Hin%elem_of_list_In. apply not_true_iff_false in Ex. apply Ex, existsb_exists. exists c. split; [done|]. apply N.eqb_refl.
  Qed.
  Lemma Inv_cache st st1 : TI st1 -> c_memo (cache st1) = c_memo (cache st) -> Inv st -> Inv st1.
  Proof. intros HT E [_ HM]. split; [done|]. intros r i b q k. rewrite E. apply HM. Qed.
  Lemma same_lr_c (a b : pstate U) : cache b = cache a -> same_lr a b.
  Proof. unfold ProofCycle.same_lr. by intros ->. Qed.

  Lemma noded_kxs pb r k b q x : noded pb r k b q x -> kxs pb [k] (first_child x).
  Proof.
    intros [(n & Hn & Hb) H]. destruct b.
    - destruct H as (D & -> & HK). apply kx_keep; [done|constructor].
    - subst x. eapply kx_skipk; [exact Hn| |constructor]. unfold visible. by rewrite Hb.
  Qed.

  (** A call of an involved rule that is no longer to be evaluated. *)
  Lemma call_memo_T n r f E x parent st : Inv st -> growing E st -> r ∈ inv -> plain (fn r) = false -> r ∉ E -> remt st r x ->
    (kidsof st parent [] \/ asked st parent r x) ->
    W (eval pr src n (ELR inv r f) parent p) st (fun res st' => outcome (fst res) (snd res) = end_of x /\ Inv st' /\ frame parent st st' /\ same_lr st st' /\ asked st' parent r x).
  Proof.
    intros HI HG Hr Hpl HE Hx Hkids. destruct n as [|n]; [done|]. simpl. unfold var_name_kernel_indirect_left_recursion. apply wp_bind. unfold wp at 1.
    rewrite (should_not_grow _ _ _ _ _ _ HG Hr). cbn [sat fst snd]. pose proof HG as (Ha & h & Hh & Hi & He).
    apply wp_bind, W_get. unfold get_current_active_lr_position. rewrite Ha. apply wp_bind. unfold wp at 1, with_ctx, rule_in_eval_set. rewrite Hh. cbn [rbind sat fst snd]. rewrite He.
    rewrite bool_decide_eq_false_2 by done. replace (PState (st_ctx st) (st_user st)) with st by (by destruct st).
    apply wp_bind, W_get. unfold check. pose proof Hx as Hx'. destruct Hx' as [(b & q & k & Hk & Hn)|[Hk ->]].
    - rewrite Hk. apply connect_if_st. intros nd st1 Hnd E1 HP. apply wp_ret. cbn [fst snd]. rewrite (noded_end _ _ _ _ _ _ Hn). split; [done|].
      assert (Hopen : open all (pub st) parent p) by (destruct Hkids as [[? _]|(_ & L & [? _] & _)]; done).
      destruct HP as [[P1 Hin]|[Hnin P1]].
      + destruct Hkids as [[_ (n1 & Hn1 & Hc)]|Hask].
        { rewrite Hnd in Hn1. injection Hn1 as <-. rewrite Hc in Hin. by apply elem_of_nil in Hin. }
        assert (E1m : c_memo (cch st1) = c_memo (cch st)) by (by rewrite E1).
        assert (T1 : TI st1) by (by eapply TInv_eq; [..|apply HI]).
        split; [by eapply Inv_cache|]. split.
        { split; [by apply RS_eq|]. rewrite P1. eauto. }
        split; [by apply same_lr_c|]. destruct Hask as (_ & L & [A1 A2] & A3 & A4). split.
        { left. exists b, q, k. rewrite E1, P1. done. }
        exists L. rewrite P1. split; [split; by rewrite P1|]. split; [done|]. intros b' q' k'. rewrite E1. apply A4.
      + assert (n_children nd = []) as Hc.
        { destruct Hkids as [[_ (n1 & Hn1 & Hc)]|(_ & L & [_ (n1 & Hn1 & HL)] & _ & HA)]; [rewrite Hnd in Hn1; by injection Hn1 as ->|]. exfalso. apply Hnin. rewrite Hnd in Hn1. injection Hn1 as <-. rewrite HL. by eapply HA. }
        destruct (conn_I st st st1 parent k nd p) as (T1 & R1 & X1 & F1 & N1); [apply HI|apply R_refl|done|destruct Hn as [(? & -> & _) _]; eauto| |done|done|by rewrite E1|].
        { left. exists r, p, b, q. done. }
        assert (Hn1 : noded (pub st1) r k b q x) by (by eapply noded_ext).
        split; [eapply Inv_cache; [done|by rewrite E1|done]|]. split; [split; [done|eauto]|]. split; [by apply same_lr_c|]. split.
        { left. exists b, q, k. rewrite E1. done. }
        exists [k]. split; [|split].
        * split; [by eapply open_ext|]. eexists. split; [exact N1|]. simpl. by rewrite Hc.
        * by eapply noded_kxs.
        * intros b' q' k'. rewrite E1, Hk. intros [= <- <- <-]. by left.
    - rewrite Hk. apply wp_ret. split_and!; try done; [apply frame_refl|]. split; [by right|]. destruct Hkids as [Hkids|(_ & H)]; [|done].
      exists []. split; [done|]. split; [constructor|]. intros b q k. by rewrite Hk.
  Qed.

  (** A call of an involved rule that is to be evaluated. *)
  Definition made st (r k : N) (y : option ptree) : Prop :=
    match y with Some t => exists D L, t = TNode r p (t_end t) true D /\ kidsof st k L /\ kxs (pub st) L D | None => True end.
  Lemma call_eval_T m body E parent st (K : option ptree -> pstate U -> Prop) n :
    pr_fn pr (m_fn m) = Some body -> plain (fn (m_label m)) = false ->
    growing E st -> m_label m ∈ inv -> m_label m ∈ E -> Inv st -> kidsof st parent [] ->
    (forall n k st1, Inv st1 -> growing (E ∖ {[m_label m]}) st1 -> c_memo (cache st1) = c_memo (cache st) -> ext (pub st) (pub st1) -> kidsof st1 k [] ->
      W (eval pr src n body k p) st1 (fun res st2 => Inv st2 /\ frame k st1 st2 /\ exists y, K y st2 /\ outcome (fst res) (snd res) = end_of y /\ made st2 (m_label m) k y)) ->
    W (eval pr src n (ELR inv (m_label m) (m_fn m)) parent p) st (fun res st' => Inv st' /\ frame parent st st' /\ exists y st2,
      K y st2 /\ outcome (fst res) (snd res) = end_of y /\ holds st' (m_label m) y /\ asked st' parent (m_label m) y /\
      c_heads (cache st') = c_heads (cache st2) /\ c_active (cache st') = c_active (cache st2) /\
      forall r x, r <> m_label m -> holds st2 r x -> holds st' r x).
  Proof.
    intros Hb Hpl HG Hr HE HI Hkids Hbody. destruct n as [|n]; [done|]. simpl. unfold var_name_kernel_indirect_left_recursion. apply wp_bind. unfold wp at 1.
    rewrite (should_not_grow _ _ _ _ _ _ HG Hr). cbn [sat fst snd]. pose proof HG as (Ha & h & Hh & Hi & He).
    apply wp_bind, W_get. unfold get_current_active_lr_position. rewrite Ha. apply wp_bind. unfold wp at 1, with_ctx, rule_in_eval_set. rewrite Hh. cbn [rbind sat fst snd]. rewrite He.
    rewrite bool_decide_eq_true_2 by done. replace (PState (st_ctx st) (st_user st)) with st by (by destruct st).
    apply st_reserve. intros st1 P1 C1. destruct (res_own st st st1 (m_label m) (proj1 HI) (RS_refl st) P1 C1) as (T1 & R1 & X1 & O1).
    set (k := p_len (pub st)) in *.
    apply wp_bind, W_upd. intros c' Hc'. unfold remove_from_eval_set in Hc'. rewrite C1, Hh in Hc'. injection Hc' as <-. rewrite Hb.
    match goal with |- W (mbind' _ _) ?x _ => set (st1' := x) end.
    assert (P1' : pub st1' = pub st1) by done. assert (M1' : c_memo (cch st1') = c_memo (cch st)) by (simpl; by rewrite C1).
    assert (T1' : TI st1') by (eapply TInv_eq; [exact P1'| |exact T1]; simpl; by rewrite C1).
    assert (O1' : own st st1' (m_label m) k (Node k (m_label m) 0 0 false [])) by (eapply own_eq; [exact P1'| |exact O1]; simpl; by rewrite C1).
    assert (HK1 : kidsof st1' k []). { split; [by eapply (own_open all)|]. destruct O1' as (_ & _ & Hn & _). eauto. }
    apply wp_bind. eapply wp_mono.
    { apply Hbody; [by eapply Inv_cache| |done|by rewrite P1'|done]. split; simpl; [by rewrite C1|]. rewrite lookup_insert. eexists. split; [done|]. simpl. by rewrite He. }
    intros [b q] st2 (HI2 & [HR2 HF2] & y & HKy & Hy & Hmade). cbn [fst snd] in *.
    destruct (own_R st st1' st2 (m_label m) k _ O1' T1' HR2) as (n2 & O2).
    assert (Hlt : forall k', is_Some (p_nodes (pub st) !! k') -> k' < k) by (intros k' Hk'; by apply (proj1 HI)).
    assert (RS1' : RS st st1') by (eapply RS_trans; [exact R1|]; apply RS_eq; [done|by rewrite M1', C1]).
    assert (RS2 : RS st st2).
    { split; [eapply R_trans; [apply RS1'|done]|]. intros k' m' Hm'. destruct RS1' as [_ HS1]. destruct (HS1 _ _ Hm') as (m1 & Hm1 & <-).
      apply HF2; [|done]. assert (k' < k) by (apply Hlt; eauto). lia. }
    pose proof O2 as (_ & Hnk & Hn2 & Hr2 & Hf2 & Horph).
    apply st_update. intros n3 st3 Hn3 P3 C3. rewrite Hn2 in Hn3. injection Hn3 as <-.
    destruct (upd_own st st2 st3 (m_label m) k n2 b p q (proj1 HI) O2 (proj1 HI2) RS2 P3) as (T3 & R3); [by rewrite C3|].
    destruct (kx_upd (pub st2) k n2 b p q Hn2 Hf2 Horph) as [KX KXS]. rewrite <- P3 in KX, KXS.
    assert (Hn3 : p_nodes (pub st3) !! k = Some (upd n2 b p q)) by (rewrite P3; simpl; apply lookup_insert).
    assert (Hk0 : k <> 0) by (pose proof (ti_root _ _ _ _ _ (proj1 HI)); unfold k; lia).
    assert (HN3 : noded (pub st3) (m_label m) k b q y).
    { split; [by eexists|]. destruct b; cbn [outcome] in Hy; [|by destruct y]. destruct y as [t|]; [|done]. cbn in Hy. injection Hy as Hy.
      destruct Hmade as (D & L & Ht & [_ (n2' & Hn2' & HL)] & HK). rewrite Hn2 in Hn2'. injection Hn2' as <-. rewrite <- Hy in Ht. exists D. split; [by rewrite Ht|].
      rewrite <- Hr2. change (kx (pub st3) k (TNode (n_rule (upd n2 true p q)) (n_start (upd n2 true p q)) (n_end (upd n2 true p q)) true D)).
      apply kx_node; [done|done|done|]. simpl. rewrite HL. apply KXS; [done|]. rewrite <- HL. by apply (Horph k n2). }
    apply st_cache; [done|]. intros st4 P4 C4.
    destruct (ins_T st st3 st4 (m_label m) p b q k T3 R3) as [T4 R4]; [|by right|done|by rewrite C4|].
    { split; [by eexists|]. simpl. rewrite Hpl. by intros []. }
    destruct Hkids as [Hopen (np & Hnp & Hcp)].
    assert (O4 : open all (pub st4) parent p) by (eapply open_ext; [exact Hopen|apply R4]).
    apply st_connect. intros n5 st5 Hn5 Hne P5 C5. apply wp_ret. cbn [fst snd].
    destruct (conn_I st st4 st5 parent k n5 p T4 (proj1 R4) O4) as (T5 & R5 & X5 & F5 & N5); [rewrite P4; eauto|by right|done|done|by rewrite C5|].
    assert (M5 : c_memo (cch st5) = <[(m_label m, p) := (b, q, k)]> (c_memo (cch st2))) by (rewrite C5, C4; simpl; by rewrite C3).
    assert (Hc5 : n_children n5 = []). { destruct R4 as [_ HS4]. destruct (HS4 _ _ Hnp) as (n5' & Hn5' & E5). rewrite Hn5 in Hn5'. injection Hn5' as <-. congruence. }
    assert (HN5 : noded (pub st5) (m_label m) k b q y) by (eapply noded_ext; [exact X5|by rewrite P4]).
    assert (Hh5 : holds st5 (m_label m) y) by (exists b, q, k; rewrite M5, lookup_insert; done).
    split; [split; [done|]|].
    { intros r i b' q' k'. rewrite M5, lookup_insert_Some. intros [[[= <- <-] _]|[_ H]]; [congruence|]. by eapply (proj2 HI2). }
    split.
    { split; [done|]. intros k' m' Hk' Hm'. destruct R4 as [_ HS4]. destruct (HS4 _ _ Hm') as (m4 & Hm4 & <-). exists m4. split; [|done]. by apply F5. }
    exists y, st2. split_and!; [done|done|done| |by rewrite C5, C4; simpl; rewrite C3|by rewrite C5, C4; simpl; rewrite C3|].
    - split; [by left|]. exists [k]. split; [|split; [by eapply noded_kxs|]].
      + split; [by eapply open_ext|]. eexists. split; [exact N5|]. simpl. by rewrite Hc5.
      + intros b' q' k'. rewrite M5, lookup_insert. intros [= <- <- <-]. by left.
    - intros r x Hrn (b' & q' & k' & Hk' & Hn'). exists b', q', k'. split; [rewrite M5, lookup_insert_ne; [done|congruence]|].
      eapply noded_ext; [exact X5|]. rewrite P4. destruct Hn' as [(nd & Hnd & Hnb) HX].
      assert (Hkk : k' <> k). { intros ->. apply Hnk. by exists r, p, b', q'. }
      split; [exists nd; split; [|done]; rewrite P3; simpl; by rewrite lookup_insert_ne|]. destruct b'; [|done]. destruct HX as (D & -> & HXX). exists D. split; [done|]. by apply KX.
  Qed.

  (** ** The body of a rule, the next rule being [nr] *)
  Definition tl_ok (t : option expr) : Prop :=
    match t with None => True | Some t => plain_code fn plain t /\ expr_wf pr fn t /\ tidy Nr t = true end.
  Definition tl_fc (t : option expr) : bool := match t with None => true | Some t => fails_clean Nr t end.
  Definition tl_cl (t : option expr) : bool := match t with None => true | Some t => callless Nr t end.
  Definition alt_ok (a : alternative) : Prop :=
    match a with Follow t => tl_ok t /\ tl_fc t = true | Seed e => tl_ok (Some e) /\ fails_clean Nr e = true end.
  Notation PT := (plain_T pr fn plain Nr s Hs (lc_plain _ _ _ _ _ _ HC) Hwf (cc_tidy _ _ _ _ Hcc) (cc_callless _ _ _ _ Hcc)).

  Section body.
    Context (nr nf : N) (Hnr : nr ∈ inv) (Hnp : plain (fn nr) = false).
    Notation leading := (leading inv nr nf).
    Notation alternatives := (alternatives inv nr nf).
    Definition readyt (x : option ptree) st : Prop := exists E, growing E st /\ nr ∉ E /\ remt st nr x.
    Lemma readyt_same x st st' : same_lr st st' -> ext (pub st) (pub st') -> readyt x st -> readyt x st'.
    Proof. intros HS HE (E & H1 & H2 & H3). exists E. split_and!; [by eapply growing_same|done|by eapply remt_same]. Qed.

    Definition calledT st (P : N -> Prop) (K : option ptree -> pstate U -> Prop) : Prop := forall n parent, P parent ->
      W (eval pr src n (ELR inv nr nf) parent p) st (fun r st1 => Inv st1 /\ frame parent st st1 /\
        exists x, outcome (fst r) (snd r) = end_of x /\ readyt x st1 /\ asked st1 parent nr x /\ K x st1).
    Definition aftercall st (parent : N) (K : option ptree -> pstate U -> Prop) (A : option ptree -> Prop) st' : Prop :=
      Inv st' /\ frame parent st st' /\ exists x st1, K x st1 /\ same_lr st1 st' /\ ext (pub st1) (pub st') /\ readyt x st' /\ A x.
    Definition follows_T (t : option expr) (r : bool * N) (parent : N) st' (x : option ptree) : Prop :=
      exists L, kidsof st' parent L /\ linked_in st' nr L /\
      match x with
      | None => fst r = false /\ kxs (pub st') L []
      | Some n => tail_means g s t (t_end n) (outcome (fst r) (snd r)) /\
          (fst r = true -> exists D, tail_builds g s t (t_end n) (snd r) D /\ kxs (pub st') L (n :: D)) /\
          (fst r = false -> tl_fc t = true -> kxs (pub st') L [n]) /\ (tl_cl t = true -> kxs (pub st') L [n])
      end.

    Lemma leading_T st P K n : calledT st P K -> forall e t, leading e = Some t -> tl_ok t -> forall parent, P parent ->
      W (eval pr src n e parent p) st (fun r st' => aftercall st parent K (follows_T t r parent st') st').
    Proof.
      intros Hc. induction n as [|n IH]; intros e t Ht Hok parent HP; [done|]. destruct e; try done.
      - (* sequence *)
        simpl in Ht |- *. destruct (leading e1) as [t1|] eqn:E1; [|done].
        assert (exists t2, t = Some t2 /\ tl_ok (Some e2) /\ tl_ok t1 /\ match t1 with Some t1 => t2 = ESeq t1 e2 | None => t2 = e2 end) as (t2 & -> & P2 & P1 & Et2).
        { destruct t1 as [t1|]; injection Ht as <-; simpl in Hok; [|eexists; split_and!; done]. destruct Hok as ([A1 A2] & [B1 B2] & [C1 C2]%andb_true_iff).
          eexists. split_and!; done. }
        unfold sequence_kernel. apply wp_bind. eapply wp_mono; [by apply (IH _ _ E1 P1)|].
        intros [b q] st1 (I1 & F1 & x & stx & HK & HS & HX & Hrd & L & HL & Hlk & Hm). cbn [fst snd] in Hm. destruct b; cbn [outcome] in Hm.
        + destruct x as [nd|]; [|by destruct Hm]. destruct Hm as (M1 & M2 & _ & M4). destruct (M2 eq_refl) as (D1 & HD1 & K1). clear M2.
          destruct P2 as (Q1 & Q2 & Q3). apply wp_bind. eapply wp_mono; [apply (PT n e2 parent q st1 Q1 Q2 Q3 I1)|].
          { eapply open_ext; [apply HL|split; [reflexivity|]]. intros k0 n0 Hn0. exists n0, []. by rewrite app_nil_r. }
          intros [b q2] st2 (I2 & R2 & S2 & _ & Hp2 & l & G2 & D2 & A2 & B2). cbn [fst snd] in *. assert (X2 : ext (pub st1) (pub st2)) by apply R2.
          pose proof (kids_grew _ _ _ _ _ HL X2 G2) as HL2. destruct (kx_ext _ _ X2) as [_ KX2].
          apply (wp_mono _ _ _ (fun r st' => st' = st2 /\ r = if b then (true, q2) else (false, p))); [by destruct b; apply wp_ret|].
          intros r st3 [-> ->].
          assert (Ho : outcome b q2 = outcome (fst (if b then (true, q2) else (false, p))) (snd (if b then (true, q2) else (false, p)))) by (by destruct b).
          split; [done|]. split; [eapply frame_trans; [exact F1|by eapply grew_frame]|]. exists (Some nd), stx.
          split; [done|]. split; [by eapply same_lr_trans|]. split; [by eapply ext_trans|]. split; [by eapply readyt_same|].
          exists (L ++ l). split; [done|]. split; [eapply linked_same; [done|exact S2| |exact Hlk]; set_solver|]. rewrite <- Ho.
          assert (Hfst : fst (if b then (true, q2) else (false, p)) = b) by (by destruct b). rewrite Hfst.
          split; [|split; [|split]].
          * destruct t1 as [t1|]; subst t2; simpl in M1 |- *; [by eapply peg_seq_ok|]. injection M1 as <-. done.
          * intros ->. destruct (D2 eq_refl) as (D' & HD' & K'). exists (D1 ++ D'). split.
            -- destruct t1 as [t1|]; subst t2; simpl in HD1 |- *; [by eapply dv_seq|]. destruct HD1 as [-> ->]. done.
            -- change (nd :: D1 ++ D') with ((nd :: D1) ++ D'). apply kxs_app; [by apply KX2|done].
          * intros -> Hfc. assert (Hcl : tl_cl t1 = true /\ fails_clean Nr e2 = true).
            { destruct t1 as [t1|]; subst t2; simpl in Hfc |- *; [by apply andb_true_iff in Hfc|done]. }
            destruct Hcl as [C1 C2]. change [nd] with ([nd] ++ []). apply kxs_app; [by apply KX2, M4|by apply A2].
          * intros Hcl. assert (Hcl' : tl_cl t1 = true /\ callless Nr e2 = true).
            { destruct t1 as [t1|]; subst t2; simpl in Hcl |- *; [by apply andb_true_iff in Hcl|done]. }
            destruct Hcl' as [C1 C2]. change [nd] with ([nd] ++ []). apply kxs_app; [by apply KX2, M4|by apply B2].
        + apply wp_ret. split; [done|]. split; [done|]. exists x, stx. split_and!; [done..|]. exists L. split; [done|]. split; [done|]. cbn [fst snd outcome].
          destruct x as [nd|]; [|done]. destruct Hm as (M1 & _ & _ & M4). destruct t1 as [t1|]; [|done]. subst t2. simpl in M1 |- *. split; [by apply peg_seq_fail|].
          split; [done|]. split; [intros _|]; intros [C1 C2]%andb_true_iff; by apply M4.
      - (* subexpression *)
        simpl in Ht |- *. unfold subexpression_kernel. apply wp_bind. eapply wp_mono; [by apply (IH _ _ Ht Hok)|].
        intros [b q] st' H. destruct b; simpl; apply wp_ret; [exact H|]. destruct H as (H1 & H2 & x & st1 & A & B & C & D & L & F1 & F2 & F3).
        split; [done|]. split; [done|]. exists x, st1. split; [done|]. split; [done|]. split; [done|]. split; [done|]. exists L. split; [done|]. split; [done|].
        destruct x as [nd|]; [|done]. destruct F3 as (M1 & _ & M3 & M4). split; [done|]. split; [done|]. split; [done|]. done.
      - (* the call *)
        simpl in Ht. destruct (decide _) as [(-> & -> & ->)|]; [|done]. injection Ht as <-. eapply wp_mono; [by apply Hc|].
        intros [b q] st' (H1 & H2 & x & H3 & H4 & (H5 & L & H6 & H7 & H8) & H9). cbn [fst snd] in *. split; [done|]. split; [done|]. exists x, st'.
        split; [done|]. split; [done|]. split; [split; [reflexivity|]; intros k0 n0 Hn0; exists n0, []; by rewrite app_nil_r|]. split; [done|].
        exists L. split; [done|]. split; [done|]. destruct x as [nd|]; cbn [fst snd]; [|split; [by destruct b|done]]. rewrite H3. cbn. split; [done|].
        split; [|done]. intros ->. exists []. split; [|done]. cbn in H3. by injection H3 as ->.
    Qed.

    Lemma builds_app x l1 l2 o1 o2 : builds x l1 o1 -> (o1 = None -> builds x l2 o2) -> builds x (l1 ++ l2) (match o1 with Some y => Some y | None => o2 end).
    Proof. clear. induction 1; simpl; intros H2; [by apply H2|..]; try (econstructor; by eauto). Qed.
    Definition bodypost (e : expr) (parent : N) (r : bool * N) st' (x : option ptree) : Prop :=
      exists o, builds x (alternatives e) o /\ outcome (fst r) (snd r) = fst <$> o /\
      match o with Some (j, D) => exists L, kidsof st' parent L /\ kxs (pub st') L (first_child x ++ D) | None => asked st' parent nr x end.

    Lemma follow_post t r parent st' x e : alternatives e = [Follow t] -> tl_fc t = true -> readyt x st' -> follows_T t r parent st' x -> bodypost e parent r st' x.
    Proof.
      intros Ea Hfc (E & _ & _ & Hre) (L & HL & Hlk & H). unfold bodypost. rewrite Ea. destruct r as [b q]. cbn [fst snd] in *. destruct x as [nd|].
      - destruct H as (H1 & H2 & H3 & _). destruct b; cbn [outcome] in *.
        + destruct (H2 eq_refl) as (D & HD & HK). exists (Some (q, D)). split_and!; [by eapply builds_follow|done|]. by exists L.
        + exists None. split_and!; [apply builds_follow_next; [done|constructor]|done|]. split; [done|]. exists L. split_and!; [done|by apply H3|done].
      - destruct H as [-> H]. exists None. split_and!; [apply builds_follow_next; [done|constructor]|done|]. split; [done|]. by exists L.
    Qed.
    Lemma asked_plain st st' parent x l : same_lr st st' -> R st st' -> asked st parent nr x -> grew parent (pub st) (pub st') l -> kxs (pub st') l [] -> asked st' parent nr x.
    Proof.
      intros HS HR (A1 & L & A2 & A3 & A4) HG HK. assert (X : ext (pub st) (pub st')) by apply HR. split; [by eapply remt_same|]. exists (L ++ l). split; [by eapply kids_grew|]. split.
      - rewrite <- (app_nil_r (first_child x)). apply kxs_app; [by apply (kx_ext _ _ X)|done].
      - eapply linked_same; [done|exact HS| |exact A4]. set_solver.
    Qed.
    Lemma memo_called_T x st : Inv st -> readyt x st ->
      calledT st (fun parent => kidsof st parent [] \/ asked st parent nr x) (fun y st1 => y = x /\ same_lr st st1 /\ ext (pub st) (pub st1)).
    Proof.
      intros HI HR n parent HP. pose proof HR as (E & H1 & H2 & H3). eapply wp_mono; [by eapply call_memo_T|]. intros r st' (A1 & A2 & A3 & A4 & A5).
      split; [done|]. split; [done|]. exists x. split; [done|]. assert (X : ext (pub st) (pub st')) by (by eapply frame_ext). split; [by eapply readyt_same|]. done.
    Qed.

    Lemma body_ready_T n : forall e x parent st, Forall alt_ok (alternatives e) -> Inv st -> readyt x st -> asked st parent nr x ->
      W (eval pr src n e parent p) st (fun r st' => Inv st' /\ frame parent st st' /\ same_lr st st' /\ bodypost e parent r st' x).
    Proof.
      induction n as [|n IH]; intros e x parent st Hal HI HR HA; [done|]. destruct (single_cases inv nr nf e) as [(a & b & ->)|[(a & ->)|Ha]].
      - simpl in Hal |- *. apply Forall_app in Hal as [P1 P2]. unfold ordered_choice_kernel. apply wp_bind. eapply wp_mono; [by apply (IH a x)|].
        intros [b1 q1] st1 (I1 & F1 & S1 & o1 & X1 & E1 & Y1). cbn [fst snd] in *. destruct b1.
        + apply wp_ret. split_and!; [done..|]. destruct o1 as [[j D]|]; [|done]. exists (Some (j, D)). split_and!; [|done|done].
          by apply (builds_app _ _ _ _ None X1).
        + destruct o1 as [[j D]|]; [done|]. apply wp_bind. eapply wp_mono; [apply (IH b x); [done..| |done]|].
          { eapply readyt_same; [done|by eapply frame_ext|done]. }
          intros [b2 q2] st2 (I2 & F2 & S2 & o2 & X2 & E2 & Y2). cbn [fst snd] in *.
          pose proof (builds_app _ _ _ _ _ X1 (fun _ => X2)) as X. simpl in X.
          destruct b2; apply wp_ret; (split_and!; [done|by eapply frame_trans|by eapply same_lr_trans|by exists o2]).
      - simpl in Hal |- *. unfold subexpression_kernel. apply wp_bind. eapply wp_mono; [by apply (IH a x)|].
        intros [b1 q1] st1 H. destruct b1; simpl; apply wp_ret; exact H.
      - rewrite Ha in Hal. destruct (leading e) as [t|] eqn:El.
        + apply Forall_inv in Hal. simpl in Hal. destruct Hal as [Hok Hfc].
          eapply wp_mono; [apply (leading_T st _ _ (S n) (memo_called_T x st HI HR) e t El Hok parent); by right|].
          intros r st' (I1 & F1 & y & st1 & (-> & S1 & X1) & S2 & X2 & Hrd & Hf). split_and!; [done|done|by eapply same_lr_trans|]. by eapply follow_post.
        + apply Forall_inv in Hal. destruct Hal as ((Q1 & Q2 & Q3) & Hfc).
          eapply wp_mono; [apply (PT (S n) e parent p st Q1 Q2 Q3 HI); by destruct HA as (_ & L & [? _] & _)|].
          intros [b q] st' (I' & R' & S' & _ & Hp & l & G' & D' & A' & _). cbn [fst snd] in *. split_and!; [done|by eapply grew_frame|done|].
          unfold bodypost. rewrite Ha. destruct b; cbn [outcome] in *.
          * destruct (D' eq_refl) as (D & HD & HK). exists (Some (q, D)). split_and!; [by apply builds_seed|done|]. destruct HA as (A1 & L & A2 & A3 & A4). exists (L ++ l). split.
            -- eapply kids_grew; [done|apply R'|done].
            -- apply kxs_app; [|done]. destruct (kx_ext (pub st) (pub st')) as [_ KX]; [apply R'|]. by apply KX.
          * exists None. split_and!; [apply builds_seed_next; [done|constructor]|done|]. eapply asked_plain; [done|done|done|exact G'|by apply A'].
    Qed.

    Lemma body_called_T st P K n : calledT st P K -> forall e t l, alternatives e = Follow t :: l -> Forall alt_ok (alternatives e) -> forall parent, P parent ->
      W (eval pr src n e parent p) st (fun r st' => aftercall st parent K (bodypost e parent r st') st').
    Proof.
      intros Hc. induction n as [|n IH]; intros e t l Ht Hal parent HP; [done|]. destruct (single_cases inv nr nf e) as [(a & b & ->)|[(a & ->)|Ha]].
      - simpl in Ht, Hal |- *. apply Forall_app in Hal as [P1 P2]. destruct (alternatives_cons inv nr nf a) as (a1 & la & Ea).
        assert (a1 = Follow t) as -> by (rewrite Ea in Ht; by injection Ht).
        unfold ordered_choice_kernel. apply wp_bind. eapply wp_mono; [by apply (IH a t la)|].
        intros [b1 q1] st1 (I1 & F1 & x & stx & HK & HS & HX & Hrd & o1 & X1 & E1 & Y1). cbn [fst snd] in *. destruct b1.
        + apply wp_ret. split; [done|]. split; [done|]. exists x, stx. split_and!; [done..|]. destruct o1 as [[j D]|]; [|done]. exists (Some (j, D)). split_and!; [|done|done].
          by apply (builds_app _ _ _ _ None X1).
        + destruct o1 as [[j D]|]; [done|]. apply wp_bind. eapply wp_mono; [by apply (body_ready_T n b x)|].
          intros [b2 q2] st2 (I2 & F2 & S2 & o2 & X2 & E2 & Y2). cbn [fst snd] in *.
          pose proof (builds_app _ _ _ _ _ X1 (fun _ => X2)) as X. simpl in X. assert (Xp : ext (pub st1) (pub st2)) by (by eapply frame_ext).
          destruct b2; apply wp_ret; (split; [done|]; split; [by eapply frame_trans|]; exists x, stx; split_and!; [done|by eapply same_lr_trans|by eapply ext_trans|by eapply readyt_same|by exists o2]).
      - simpl in Ht, Hal |- *. unfold subexpression_kernel. apply wp_bind. eapply wp_mono; [by apply (IH a t l)|].
        intros [b1 q1] st1 H. destruct b1; simpl; apply wp_ret; exact H.
      - rewrite Ha in Hal, Ht. destruct (leading e) as [t'|] eqn:El; [|done]. injection Ht as -> <-. apply Forall_inv in Hal. destruct Hal as [Hok Hfc].
        eapply wp_mono; [by apply (leading_T st _ _ (S n) Hc e t El Hok parent)|].
        intros r st' (I1 & F1 & y & st1 & HK & S1 & X1 & Hrd & Hf). split; [done|]. split; [done|]. exists y, st1. split_and!; [done..|]. by eapply follow_post.
    Qed.
  End body.

  (** ** Once round the cycle *)
  Lemma leading_wf r f e t : leading inv r f e = Some t -> expr_wf pr fn e -> match t with Some t => expr_wf pr fn t | None => True end.
  Proof.
    revert t. induction e; intros t Ht Hw; try done.
    - simpl in Ht, Hw. destruct Hw as [W1 W2]. destruct (leading inv r f e1) as [t1|]; [|done]. specialize (IHe1 _ eq_refl W1). destruct t1; injection Ht as <-; [split; done|done].
    - simpl in Ht, Hw. by apply IHe.
    - simpl in Ht. destruct (decide _); [|done]. by injection Ht as <-.
  Qed.
  Lemma alts_wf r f e : expr_wf pr fn e ->
    Forall (fun a => match a with Follow (Some t) => expr_wf pr fn t | Follow None => True | Seed e => expr_wf pr fn e end) (alternatives inv r f e).
  Proof.
    assert (Hone : forall e, expr_wf pr fn e ->
      Forall (fun a => match a with Follow (Some t) => expr_wf pr fn t | Follow None => True | Seed e => expr_wf pr fn e end) (match leading inv r f e with Some t => [Follow t] | None => [Seed e] end)).
    { intros e' Hw. destruct (leading inv r f e') as [t|] eqn:E; (constructor; [|constructor]); [|done]. by apply (leading_wf _ _ _ _ E). }
    induction e; intros Hw; try (by apply (Hone _ Hw)).
    - simpl in Hw |- *. destruct Hw. apply Forall_app. auto.
    - simpl in Hw |- *. auto.
  Qed.
  Lemma member_alts m nx body : m ∈ m0 :: rest -> pr_fn pr (m_fn m) = Some body -> alternatives inv (m_label nx) (m_fn nx) body = m_alts m ->
    Forall (plain_alternative fn plain) (m_alts m) -> Forall alt_ok (m_alts m).
  Proof.
    intros Hm Hb Ha Hpl. pose proof (alts_wf (m_label nx) (m_fn nx) body (Hwf _ _ Hb)) as Hw. rewrite Ha in Hw.
    pose proof (cc_alternatives _ _ _ _ Hcc m Hm) as Hcl. rewrite forallb_forall in Hcl. apply list.Forall_forall. intros a Hain.
    rewrite list.Forall_forall in Hpl, Hw. specialize (Hpl a Hain). specialize (Hw a Hain). specialize (Hcl a (proj1 (elem_of_list_In _ _) Hain)).
    destruct a as [[t|]|e]; simpl in *; [apply andb_true_iff in Hcl as [? ?]; done|done|apply andb_true_iff in Hcl as [? ?]; done].
  Qed.
  Notation hd_of := (hd_of m0).
  Notation in_inv := (in_inv pr fn plain inv m0 rest HC).
  Notation not_plain := (not_plain pr fn plain inv m0 rest HC).
  Notation hd_in := (hd_in pr fn plain inv m0 rest HC).
  Notation through_tree := (through_tree g s p).
  Notation node_of := (node_of p).

  Lemma chain_T ms : forall pre, rest = pre ++ ms -> forall n parent st x, Inv st -> growing (list_to_set (r0 :: map m_label ms)) st ->
    remt st (m_label (hd_of rest)) x -> kidsof st parent [] ->
    W (eval pr src n (ELR inv (m_label (hd_of ms)) (m_fn (hd_of ms))) parent p) st (fun r st' => Inv st' /\ frame parent st st' /\ growing ∅ st' /\
      exists o z, builds x (m_alts m0) o /\ through_tree ms (node_of r0 x o) z /\ holds st' r0 (node_of r0 x o) /\ holds st' (m_label (hd_of ms)) z /\
        asked st' parent (m_label (hd_of ms)) z /\ outcome (fst r) (snd r) = end_of z).
  Proof.
    induction ms as [|m ms IH]; intros pre Epre n parent st x HI HG Hx Hkids.
    - pose proof (lc_linked _ _ _ _ _ _ HC) as [(E1 & E2 & (body & Hb & Ha) & (t & l & Ht) & Hpl) _].
      assert (Hnext : (match rest with n :: _ => n | [] => m0 end) = hd_of rest) by (by destruct rest). rewrite Hnext in Ha.
      assert (Hin0 : m0 ∈ m0 :: rest) by (by left). assert (Hinr : hd_of rest ∈ m0 :: rest) by (by apply (hd_in rest [])).
      pose proof (member_alts m0 _ body Hin0 Hb Ha Hpl) as Hal. rewrite <- Ha in Hal, Ht.
      cbn [ProofCycle.hd_of]. eapply wp_mono.
      { apply (call_eval_T m0 body _ parent st (fun y st2 => growing ∅ st2 /\ exists o, builds x (m_alts m0) o /\ y = node_of r0 x o) n Hb (not_plain _ Hin0) HG (in_inv _ Hin0)); [set_solver|done|done|].
        intros n' k st1 I1 HG1 Hmm X1 Hk1.
        assert (HGe : growing ∅ st1). { replace (∅ : gset N) with ((list_to_set (r0 :: map m_label [])) ∖ {[r0]} : gset N); [done|]. apply leibniz_equiv. set_solver. }
        assert (Hrd : readyt (m_label (hd_of rest)) x st1).
        { exists ∅. split_and!; [done|set_solver|]. destruct Hx as [(b & q & k' & H1 & H2)|[H1 H2]]; [left; exists b, q, k'|right]; rewrite Hmm; [|done]. split; [done|]. by eapply noded_ext. }
        eapply wp_mono.
        { eapply (body_called_T (m_label (hd_of rest)) (m_fn (hd_of rest)) (in_inv _ Hinr) (not_plain _ Hinr) st1 _ _ n' (memo_called_T _ _ (in_inv _ Hinr) (not_plain _ Hinr) x st1 I1 Hrd) body t l Ht Hal k). by left. }
        intros r st2 (I2 & F2 & x' & st1' & (-> & S1 & _) & S2 & X2 & Hrd2 & o & B & Ho & Hpost). rewrite Ha in B.
        split; [done|]. split; [done|]. exists (node_of r0 x o). split; [|split].
        - split; [|eauto]. eapply growing_same; [|exact HGe]. by eapply same_lr_trans.
        - rewrite Ho. by destruct o as [[j D]|].
        - destruct o as [[j D]|]; [|done]. destruct Hpost as (L & HL & HK). exists (first_child x ++ D), L. done. }
      intros r st' (I' & F' & y & st2 & (G2 & o & B & ->) & Ho & Hh & Hask & Eh & Ea & _). split; [done|]. split; [done|]. split.
      { destruct G2 as (A1 & A2). unfold ProofCycle.growing. by rewrite Eh, Ea. }
      exists o, (node_of r0 x o). split_and!; done.
    - assert (Hin : m ∈ m0 :: rest) by (rewrite Epre; right; apply elem_of_app; right; by left).
      pose proof (lc_linked _ _ _ _ _ _ HC) as [_ HL]. rewrite Epre in HL. apply linked_suffix in HL. change (match ms with n :: _ => n | [] => m0 end) with (hd_of ms) in HL.
      destruct HL as (E1 & E2 & (body & Hb & Ha) & (t & l & Ht) & Hpl).
      assert (Epre' : rest = (pre ++ [m]) ++ ms) by (by rewrite <- app_assoc).
      pose proof (hd_in ms _ Epre') as Hinr.
      assert (Hfresh : m_label m <> r0 /\ m_label m ∉ map m_label ms).
      { pose proof (lc_labels _ _ _ _ _ _ HC) as HN. simpl in HN. apply list.NoDup_cons in HN as [N1 N2]. rewrite Epre, map_app in N1, N2. simpl in N1, N2.
        apply NoDup_app in N2 as (_ & _ & N2). apply list.NoDup_cons in N2 as [N2 _]. split; [|done]. intros E. apply N1. rewrite <- E. apply elem_of_app. right. by left. }
      destruct Hfresh as [Hf1 Hf2].
      pose proof (member_alts m _ body Hin Hb Ha Hpl) as Hal. rewrite <- Ha in Hal, Ht.
      cbn [ProofCycle.hd_of]. eapply wp_mono.
      { apply (call_eval_T m body _ parent st (fun z st2 => growing ∅ st2 /\ exists o z' o', builds x (m_alts m0) o /\ through_tree ms (node_of r0 x o) z' /\ builds z' (m_alts m) o' /\
          z = node_of (m_label m) z' o' /\ holds st2 r0 (node_of r0 x o)) n Hb (not_plain _ Hin) HG (in_inv _ Hin)); [set_solver|done|done|].
        intros n' k st1 I1 HG1 Hmm X1 Hk1.
        assert (HGe : growing (list_to_set (r0 :: map m_label ms)) st1).
        { replace (list_to_set (r0 :: map m_label ms) : gset N) with ((list_to_set (r0 :: map m_label (m :: ms))) ∖ {[m_label m]} : gset N); [done|]. apply leibniz_equiv. simpl.
          assert (m_label m ∉ (list_to_set (map m_label ms) : gset N)) by (by rewrite elem_of_list_to_set). set_solver. }
        assert (Hx1 : remt st1 (m_label (hd_of rest)) x).
        { destruct Hx as [(b & q & k' & H1 & H2)|[H1 H2]]; [left; exists b, q, k'|right]; rewrite Hmm; [|done]. split; [done|]. by eapply noded_ext. }
        eapply wp_mono.
        { apply (body_called_T (m_label (hd_of ms)) (m_fn (hd_of ms)) (in_inv _ Hinr) (not_plain _ Hinr) st1 (fun k => kidsof st1 k [])
            (fun z' st2 => growing ∅ st2 /\ exists o, builds x (m_alts m0) o /\ through_tree ms (node_of r0 x o) z' /\ holds st2 r0 (node_of r0 x o)) n') with (t := t) (l := l); [|done..].
          intros n2 parent2 Hp2. eapply wp_mono; [by apply (IH (pre ++ [m]) Epre' n2 parent2 st1 x)|].
          intros r st2 (I2 & F2 & G2 & o & z & B1 & B2 & B3 & B4 & B5 & B6). split; [done|]. split; [done|]. exists z. split; [done|]. split; [|split; [done|split; [done|by exists o]]].
          exists ∅. split_and!; [done|set_solver|by left]. }
        intros r st2 (I2 & F2 & z' & st3 & (G3 & o & B1 & B2 & B3) & S3 & X3 & Hrd & o' & B4 & Ho & Hpost). rewrite Ha in B4. split; [done|]. split; [done|].
        exists (node_of (m_label m) z' o'). split; [|split].
        - split; [by eapply growing_same|]. exists o, z', o'. split_and!; try done. eapply holds_same; [apply not_plain; by left|exact S3|exact X3|done].
        - rewrite Ho. by destruct o' as [[j D]|].
        - destruct o' as [[j D]|]; [|done]. destruct Hpost as (L & HL & HK). exists (first_child z' ++ D), L. done. }
      intros r st' (I' & F' & z & st2 & (G2 & o & z' & o' & B1 & B2 & B3 & -> & B4) & Ho & Hh & Hask & Eh & Ea & Htr). split; [done|]. split; [done|]. split.
      { destruct G2 as (A1 & A2). unfold ProofCycle.growing. by rewrite Eh, Ea. }
      exists o, (node_of (m_label m) z' o'). split; [done|]. split; [exists z', o'; done|]. split; [by apply Htr|]. done.
  Qed.

  (** ** Growing *)
  Context (body : expr) (Hbody : pr_fn pr (m_fn m0) = Some body).
  Notation members := (m0 :: rest).
  Notation started := (started inv m0 p).
  Lemma one_round_T n k st x : Inv st -> growing (list_to_set inv) st -> remt st (m_label (hd_of rest)) x -> kidsof st k [] ->
    W (eval pr src n body k p) st (fun r st' => Inv st' /\ frame k st st' /\ growing ∅ st' /\
      exists o z, builds x (m_alts m0) o /\ through_tree rest (node_of r0 x o) z /\ holds st' r0 (node_of r0 x o) /\ holds st' (m_label (hd_of rest)) z).
  Proof.
    intros HI HG Hx Hkids. destruct (first_body pr fn plain inv m0 rest HC body Hbody) as (Ha & (t & l & Ht) & Hpl).
    pose proof (member_alts m0 _ body ltac:(by left) Hbody Ha Hpl) as Hal. rewrite <- Ha in Ht, Hal. pose proof (hd_in rest [] eq_refl) as Hinr.
    assert (Hinv : (list_to_set inv : gset N) = list_to_set (r0 :: map m_label rest)).
    { apply leibniz_equiv. intros r. rewrite !elem_of_list_to_set. apply (lc_involved _ _ _ _ _ _ HC). }
    rewrite Hinv in HG. eapply wp_mono.
    { apply (body_called_T (m_label (hd_of rest)) (m_fn (hd_of rest)) (in_inv _ Hinr) (not_plain _ Hinr) st (fun k => kidsof st k [])
        (fun z st2 => growing ∅ st2 /\ exists o, builds x (m_alts m0) o /\ through_tree rest (node_of r0 x o) z /\ holds st2 r0 (node_of r0 x o) /\ holds st2 (m_label (hd_of rest)) z) n) with (t := t) (l := l); [|done..].
      intros n2 parent2 Hp2. eapply wp_mono; [by apply (chain_T rest [] eq_refl n2 parent2 st x)|].
      intros r st2 (I2 & F2 & G2 & o & z & B1 & B2 & B3 & B4 & B5 & B6). split; [done|]. split; [done|]. exists z. split; [done|]. split; [|split; [done|split; [done|by exists o]]].
      exists ∅. split_and!; [done|set_solver|by left]. }
    intros r st2 (I2 & F2 & z & st3 & (G3 & o & B1 & B2 & B3 & B4) & S3 & X3 & _). split; [done|]. split; [done|]. split; [by eapply growing_same|].
    exists o, z. split; [done|]. split; [done|]. split.
    - eapply holds_same; [apply not_plain; by left|exact S3|exact X3|done].
    - eapply holds_same; [by apply not_plain|exact S3|exact X3|done].
  Qed.

  (** Writing the values again that a finished node already has. *)
  Lemma rewrite_I st st1 k n b i q : TI st -> p_nodes (pub st) !! k = Some n -> n_result n = b -> (b = true -> n_start n = i /\ n_end n = q) ->
    pub st1 = set_node (pub st) k (upd n b i q) -> c_memo (cch st1) = c_memo (cch st) -> TI st1 /\ RS st st1.
  Proof.
    intros HI Hn Hb Hiq E E2.
    assert (Hcase : forall k' m, p_nodes (pub st) !! k' = Some m -> exists m', p_nodes (pub st1) !! k' = Some m' /\ n_children m' = n_children m).
    { intros k' m Hm. rewrite E. simpl. destruct (decide (k' = k)) as [->|Hk].
      - rewrite lookup_insert. rewrite Hn in Hm. injection Hm as <-. eauto.
      - rewrite lookup_insert_ne by done. eauto. }
    assert (Hback : forall k' m c, p_nodes (pub st1) !! k' = Some m -> c ∈ n_children m -> exists m0, p_nodes (pub st) !! k' = Some m0 /\ c ∈ n_children m0).
    { intros k' m c Hm Hc'. rewrite E in Hm. simpl in Hm. apply lookup_insert_Some in Hm as [[-> <-]|[_ Hm]]; eauto. }
    assert (HE : ext (pub st) (pub st1)).
    { rewrite E. split; [simpl; lia|]. intros k' m Hm. simpl. destruct (decide (k' = k)) as [->|Hk].
      - rewrite lookup_insert. rewrite Hn in Hm. injection Hm as <-. eexists _, []. rewrite app_nil_r. split; [done|]. simpl.
        split; [done|]. split; [done|]. split; [done|]. split; [|done]. intros Hr. rewrite Hb in Hr. destruct (Hiq Hr) as [-> ->]. done.
      - rewrite lookup_insert_ne by done. exists m, []. by rewrite app_nil_r. }
    split.
    - eapply TInv_ext; [done| | |done|done].
      + rewrite E. apply pub_wf_set; [apply HI|]. apply HI. eauto.
      + intros k' m c Hm Hc'. destruct (Hback _ _ _ Hm Hc') as (m1 & Hm1 & Hc1). rewrite E. simpl. by eapply (ti_ch _ _ _ _ _ HI).
    - split; [|exact Hcase]. split; [done|]. split; [intros k' Hk'; left; by eapply mkey_eq|]. intros k' m c Hm Hc'. left. eauto.
  Qed.

  (** What is left when the growth loop ends with [r] in state [st']. *)
  Definition GPost st0 (parent : N) (L0 : list N) (r : bool * N) (y : option ptree) st' : Prop :=
    Inv st' /\ frame parent st0 st' /\ exists lk, kidsof st' parent (L0 ++ [lk]) /\ noded (pub st') r0 lk (fst r) (snd r) y.
  Notation func n := (fun k pos => eval pr src n body k pos).

  Lemma loop_step_T fuel n parent prev last lt lk ck st0 st x L0 (Q : bool * N -> pstate U -> Prop) :
    TI st0 -> kidsof st0 parent L0 -> RS st0 st -> Inv st -> started st -> remt st (m_label (hd_of rest)) x ->
    kidsof st ck [] -> p_len (pub st0) <= ck -> noded (pub st) r0 lk (fst last) (snd last) lt -> (mkey st0 lk \/ p_len (pub st0) <= lk) ->
    (forall o z st', builds x (m_alts m0) o -> through_tree rest (node_of r0 x o) z -> RS st0 st' -> Inv st' -> started st' -> remt st' (m_label (hd_of rest)) z ->
      if (match end_of (node_of r0 x o) with Some q => q <=? snd last | None => true end) then (forall st'', GPost st0 parent L0 last lt st'' -> Q last st'')
      else forall q k' ck', end_of (node_of r0 x o) = Some q -> kidsof st' ck' [] -> p_len (pub st0) <= ck' ->
        noded (pub st') r0 k' true q (node_of r0 x o) -> (mkey st0 k' \/ p_len (pub st0) <= k') ->
        W (growth_loop fuel r0 parent p (func n) prev (true, q) k' ck') st' Q) ->
    W (growth_loop (S fuel) r0 parent p (func n) prev last lk ck) st Q.
  Proof.
    intros HI0 Hp0 HRS HI [E (Ha & h & Hh & Hi & He)] Hx Hck Hcklt Hlk Hlkey HQ. cbn [growth_loop]. apply wp_bind, W_upd. intros c'. unfold reinitialize_eval_set. rewrite Hh. intros [= <-].
    match goal with |- W _ ?x _ => set (st1 := x) end.
    assert (P1 : pub st1 = pub st) by reflexivity.
    assert (M1 : c_memo (cache st1) = c_memo (cache st)) by reflexivity.
    assert (I1 : Inv st1).
    { apply (Inv_cache st); [apply (TInv_eq _ _ _ _ st); [exact P1|exact M1|apply HI]|exact M1|exact HI]. }
    assert (RS1 : RS st0 st1).
    { eapply RS_trans; [exact HRS|]. apply RS_eq; [exact P1|exact M1]. }
    apply wp_bind. eapply wp_mono.
    { apply (one_round_T n ck st1 x I1); [|exact Hx|exact Hck]. split; simpl; [done|]. rewrite lookup_insert. eexists. split; [done|]. simpl. by rewrite Hi. }
    intros r st2 (I2 & F2 & G2 & o & z & B1 & B2 & (b & q & k & X3 & Hnk) & B4). apply wp_bind, W_get. unfold check. rewrite X3. cbv iota beta.
    assert (RS2 : RS st0 st2).
    { split; [eapply R_trans; [apply RS1|apply F2]|]. intros k' m' Hm'. destruct RS1 as [_ HS1]. destruct (HS1 _ _ Hm') as (m1 & Hm1 & <-). apply F2; [|done].
      assert (k' < p_len (pub st0)) by (apply HI0; eauto). lia. }
    apply st_update. intros nd st3 Hnd P3 C3. cbn [fst snd] in *.
    pose proof Hnk as [(nd' & Hnd' & Hnb) HX]. rewrite Hnd in Hnd'. injection Hnd' as <-.
    destruct (rewrite_I st2 st3 k nd b p q (proj1 I2) Hnd Hnb) as [T3 R3]; [|done|by rewrite C3|].
    { intros ->. destruct HX as (D & _ & HK). inversion HK as [k0 n0 D0 Hn0 Hr0 Hk0 HK0 E1 E2]; subst. rewrite Hnd in Hn0. injection Hn0 as <-. done. }
    assert (X3' : ext (pub st2) (pub st3)) by apply R3.
    assert (RS3 : RS st0 st3) by (eapply RS_trans; [exact RS2|done]).
    assert (I3 : Inv st3) by (eapply Inv_cache; [done|by rewrite C3|done]).
    assert (St3 : started st3). { exists ∅. destruct G2 as (A1 & A2). unfold ProofCycle.growing. by rewrite C3. }
    assert (Hz3 : remt st3 (m_label (hd_of rest)) z).
    { left. destruct B4 as (b' & q' & k' & H1 & H2). exists b', q', k'. rewrite C3. split; [done|]. by eapply noded_ext. }
    assert (Hlk3 : noded (pub st3) r0 lk (fst last) (snd last) lt).
    { eapply noded_ext; [exact X3'|]. eapply noded_ext; [by eapply frame_ext|]. exact Hlk. }
    assert (Hnk3 : noded (pub st3) r0 k b q (node_of r0 x o)) by (by eapply noded_ext).
    pose proof (noded_end _ _ _ _ _ _ Hnk3) as Hend.
    assert (Hopen3 : open all (pub st3) parent p) by (eapply open_ext; [apply Hp0|apply RS3]).
    assert (Hstop : (forall st'', GPost st0 parent L0 last lt st'' -> Q last st'') ->
      W (do _ <- upd_ctx (fun c => ctx_connect c parent lk); do _ <- upd_ctx (fun c => Ok (set_current_active_lr_position c prev));
         do _ <- upd_ctx (fun c => Ok (create_cache_entry c r0 (fst last) p (snd last) lk)); mret last) st3 Q).
    { intros H. apply st_connect. intros n4 st4 Hn4 _ P4 C4. apply st_cache; [done|]. intros st5 P5 C5. apply st_cache; [done|]. intros st6 P6 C6. apply wp_ret. apply H.
      destruct (conn_I st0 st3 st4 parent lk n4 p T3 (proj1 RS3) Hopen3) as (T4 & R4 & X4 & F4 & N4); [destruct Hlk3 as [(? & -> & _) _]; eauto|done|done|done|by rewrite C4|].
      assert (Hlk4 : noded (pub st4) r0 lk (fst last) (snd last) lt) by (by eapply noded_ext).
      assert (M6 : c_memo (cch st6) = <[(r0, p) := (fst last, snd last, lk)]> (c_memo (cch st4))) by (rewrite C6; simpl; by rewrite C5).
      assert (Hr0 : plain (fn r0) = false) by (apply not_plain; by left).
      destruct (ins_R prr s fn all st0 st4 st6 r0 p (fst last) (snd last) lk T4 R4) as [T6 R6]; [|done|congruence|done|].
      { split; [by destruct Hlk4|]. simpl. rewrite Hr0. by intros []. }
      assert (P6' : pub st6 = pub st4) by congruence.
      split; [split; [done|]|].
      { intros r' i b' q' k'. rewrite M6, lookup_insert_Some. intros [[[= <- <-] _]|[_ H']]; [congruence|]. rewrite C4 in H'. by eapply (proj2 I3). }
      split.
      { split; [done|]. intros k' m' Hk' Hm'. destruct RS3 as [_ HS3]. destruct (HS3 _ _ Hm') as (m3 & Hm3 & <-). exists m3. split; [|done]. rewrite P6'. by apply F4. }
      exists lk. split; [|by rewrite P6']. split; [rewrite P6'; by eapply open_ext|]. eexists. split; [rewrite P6'; exact N4|]. simpl. f_equal.
      destruct RS3 as [_ HS3]. destruct Hp0 as [_ (np & Hnp & <-)]. destruct (HS3 _ _ Hnp) as (n3 & Hn3 & E3). rewrite Hn4 in Hn3. injection Hn3 as <-. done. }
    pose proof (HQ o z) as HQ3. rewrite Hend in HQ3. destruct b; cbn [outcome negb orb] in HQ3, Hend |- *.
    - destruct (q <=? snd last) eqn:Eq.
      + apply Hstop. by apply (HQ3 st3).
      + apply st_reserve. intros st4 P4 C4. destruct (res_own st0 st3 st4 r0 T3 RS3 P4 C4) as (T4 & R4 & X4 & O4).
        apply (HQ3 st4); try done.
        * eapply Inv_cache; [done|by rewrite C4|done].
        * destruct St3 as [E4 (A1 & A2)]. exists E4. unfold ProofCycle.growing. by rewrite C4.
        * eapply remt_same; [apply not_plain, (hd_in rest [] eq_refl)|by apply same_lr_c|exact X4|done].
        * split; [by eapply (own_open all)|]. destruct O4 as (_ & _ & Hn & _). eauto.
        * destruct O4 as (Hle & _). done.
        * by eapply noded_ext.
        * apply RS2. by exists r0, p, true, q.
    - apply Hstop. by apply (HQ3 st3).
  Qed.

  Lemma later_rounds_T fuel n parent prev st0 L0 : TI st0 -> kidsof st0 parent L0 -> forall t lk ck st x, RS st0 st -> Inv st -> started st -> remt st (m_label (hd_of rest)) x ->
    kidsof st ck [] -> p_len (pub st0) <= ck -> noded (pub st) r0 lk true (t_end t) (Some t) -> (mkey st0 lk \/ p_len (pub st0) <= lk) ->
    through_tree rest (Some t) x ->
    W (growth_loop fuel r0 parent p (func n) prev (true, t_end t) lk ck) st (fun r st' =>
      exists z, r = (true, t_end z) /\ rounds_tree g s p members t z /\ GPost st0 parent L0 r (Some z) st').
  Proof.
    intros HI0 Hp0. induction fuel as [|fuel IH]; intros t lk ck st x HRS HI Hst Hx Hck Hcklt Hlk Hkey Hth; [done|]. eapply loop_step_T; [done..|].
    intros o z st' B1 B2 HRS' HI' Hst' Hx'. assert (Ht : through_tree members (Some t) (node_of r0 x o)) by (exists x, o; done).
    destruct (node_of r0 x o) as [y|] eqn:Ey; cbn [end_of fmap option_fmap option_map snd].
    - destruct (N.leb_spec (t_end y) (t_end t)) as [Hle|Hlt].
      + intros st'' H. exists t. split; [done|]. split; [by eapply rt_stop|done].
      + intros q k' ck' [= <-] H1 H2 H3 H4. eapply wp_mono; [eapply (IH y k' ck' st' z); done|].
        intros r st'' (w & -> & H5 & H6). exists w. split; [done|]. split; [by eapply rt_more|done].
    - intros st'' H. exists t. split; [done|]. split; [by eapply rt_stop|done].
  Qed.
  Lemma all_rounds_T fuel n parent prev st0 L0 lk ck st : TI st0 -> kidsof st0 parent L0 -> RS st0 st -> Inv st -> started st ->
    c_memo (cache st) !! (m_label (hd_of rest), p) = None ->
    kidsof st ck [] -> p_len (pub st0) <= ck -> noded (pub st) r0 lk false p None -> (mkey st0 lk \/ p_len (pub st0) <= lk) ->
    W (growth_loop fuel r0 parent p (func n) prev (false, p) lk ck) st (fun r st' =>
      exists y, cycle_tree g s p members y /\ outcome (fst r) (snd r) = end_of y /\ (fst r = false -> snd r = p) /\ GPost st0 parent L0 r y st').
  Proof.
    intros HI0 Hp0 HRS HI Hst Hx Hck Hcklt Hlk Hkey. destruct fuel as [|fuel]; [done|]. eapply (loop_step_T fuel n parent prev _ None lk ck st0 st None L0); [done|done|done|done|done|by right|done|done|done|done|].
    intros o z st' B1 B2 HRS' HI' Hst' Hx'.
    assert (Hcy : forall y, match node_of r0 None o with Some t => if t_end t <=? p then y = None else exists z, rounds_tree g s p members t z /\ y = Some z | None => y = None end -> cycle_tree g s p members y).
    { intros y Hy. by exists m0, rest, o. }
    destruct (node_of r0 None o) as [y|] eqn:Ey; cbn [end_of fmap option_fmap option_map snd].
    - destruct (t_end y <=? p) eqn:Ele.
      + intros st'' H. exists None. split; [by apply Hcy|]. done.
      + intros q k' ck' [= <-] H1 H2 H3 H4. eapply wp_mono; [eapply (later_rounds_T fuel n parent prev st0 L0 HI0 Hp0 y k' ck' st' z); done|].
        intros r st'' (w & -> & H5 & H6). exists (Some w). split; [apply Hcy; eauto|]. done.
    - intros st'' H. exists None. split; [by apply Hcy|]. done.
  Qed.

  (** The call of the first rule outside any left recursion. *)
  Lemma call_cycle_T n parent L0 st : Inv st -> c_active (cache st) = None -> (forall r, r ∈ inv -> c_memo (cache st) !! (r, p) = None) -> kidsof st parent L0 ->
    W (eval pr src n (ELR inv r0 (m_fn m0)) parent p) st (fun r st' =>
      exists y, cycle_tree g s p members y /\ outcome (fst r) (snd r) = end_of y /\ (fst r = false -> snd r = p) /\ GPost st parent L0 r y st').
  Proof.
    intros HI Ha Hfresh Hkids. destruct n as [|n]; [done|]. simpl. rewrite Hbody. unfold var_name_kernel_indirect_left_recursion. apply wp_bind.
    unfold should_go_into_growth_function. apply wp_bind, W_get. unfold get_current_active_lr_position. rewrite Ha.
    apply st_cache; [done|]. intros st1 P1 C1. apply wp_ret. cbn [fst snd]. unfold growth_function.
    assert (M1 : c_memo (cch st1) = c_memo (cch st)) by (by rewrite C1).
    assert (T1 : TI st1) by (by eapply TInv_eq; [..|apply HI]).
    assert (RS1 : RS st st1) by (by apply RS_eq).
    apply st_reserve. intros st2 P2 C2. destruct (res_own st st1 st2 r0 T1 RS1 P2 C2) as (T2 & R2 & X2 & O2). set (lk := p_len (pub st1)) in *.
    apply st_update. intros n3 st3 Hn3 P3 C3. pose proof O2 as (O2a & O2b & Hn2 & _). rewrite Hn2 in Hn3. injection Hn3 as <-.
    destruct (upd_own st st2 st3 r0 lk _ false 0 0 (proj1 HI) O2 T2 R2 P3) as (T3 & R3); [by rewrite C3|].
    apply st_reserve. intros st4 P4 C4. destruct (res_own st st3 st4 r0 T3 R3 P4 C4) as (T4 & R4 & X4 & O4). set (ck := p_len (pub st3)) in *.
    apply st_cache; [done|]. intros st5 P5 C5.
    assert (M5 : c_memo (cch st5) = c_memo (cch st)) by (rewrite C5; simpl; by rewrite C4, C3, C2).
    assert (A5 : c_active (cache st5) = Some (r0, p)) by (rewrite C5; simpl; by rewrite C4, C3, C2, C1).
    assert (T5 : TI st5) by (eapply TInv_eq; [exact P5| |exact T4]; by rewrite M5, C4, C3, C2, M1).
    apply (all_rounds_T n n parent None st L0 lk ck st5).
    - apply HI.
    - done.
    - eapply RS_trans; [exact R4|]. apply RS_eq; [done|]. by rewrite M5, C4, C3, C2, M1.
    - by eapply Inv_cache.
    - eexists. split; [done|]. rewrite C5. simpl. rewrite lookup_insert. eexists. split; [done|]. simpl. split; [done|]. reflexivity.
    - rewrite M5. apply Hfresh, in_inv, (hd_in rest [] eq_refl).
    - split; [eapply (open_ext (pub st4)); [by eapply (own_open all)|rewrite P5; split; [reflexivity|]; intros k0 n0 Hn0; exists n0, []; by rewrite app_nil_r]|].
      rewrite P5. destruct O4 as (_ & _ & Hn & _). eauto.
    - destruct O4 as (Hle & _). done.
    - eapply (noded_ext (pub st3)); [by rewrite P5|]. split; [|done]. rewrite P3. simpl. rewrite lookup_insert. by eexists.
    - by right.
    Unshelve. exact p.
  Qed.
End cycle.
