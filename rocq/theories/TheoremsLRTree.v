(** Theorem C30: trees of left-recursive parsers. *)
From Verif Require Import SpecLRTree SpecSafe SpecSession ProofPeg ProofSound ProofSafe ProofTree ProofTree2 ProofLRTree ProofLR Programs
  TheoremsKernel TheoremsPackrat TheoremsDeriv.

(** ** From keys to trees *)
Section trees.
  Context (Ord : N -> Prop) (O : N -> Prop) (p : publisher).
  Lemma unfolds_in ks F k : unfolds_list O p ks F -> k ∈ ks -> exists t, t ∈ F /\ unfolds O p k t.
  Proof.
    induction ks as [|k' ks IH] in F |- *; inversion 1; subst; [by intros ?%elem_of_nil|].
    intros [->|Hk]%elem_of_cons; [eexists; split; [by left|done]|]. destruct (IH _ H4 Hk) as (u & Hu & ?). exists u. split; [by right|done].
  Qed.
  Lemma khas_has :
    (forall k d, khas Ord p k d -> forall t, unfolds O p k t -> has Ord t d) /\
    (forall ks D, kall Ord p ks D -> forall F, unfolds_list O p ks F -> has_all Ord F D) /\
    (forall ks D, kseq Ord p ks D -> forall F, unfolds_list O p ks F -> has_seq Ord F D).
  Proof.
    apply khas_all.
    - intros k n D Hn Hr _ IHa _ IHs t Ht. inversion Ht as [k' n' F HnO Hn' HF]; subst. rewrite Hn in Hn'. injection Hn' as <-.
      rewrite Hr. constructor; [by apply IHa|]. intros HO. by apply IHs.
    - intros F F' _. constructor.
    - intros ks k d D Hk _ IH1 _ IH2 F HF. destruct (unfolds_in _ _ _ HF Hk) as (t & Ht & Hu). econstructor; eauto.
    - intros F HF. inversion HF; subst. constructor.
    - intros k ks D _ IH F HF. inversion HF; subst. apply hs_skip. auto.
    - intros k ks d D _ IH1 _ IH2 F HF. inversion HF; subst. apply hs_keep; auto.
  Qed.
End trees.

Scheme has_mut := Induction for has Sort Prop
  with has_all_mut := Induction for has_all Sort Prop
  with has_seq_mut := Induction for has_seq Sort Prop.
Combined Scheme has_all_ind3 from has_mut, has_all_mut, has_seq_mut.

Lemma has_prune Ord :
  (forall t d, has Ord t d -> keep t = keep d /\ has Ord (prune t) (prune d)) /\
  (forall F D, has_all Ord F D -> has_all Ord (prune_forest F) (prune_forest D)) /\
  (forall F D, has_seq Ord F D -> has_seq Ord (prune_forest F) (prune_forest D)).
Proof.
  apply has_all_ind3.
  - intros r i j b F D _ IHa _ IHs. split; [done|]. rewrite !prune_eq. by constructor.
  - intros F. constructor.
  - intros F t d D Ht _ [E IH1] _ IH2. cbn [prune_forest]. destruct (keep d) eqn:Ek; [|done].
    econstructor; [|exact IH1|done]. by apply prune_forest_complete.
  - constructor.
  - intros t F D _ IH. cbn [prune_forest]. destruct (keep t); [by apply hs_skip|done].
  - intros t F d D _ [E IH1] _ IH2. cbn [prune_forest]. rewrite E. destruct (keep d); [by apply hs_keep|done].
Qed.

(** ** Facts about derivations *)
Section lderiv_facts.
  Context (g : pgrammar) (s : list N) (Pl : N -> bool).
  Notation LD := (lderiv g s Pl).
  Lemma lderiv_le e i j D : LD e i j D -> i <= j.
  Proof. induction 1; lia. Qed.
  Lemma lderiv_laid e i j D : LD e i j D -> laid_out i j D.
  Proof.
    induction 1; try (constructor; lia); try done; try (by eapply laid_app).
    constructor; [lia|done|constructor; lia].
  Qed.
  (** On plain expressions it is the derivation of C22. *)
  Lemma lderiv_deriv e i j D : (forall A body, g A = Some body -> Pl A = true -> plain Pl body = true) ->
    LD e i j D -> plain Pl e = true -> deriv g s e i j D.
  Proof.
    intros HP. induction 1; simpl; intros Hp;
      repeat match goal with H : _ && _ = true |- _ => apply andb_true_iff in H as [? ?] end;
      try (econstructor; eauto; fail).
    - match goal with H : if_plain _ _ _ |- _ => destruct (H Hp) as [? ?] end. by econstructor.
  Qed.
  Lemma deriv_lderiv e i j D : deriv g s e i j D -> LD e i j D.
  Proof.
    induction 1; try (econstructor; done).
    - apply ld_alt_2; [by intros _|done].
    - apply ld_and. intros _. eauto.
    - apply ld_not. by intros _.
    - apply ld_star_stop. by intros _.
    - apply ld_opt_none. by intros _.
  Qed.
  (** Every node in it is a derivation of its rule. *)
  Fixpoint labelled (fn : N -> N) (e : pexp) : Prop :=
    match e with
    | PChar _ | PStr _ | PRange _ _ | PRef None _ => True
    | PSeq a b | PAlt a b => labelled fn a /\ labelled fn b
    | PAnd e | PNot e | PPlus e | PStar e | POpt e => labelled fn e
    | PRef (Some r) A => A = fn r
    end.
  Lemma lderiv_inside fn e i j D : (forall A body, g A = Some body -> labelled fn body) -> LD e i j D -> labelled fn e ->
    forall r a z b C, inside (TNode r a z b C) D -> b = true /\ LD (PRef (Some r) (fn r)) a z [TNode r a z b C].
  Proof.
    intros Hg.
    assert (Hnil : forall t, inside t [] -> False) by (intros t H; inversion H; set_solver).
    assert (Happ : forall t D1 D2, inside t (D1 ++ D2) -> inside t D1 \/ inside t D2).
    { intros t D1 D2 H. inversion H as [? Hin|r i' j' b' C ? Hin Hb]; subst; apply elem_of_app in Hin as [?|?].
      - left. by constructor.
      - right. by constructor.
      - left. by eapply in_below.
      - right. by eapply in_below. }
    induction 1; simpl; intros Hlab r0 a0 z0 b0 C0 Hin; try (by apply Hnil in Hin);
      try (apply Happ in Hin as [Hin|Hin]);
      try match goal with H : labelled _ _ /\ labelled _ _ |- _ => destruct H end; try (by eauto).
    - inversion Hin as [? Hh|r' i' j' b' C' ? Hh Hb]; subst; apply elem_of_list_singleton in Hh.
      + injection Hh as -> -> -> -> ->. split; [done|]. by eapply ld_rule.
      + injection Hh as -> -> -> -> ->. eauto.
  Qed.

  Lemma left_shape e i j D : LD e i j D -> forall r f body, g f = Some body ->
    (e = PRef (Some r) f -> exists n, D = [n] /\ left_leaning g s Pl r f body i j n) /\
    (forall t, after_call r f e = Some t -> exists m n D', D = n :: D' /\ left_leaning g s Pl r f body i m n /\ LD t m j D') /\
    (exists alt, alt ∈ alternatives e /\
       ((after_call r f alt = None /\ LD alt i j D) \/
        exists t m n D', after_call r f alt = Some t /\ D = n :: D' /\ left_leaning g s Pl r f body i m n /\ LD t m j D')).
  Proof.
    assert (Self : forall e i j D r f body, LD e i j D -> (forall a b, e <> PAlt a b) ->
      (forall t, after_call r f e = Some t -> exists m n D', D = n :: D' /\ left_leaning g s Pl r f body i m n /\ LD t m j D') ->
      exists alt, alt ∈ alternatives e /\
       ((after_call r f alt = None /\ LD alt i j D) \/
        exists t m n D', after_call r f alt = Some t /\ D = n :: D' /\ left_leaning g s Pl r f body i m n /\ LD t m j D')).
    { intros e0 i0 j0 D0 r f body HD Hne Ha. exists e0. split.
      - destruct e0; try (by apply elem_of_list_singleton). by destruct (Hne e0_1 e0_2).
      - destruct (after_call r f e0) as [t|] eqn:E; [right|by left]. destruct (Ha t eq_refl) as (m & n & D' & ? & ? & ?). by exists t, m, n, D'. }
    induction 1; intros r0 f0 body0 Hb;
      try (split; [done|]; split; [done|]; eapply Self; [by econstructor|done|done]; fail).
    - (* PSeq *)
      destruct (IHlderiv1 r0 f0 body0 Hb) as (A1 & A2 & _). split; [done|].
      assert (Ha : forall t, after_call r0 f0 (PSeq e1 e2) = Some t -> exists m n D',
        D1 ++ D2 = n :: D' /\ left_leaning g s Pl r0 f0 body0 i m n /\ LD t m k D').
      { intros t Ht. assert (Hd : e1 = PRef (Some r0) f0 /\ t = e2 \/ exists t1, after_call r0 f0 e1 = Some t1 /\ t = PSeq t1 e2).
        { simpl in Ht. destruct e1; try (apply bind_Some in Ht as (t1 & Ht1 & [= <-]); right; by exists t1).
          destruct label; [|apply bind_Some in Ht as (t1 & Ht1 & [= <-]); right; by exists t1].
          destruct ((n =? r0) && (A =? f0)) eqn:E; [|done]. apply andb_true_iff in E as [->%N.eqb_eq ->%N.eqb_eq]. left. by simplify_eq. }
        destruct Hd as [[-> ->]|(t1 & Ht1 & ->)].
        - destruct (A1 eq_refl) as (n & -> & HL). by exists j, n, D2.
        - destruct (A2 t1 Ht1) as (m & n & D' & -> & HL & HD). exists m, n, (D' ++ D2). split; [done|]. split; [done|]. by eapply ld_seq. }
      split; [done|]. eapply Self; [by eapply ld_seq|done|done].
    - destruct (IHlderiv r0 f0 body0 Hb) as (_ & _ & alt & Hin & HA). split; [done|]. split; [done|]. exists alt.
      split; [|done]. simpl. apply elem_of_app. by left.
    - destruct (IHlderiv r0 f0 body0 Hb) as (_ & _ & alt & Hin & HA). split; [done|]. split; [done|]. exists alt.
      split; [|done]. simpl. apply elem_of_app. by right.
    - (* PRef *)
      split.
      + intros [= -> ->]. rewrite Hb in H. injection H as <-. eexists. split; [done|].
        destruct (IHlderiv r0 f0 body0 Hb) as (_ & _ & alt & Hin & [[HN HL]|(t & m & n & D' & Ha & -> & HL & HD)]).
        * by eapply ll_seed.
        * by eapply ll_grow.
      + split; [done|]. eapply Self; [by econstructor|done|done].
  Qed.
End lderiv_facts.

(** ** C30 *)
Section C30.
  Context {U : Type} (pr : program U) (fn : N -> N) (s : list N) (u0 : U) (Pl : N -> bool).
  Context (Hs : N.of_nat (length s) < u32_modulus) (Hwf : program_wf pr fn) (Hnh : no_hooks pr) (HPl : plain_ok pr Pl).
  Notation g := (grammar_of pr).
  (** Rules whose body has its left-recursive calls at the left end only. *)
  Definition in_order (r : N) : Prop := exists body, pr_fn pr (fn r) = Some body /\ lr_left Pl body = true.

  Lemma wf_labelled e : expr_wf pr fn e -> labelled fn (pexp_of e).
  Proof.
    induction e; simpl; intros H; try done; try (by apply IHe); try (by destruct H as [-> ?]); destruct H; split; auto.
  Qed.

  (** When parse succeeds, the match has a derivation whose (non-empty) rule
      applications are all in the returned tree, each under its caller - for
      rules with left recursion at the left end only, also in order.  Every
      rule application in it is left-leaning. *)
  Theorem C30_tree entry fuel q p' r i j b G :
    expr_wf pr fn entry -> (forall f, f ∈ lr_targets entry -> Pl f = false) ->
    parse_with pr u0 fuel entry s = Ok (true, q, p') -> denotes p' (TNode r i j b G) ->
    exists D, lderiv g s Pl (pexp_of entry) 0 q D /\ has_all in_order G (prune_forest D) /\ laid_out 0 q (prune_forest D) /\
      forall r' a z b' C, inside (TNode r' a z b' C) D -> exists body, pr_fn pr (fn r') = Some body /\
        left_leaning g s Pl r' (fn r') (pexp_of body) a z (TNode r' a z b' C).
  Proof.
    intros He Ht Hp Hd. unfold parse_with in Hp.
    destruct (run_entry pr u0 fuel entry s) as [[[b0 q0] st]| |] eqn:Er; cbn [rbind] in Hp; [|done|done].
    destruct (clear_false fuel (pr_grammar pr) (cx_pub (st_ctx st))) as [t| |] eqn:Ec; cbn [rbind] in Hp; [|done|done].
    injection Hp as -> -> ->.
    assert (He0 : is_Some (p_nodes (pub (PState (context_new (pr_grammar pr)) u0)) !! 0)) by (simpl; eauto).
    pose proof (wp_Ok _ _ _ _ _ _ (eval_t pr s fn Pl Hs Hwf Hnh HPl fuel entry He Ht _ 0 0 (TInv_init pr s fn Pl (pr_grammar pr) u0) He0) Er) as HT.
    destruct HT as ([[_ HE] _] & HI & _ & _ & HD). destruct (HD eq_refl) as (D & HLD & n & n' & l & Hn & Hn' & Hl & Ha & _).
    destruct (HE _ _ Hn) as (n1 & l1 & Hn1 & E1 & _ & E2 & E3). simpl in Hn. injection Hn as <-. simpl in *. simplify_eq.
    destruct (E3 eq_refl) as [E4 E5].
    assert (Hhk : hooks_behave (N.of_nat (length s)) (memo_claim pr s fn) (eq PKeyOverflow) pr (source_new s)).
    { by apply no_hooks_behave. }
    assert (HS : session pr (expr_wf pr fn) s u0 st).
    { eapply session_call; [apply session_fresh|exact He| |exact Er]. lia. }
    destruct (C16_finite_trees pr fn s u0 Hs Hwf (eq PKeyOverflow) eq_refl Hhk st 0 HS) as [t Ht'].
    { apply HI. eauto. }
    inversion Ht' as [k m F HnO Hm HF]; subst. rewrite Hn' in Hm. injection Hm as <-.
    rewrite E2 in Ht'. pose proof (C17_any_answer _ _ _ _ _ _ _ _ Ht' Ec) as Hd'.
    destruct (unfolds_det nothing nothing p') as [Hdet _]. pose proof (Hdet _ _ Hd _ Hd') as E. simplify_eq.
    exists D. split; [done|]. split.
    { apply has_prune. by eapply khas_has. }
    split; [by eapply laid_prune, lderiv_laid|].
    intros r' a z b' C Hin.
    assert (Hg : forall A bd, g A = Some bd -> labelled fn bd).
    { intros A bd HA. unfold grammar_of in HA. apply fmap_Some in HA as (e & HA & ->). by eapply wf_labelled, Hwf. }
    destruct (lderiv_inside g s Pl fn _ _ _ _ Hg HLD (wf_labelled _ He) _ _ _ _ _ Hin) as [-> HR].
    assert (Hbd : exists bd, pr_fn pr (fn r') = Some bd).
    { inversion HR; subst. unfold grammar_of in *. destruct (pr_fn pr (fn r')) as [bd|]; [eauto|done]. }
    destruct Hbd as [bd Hbd]. exists bd. split; [done|].
    destruct (left_shape _ _ _ _ _ _ _ HR r' (fn r') (pexp_of bd)) as (HL & _); [unfold grammar_of; by rewrite Hbd|].
    destruct (HL eq_refl) as (n & [= <-] & HL'). done.
  Qed.

  (** Rule applications that do not involve left recursion are derivations in
      the sense of C22: choices are ordered, repetitions greedy. *)
  Theorem C30_plain_parts e i j D : lderiv g s Pl e i j D -> plain Pl e = true -> deriv g s e i j D.
  Proof.
    apply lderiv_deriv. intros A body HA HP. unfold grammar_of in HA. apply fmap_Some in HA as (e' & HA & ->).
    by eapply po_body.
  Qed.

  (** For a rule [r = (r , t) / s] with [t] and [s] free of left recursion:
      a left-leaning node over [i..j) is a seed [s] followed by a chain of [t]s,
      and there is only one. *)
  Section simple.
    Context (r f : N) (t sd : pexp).
    Context (Ht : plain Pl t = true) (Hsd : plain Pl sd = true).
    Context (Hsd1 : alternatives sd = [sd]) (Hsd2 : after_call r f sd = None).
    Notation body := (PAlt (PSeq (PRef (Some r) f) t) sd).
    Notation LL := (left_leaning g s Pl r f body).

    Lemma simple_cases alt : alt ∈ alternatives body ->
      (alt = PSeq (PRef (Some r) f) t /\ after_call r f alt = Some t) \/ (alt = sd /\ after_call r f alt = None).
    Proof using Hsd1 Hsd2.
      simpl. rewrite Hsd1. intros [->|[->|[]%elem_of_nil]%elem_of_cons]%elem_of_cons; [left|by right].
      split; [done|]. simpl. by rewrite !N.eqb_refl.
    Qed.
    Lemma ll_inv i j n : LL i j n ->
      (exists D, n = TNode r i j true D /\ deriv g s sd i j D) \/
      (exists m n' D, n = TNode r i j true (n' :: D) /\ LL i m n' /\ deriv g s t m j D).
    Proof using Ht Hsd Hsd1 Hsd2 HPl.
      intros H. inversion H as [alt i' j' D Hin Ha HD|alt t' i' m j' n' D HL Hin Ha HD]; subst.
      - left. exists D. split; [done|]. destruct (simple_cases alt Hin) as [[-> Ha']|[-> _]]; [congruence|]. by apply C30_plain_parts.
      - right. exists m, n', D. split; [done|]. split; [done|]. destruct (simple_cases alt Hin) as [[-> Ha']|[-> Ha']]; [|congruence].
        rewrite Ha in Ha'. injection Ha' as ->. by apply C30_plain_parts.
    Qed.
    Theorem C30_left_chain i j : (exists n, LL i j n) <->
      exists q0, peg g s sd i (Some q0) /\ rtc (fun x y => peg g s t x (Some y)) q0 j.
    Proof using Ht Hsd Hsd1 Hsd2 HPl.
      split.
      - intros [n H].
        assert (Hgen : forall i j n, LL i j n -> exists q0, peg g s sd i (Some q0) /\ rtc (fun x y => peg g s t x (Some y)) q0 j); [|by eapply Hgen].
        clear i j n H. induction 1 as [alt i j D Hin Ha HD|alt t' i m j n D HL IH Hin Ha HD].
        + destruct (simple_cases alt Hin) as [[-> Ha']|[-> _]]; [congruence|]. exists j. split; [|apply rtc_refl].
          eapply deriv_peg, C30_plain_parts; done.
        + destruct IH as (q0 & H1 & H2). exists q0. split; [done|]. eapply rtc_r; [exact H2|].
          destruct (simple_cases alt Hin) as [[-> Ha']|[-> Ha']]; [|congruence]. rewrite Ha in Ha'. injection Ha' as ->.
          eapply deriv_peg, C30_plain_parts; done.
      - intros (q0 & H1 & H2). revert j H2. apply rtc_ind_r.
        + apply C22_derivation_matches in H1 as [D HD]. eexists. eapply ll_seed; [|exact Hsd2|by apply deriv_lderiv].
          simpl. rewrite Hsd1. right. by left.
        + intros m j _ Hst [n Hn]. apply C22_derivation_matches in Hst as [D HD]. eexists.
          eapply ll_grow; [exact Hn|by left| |by apply deriv_lderiv]. simpl. by rewrite !N.eqb_refl.
    Qed.

    Context (Hcons : forall x y, peg g s t x (Some y) -> x < y).
    Notation step := (fun x y => peg g s t x (Some y)).
    Lemma step_le x y : rtc step x y -> x <= y.
    Proof using Hcons. clear Hs. induction 1 as [|x y z H _ IH]; [lia|]. apply Hcons in H. lia. Qed.
    Lemma step_det x y z : step x y -> step x z -> y = z.
    Proof. intros H1 H2. pose proof (peg_det _ _ _ _ _ _ H1 H2). congruence. Qed.
    Lemma step_linear x y z : rtc step x y -> rtc step x z -> rtc step y z \/ rtc step z y.
    Proof.
      induction 1 as [|x x' y H HR IH]; intros H2; [by left|].
      inversion H2 as [|? x'' ? H3 H4]; subst; [right; by eapply rtc_l|].
      rewrite <-(step_det _ _ _ H H3) in H4. by apply IH.
    Qed.
    Lemma step_last q0 m m' j : rtc step q0 m -> step m j -> rtc step q0 m' -> step m' j -> m = m'.
    Proof using Hcons.
      clear Hs. intros H1 H2 H3 H4.
      assert (Hone : forall a b, rtc step a b -> step a j -> step b j -> a = b).
      { intros a b Hab Ha Hb. inversion Hab as [|? x ? Hx Hr]; subst; [done|]. rewrite (step_det _ _ _ Hx Ha) in Hr.
        apply step_le in Hr. apply Hcons in Hb. lia. }
      destruct (step_linear _ _ _ H1 H3) as [H|H]; [by apply Hone|]. symmetry. by apply Hone.
    Qed.
    Theorem C30_left_unique i j n n' : LL i j n -> LL i j n' -> n = n'.
    Proof using Ht Hsd Hsd1 Hsd2 HPl Hcons.
      clear Hs. intros H. revert n'. assert (Hch : forall i j n, LL i j n -> exists q0, peg g s sd i (Some q0) /\ rtc step q0 j).
      { intros i0 j0 n0 H0. apply C30_left_chain. by exists n0. }
      assert (Hmix : forall i j m n D D', deriv g s sd i j D -> LL i m n -> deriv g s t m j D' -> False).
      { intros i0 j0 m n0 D D' H1 H2 H3%deriv_peg%Hcons. apply deriv_peg in H1. destruct (Hch _ _ _ H2) as (q0 & H4 & H5%step_le).
        pose proof (peg_det _ _ _ _ _ _ H1 H4). simplify_eq. lia. }
      assert (Hgen : forall n i j, LL i j n -> forall n', LL i j n' -> n = n'); [|by apply Hgen].
      clear i j n H. induction n as [r0 i0 j0 b0 C0 IH] using ptree_ind'. intros i j H n' H'.
      destruct (ll_inv _ _ _ H) as [(D & E & HD)|(m & n1 & D & E & HL & HD)];
      destruct (ll_inv _ _ _ H') as [(D' & E' & HD')|(m' & n1' & D' & E' & HL' & HD')].
      - rewrite E, E'. f_equal. by eapply deriv_det.
      - by destruct (Hmix _ _ _ _ _ _ HD HL' HD').
      - by destruct (Hmix _ _ _ _ _ _ HD' HL HD).
      - destruct (Hch _ _ _ HL) as (q0 & HA & HB), (Hch _ _ _ HL') as (q0' & HA' & HB').
        pose proof (peg_det _ _ _ _ _ _ HA HA') as Eq. injection Eq as <-.
        assert (m = m') as <- by (eapply (step_last q0); [done|by eapply deriv_peg|done|by eapply deriv_peg]).
        destruct (deriv_det _ _ _ _ _ _ HD _ _ HD') as [_ <-].
        rewrite E, E'. do 2 f_equal. injection E as -> -> -> -> ->. eapply (IH n1); [by left|done|done].
    Qed.
  End simple.
End C30.

(** [Pl] can always be chosen. *)
Lemma plain_ok_none {U} (pr : program U) : plain_ok pr (fun _ => false).
Proof. by split. Qed.

(** <Grammar> = <E> ;  <E> = (<E> , '-' , <N>) / <N> ;  <N> = ['0'..'9']  on
    "1-2-3": the tree is ((1) - 2) - 3. *)
Definition minus_program : program unit := table_program
  [ ELR [1] 1 1; EChoice (ESub (ESeq (ESeq (ELR [1] 1 1) (ETerminal 45)) (EVar 2 2))) (EVar 2 2); ERange 48 57 ] 0.
Definition minus_plain (f : N) : bool := f =? 2.
Lemma minus_ok : program_wf minus_program id /\ no_hooks minus_program /\ plain_ok minus_program minus_plain /\
  in_order minus_program id minus_plain 1 /\ N.of_nat (length (bytes "1-2-3")) < u32_modulus.
Proof.
  split; [|split; [|split; [|split]]].
  - intros f e Hf. cbn in Hf. unfold id. destruct (N.to_nat f) as [|[|[|m]]]; cbn in Hf; simplify_eq; cbn; eauto 10.
  - by intros h src f.
  - split.
    + intros f e Hf HP. apply N.eqb_eq in HP as ->. cbn in Hf. by injection Hf as <-.
    + intros f e Hf f'. cbn in Hf. destruct (N.to_nat f) as [|[|[|m]]]; cbn in Hf; simplify_eq; cbn; set_solver.
  - eexists. split; reflexivity.
  - reflexivity.
Qed.
Example C30_instance :
  exists p', parse_with minus_program tt 60 (EVar 0 0) (bytes "1-2-3") = Ok (true, 5, p') /\
    TheoremsPackrat.read_tree 60 p' 0 = Some (TNode 0 0 0 true
      [TNode 0 0 5 true [TNode 1 0 5 true
         [TNode 1 0 3 true [TNode 1 0 1 true [TNode 2 0 1 true []]; TNode 2 2 3 true []]; TNode 2 4 5 true []]]]).
Proof. eexists. split; vm_compute; reflexivity. Qed.

(** The order below a rule with a left-recursive call in the middle can be
    lost:  <S> = (<S> , 'z') / <M> ;  <M> = (<X> , <E> , '!') / (<Y> , <E> , '?') ;
    <X> = 'a' ;  <Y> = 'a' ;  <E> and <N> as above.  "a1?" is parsed by the
    second alternative of <M>, but <Y> comes after <E> in the tree. *)
Definition order_program : program unit := table_program
  [ ELR [1] 1 1; EChoice (ESub (ESeq (ELR [1] 1 1) (ETerminal 122))) (EVar 2 2);
    EChoice (ESub (ESeq (ESeq (EVar 3 3) (ELR [5] 5 5)) (ETerminal 33))) (ESub (ESeq (ESeq (EVar 4 4) (ELR [5] 5 5)) (ETerminal 63)));
    ETerminal 97; ETerminal 97;
    EChoice (ESub (ESeq (ESeq (ELR [5] 5 5) (ETerminal 45)) (EVar 6 6))) (EVar 6 6); ERange 48 57 ] 0.
Theorem C30_order_lost :
  exists p', parse_with order_program tt 60 (EVar 0 0) (bytes "a1?") = Ok (true, 3, p') /\
    TheoremsPackrat.read_tree 60 p' 0 = Some (TNode 0 0 0 true [TNode 0 0 3 true [TNode 1 0 3 true [TNode 2 0 3 true
      [TNode 3 0 1 true []; TNode 5 1 2 true [TNode 6 1 2 true []]; TNode 4 0 1 true []]]]]).
Proof. eexists. split; vm_compute; reflexivity. Qed.

(** Trying a left-recursive rule twice at the same position leaves the first
    result below the second one's seed - a child wider than its parent:
    <Grammar> = (<E> , ';') / (<E> , '.')  on "1-2.". *)
Definition stale_program : program unit := table_program
  [ EChoice (ESub (ESeq (ELR [1] 1 1) (ETerminal 59))) (ESub (ESeq (ELR [1] 1 1) (ETerminal 46)));
    EChoice (ESub (ESeq (ESeq (ELR [1] 1 1) (ETerminal 45)) (EVar 2 2))) (EVar 2 2); ERange 48 57 ] 0.
Theorem C30_stale_child :
  exists p' t F, parse_with stale_program tt 60 (EVar 0 0) (bytes "1-2.") = Ok (true, 4, p') /\
    TheoremsPackrat.read_tree 60 p' 0 = Some t /\
    inside (TNode 1 0 1 true F) [t] /\ inside (TNode 1 0 3 true [TNode 1 0 1 true [TNode 2 0 1 true []]; TNode 2 2 3 true []]) F.
Proof.
  eexists _, _, [TNode 1 0 3 true [TNode 1 0 1 true [TNode 2 0 1 true []]; TNode 2 2 3 true []]; TNode 2 0 1 true []].
  split; [vm_compute; reflexivity|]. split; [vm_compute; reflexivity|]. split.
  - eapply in_below; [by left|]. eapply in_below; [by left|]. eapply in_below; [right; by left|]. apply in_here. by left.
  - apply in_here. by left.
Qed.
