(** Theorems C57: left recursion round a cycle of rules. *)
From Verif Require Import SpecCycle SpecSession ProofBasics ProofPeg ProofSound Programs ProofCycle.
Local Open Scope N_scope.

Section cycle.
  Context {U : Type} (pr : program U) (fn : N -> N) (plain : N -> bool) (inv : list N).
  Context (s : list N) (u0 : U) (Hs : N.of_nat (length s) < u32_modulus).
  Context (m0 : member) (rest : list member) (HC : left_cycle pr fn plain inv m0 rest).
  Notation g := (grammar_of pr).
  Notation src := (source_new s).
  Notation rules := (map m_alts (m0 :: rest)).

  Lemma plain_session st : session pr (plain_code fn plain) s u0 st ->
    memo_plain pr fn plain s st /\ c_active (cache st) = None /\ forall r i, r ∈ inv -> c_memo (cache st) !! (r, i) = None.
  Proof using HC Hs.
    assert (Hnp : forall r, r ∈ inv -> plain (fn r) = false).
    { intros r Hr. apply (lc_involved _ _ _ _ _ _ HC) in Hr. apply elem_of_list_In, in_map_iff in Hr as (m & <- & Hm%elem_of_list_In). by eapply (not_plain pr fn plain inv m0 rest HC). }
    induction 1 as [|st fuel e pos r st' _ (IH1 & IH2 & IH3) He Hp Hev].
    - split; [|split]; [|done|done]. intros r i b q k H. simpl in H. by rewrite lookup_empty in H.
    - pose proof (wp_Ok _ _ _ _ _ _ (eval_answers pr fn plain s Hs (lc_plain _ _ _ _ _ _ HC) fuel e He 0 pos st IH1) Hev) as (_ & H1 & H2 & H3 & H4).
      split_and!; [done|congruence|]. intros r' i Hr. rewrite H4; [by apply IH3|by apply Hnp].
  Qed.

  (** After any calls of code without left recursion, calling the first rule of
      the cycle answers what the rounds give. *)
  Theorem C57_cycle st fuel p b q st' : session pr (plain_code fn plain) s u0 st ->
    eval pr src fuel (ELR inv (m_label m0) (m_fn m0)) 0 p st = Ok ((b, q), st') ->
    cycle_means g s p rules (if b then Some q else None) /\ (b = false -> q = p).
  Proof using HC Hs.
    intros HS Hev. destruct (plain_session st HS) as (H1 & H2 & H3).
    pose proof (lc_linked _ _ _ _ _ _ HC) as [(_ & _ & (body & Hb & _) & _) _].
    destruct (wp_Ok _ _ _ _ _ _ (call_cycle pr fn plain inv s Hs m0 rest HC p body Hb fuel 0 st H1 H2 (fun r Hr => H3 r p Hr)) Hev) as (_ & _ & H4 & H5). done.
  Qed.
  (** The same through a rule that only names it (the examples' <Grammar>). *)
  Theorem C57_entry r f fuel b q st' : pr_fn pr f = Some (ELR inv (m_label m0) (m_fn m0)) ->
    run_entry pr u0 fuel (EVar r f) s = Ok ((b, q), st') ->
    cycle_means g s 0 rules (if b then Some q else None) /\ (b = false -> q = 0).
  Proof using HC Hs.
    intros Hf Hev. pose proof (lc_linked _ _ _ _ _ _ HC) as [(_ & _ & (body & Hb & _) & _) _].
    revert Hev. unfold run_entry. destruct fuel as [|fuel]; [done|]. simpl. intros Hev. revert Hev. unfold var_name_kernel.
    intros Hev. refine (wp_Ok (fun _ => True) _ _ (fun r _ => cycle_means g s 0 rules (outcome (fst r) (snd r)) /\ (fst r = false -> snd r = 0)) _ _ _ Hev). clear Hev.
    apply wp_bind, W_get. unfold default_behaviour. simpl. unfold check. simpl. rewrite lookup_empty. apply wp_bind, W_reserve. intros k st1 E1. apply wp_bind. rewrite Hf.
    eapply wp_mono.
    { apply (call_cycle pr fn plain inv s Hs m0 rest HC 0 body Hb fuel k st1).
      - intros r' i b' q' k'. rewrite E1. simpl. by rewrite lookup_empty.
      - by rewrite E1.
      - intros r' Hr'. rewrite E1. simpl. by rewrite lookup_empty. }
    intros [b' q'] st2 (_ & _ & H4 & H5). cbn [fst snd] in *. apply wp_bind, W_upd. intros c' _. apply wp_bind, W_update. intros st3 _. apply wp_bind, W_connect. intros st4 _. by apply wp_ret.
  Qed.
End cycle.

(** ** The rounds determine the answer *)
Section unique.
  Context (g : pgrammar) (s : list N) (p : N).
  Lemma tail_det t q o o' : tail_means g s t q o -> tail_means g s t q o' -> o = o'.
  Proof. destruct t as [t|]; simpl; [apply peg_det|]. congruence. Qed.
  Lemma picks_det x l o o' : picks g s p x l o -> picks g s p x l o' -> o = o'.
  Proof.
    intros H. revert o'. induction H as [|q t l o Hx Ht|t l o Ht _ IH|e l o He|e l o He _ IH]; intros o'; inversion 1; subst; try done; try (by auto).
    - match goal with H : Some _ = Some _ |- _ => injection H as -> end. by eapply tail_det.
    - match goal with H : tail_means _ _ _ _ None |- _ => pose proof (tail_det _ _ _ _ Ht H) end. done.
    - simpl in Ht. match goal with H : tail_means _ _ _ _ (Some _) |- _ => pose proof (tail_det _ _ _ _ Ht H) end. done.
    - by eapply peg_det.
    - match goal with H : peg _ _ _ _ None |- _ => pose proof (peg_det _ _ _ _ _ _ He H) end. done.
    - match goal with H : peg _ _ _ _ (Some _) |- _ => pose proof (peg_det _ _ _ _ _ _ He H) end. done.
  Qed.
  Lemma through_det rules x y y' : through g s p rules x y -> through g s p rules x y' -> y = y'.
  Proof.
    revert y y'. induction rules as [|a rules IH]; simpl; [congruence|]. intros y y' (z & H1 & H2) (z' & H3 & H4). rewrite (IH _ _ H1 H3) in H2. by eapply picks_det.
  Qed.
  Lemma rounds_det rules x z z' : rounds g s p rules x z -> rounds g s p rules x z' -> z = z'.
  Proof.
    intros H. revert z'. induction H as [x y Hy Hle|x y z Hy Hlt _ IH]; intros z'; inversion 1 as [x2 y2 Hy2 Hle2|x2 y2 z2 Hy2 Hlt2 Hr2]; subst.
    - done.
    - rewrite (through_det _ _ _ _ Hy Hy2) in Hle. lia.
    - rewrite (through_det _ _ _ _ Hy2 Hy) in Hle2. lia.
    - apply IH. pose proof (through_det _ _ _ _ Hy Hy2) as [= ->]. done.
  Qed.
  Theorem C57_unique rules o o' : cycle_means g s p rules o -> cycle_means g s p rules o' -> o = o'.
  Proof.
    intros (a & l & x & -> & H1 & H2) (a' & l' & x' & [= <- <-] & H3 & H4). rewrite (picks_det _ _ _ _ H3 H1) in H4. clear H1 H3.
    destruct x as [q|]; [|congruence]. destruct (q <=? p); [congruence|]. destruct H2 as (z & H2 & ->), H4 as (z' & H4 & ->). by rewrite (rounds_det _ _ _ _ H2 H4).
  Qed.
  (** A rule whose own seeds fail gets nowhere, whatever the other rules of the
      cycle can match. *)
  Theorem C57_seedless a rules o : (forall e, Seed e ∈ a -> peg g s (pexp_of e) p None) -> cycle_means g s p (a :: rules) o -> o = None.
  Proof.
    intros Ha (a' & l & x & [= <- <-] & H1 & H2). assert (Hx : x = None); [|by rewrite Hx in H2]. clear H2.
    induction H1 as [|q t l' o' Hq|t l' o' _ _ IH|e l' o' He|e l' o' He _ IH]; try done.
    - apply IH. intros e He. apply Ha. by right.
    - pose proof (peg_det _ _ _ _ _ _ He (Ha e ltac:(by left))). done.
    - apply IH. intros e' He'. apply Ha. by right.
  Qed.
End unique.

(** ** Seed, then tails *)
Section seeds.
  Context (g : pgrammar) (s : list N) (p : N).
  Notation peg := (peg g s).
  Lemma choice_first e l q j : peg e q (Some j) -> peg (choice_of (e :: l)) q (Some j).
  Proof. destruct l; simpl; [done|]. by apply peg_alt_1. Qed.
  Lemma choice_nil q : peg (choice_of []) q None.
  Proof. eapply peg_not_fail, peg_str_ok, occurs_at_nil. Qed.
  Lemma choice_next e l q o : peg e q None -> peg (choice_of l) q o -> peg (choice_of (e :: l)) q o.
  Proof. destruct l; simpl; [|by apply peg_alt_2]. intros H1 H2. by rewrite (peg_det _ _ _ _ _ _ H2 (choice_nil q)). Qed.

  Lemma picks_some q ts l o : picks g s p (Some q) (map Follow ts ++ l) o ->
    (exists j, o = Some j /\ peg (choice_of (map tail_exp ts)) q (Some j)) \/ (peg (choice_of (map tail_exp ts)) q None /\ picks g s p (Some q) l o).
  Proof.
    assert (Ht : forall t o, tail_means g s t q o -> peg (tail_exp t) q o).
    { intros [t|] o'; simpl; [done|]. intros ->. replace q with (q + N.of_nat (length (@nil N))) at 2 by (simpl; lia). apply peg_str_ok, occurs_at_nil. }
    induction ts as [|t ts IH]; cbn [map app]; intros H; [right; split; [apply choice_nil|done]|]. inversion H; subst.
    - left. eexists. split; [done|]. apply choice_first, Ht. congruence.
    - destruct IH as [(j & -> & Hj)|[HA HB]]; [done|left; exists j; split; [done|]|right; split; [|done]]; apply choice_next; auto.
  Qed.
  Lemma picks_none ts l o : picks g s p None (map Follow ts ++ l) o -> picks g s p None l o.
  Proof. induction ts as [|t ts IH]; cbn [map app]; [done|]. inversion 1; subst; [done|auto]. Qed.
  Lemma picks_seeds x ss o : picks g s p x (map Seed ss) o -> peg (choice_of (map pexp_of ss)) p o.
  Proof.
    induction ss as [|e ss IH]; cbn [map]; inversion 1; subst; [apply choice_nil|by apply choice_first|]. apply choice_next; auto.
  Qed.

  (** Each rule: its tails, then its seeds. *)
  Notation shape x := (map Follow (fst x) ++ map Seed (snd x)).
  Lemma through_rest (l : list (list (option expr) * list expr)) x y :
    (forall y e, y ∈ l -> e ∈ snd y -> peg (pexp_of e) p None) -> through g s p (map (fun x => shape x) l) (Some x) y -> peg (round_exp (map fst l)) x y.
  Proof.
    revert y. induction l as [|[ts ss] l IH]; intros y Hf; cbn [map through round_exp fst snd].
    - intros ->. replace x with (x + N.of_nat (length (@nil N))) at 2 by (simpl; lia). apply peg_str_ok, occurs_at_nil.
    - intros (z & H1 & H2). apply IH in H1; [|by intros y' e Hy; apply Hf; right].
      assert (Hss : forall y, peg (choice_of (map pexp_of ss)) p y -> y = None).
      { intros y' Hy'. assert (Hss : forall e, e ∈ ss -> peg (pexp_of e) p None) by (intros e He; apply (Hf (ts, ss)); [by left|done]). clear -Hss Hy'.
        assert (Hn : peg (choice_of (map pexp_of ss)) p None); [|by eapply peg_det]. clear Hy'. induction ss as [|e ss IH]; [apply choice_nil|].
        apply choice_next; [apply Hss; by left|]. apply IH. intros e' He'. apply Hss. by right. }
      destruct z as [z|].
      + destruct (picks_some _ _ _ _ H2) as [(j & -> & Hj)|[H3 H4]]; [by eapply peg_seq_ok|]. apply picks_seeds in H4. rewrite (Hss _ H4). by eapply peg_seq_ok.
      + apply picks_none, picks_seeds in H2. rewrite (Hss _ H2). by apply peg_seq_fail.
  Qed.

  (** When the first rule's seeds match, no other seed of the cycle does, and
      going round consumes: the answer is a seed followed by as many rounds of
      tails as possible. *)
  Theorem C57_seed_then_tails ts ss (l : list (list (option expr) * list expr)) o :
    (forall q, peg (choice_of (map pexp_of ss)) p (Some q) -> p < q /\ forall y e, y ∈ l -> e ∈ snd y -> peg (pexp_of e) p None) ->
    (forall x y, peg (round_exp (ts :: map fst l)) x (Some y) -> x < y) ->
    cycle_means g s p (map (fun x => shape x) ((ts, ss) :: l)) o ->
    peg (PSeq (choice_of (map pexp_of ss)) (PStar (round_exp (ts :: map fst l)))) p o.
  Proof.
    intros Hseed Hcons (a & l' & x & [= <- <-] & H1 & H2). apply picks_none, picks_seeds in H1.
    destruct x as [q|]; [|rewrite H2; by apply peg_seq_fail]. destruct (Hseed q H1) as [Hpq Hf]. clear Hseed.
    apply N.leb_gt in Hpq as E. rewrite E in H2. destruct H2 as (z & HR & ->). eapply peg_seq_ok; [exact H1|].
    assert (Hall : forall x z, rounds g s p (map (fun x => shape x) ((ts, ss) :: l)) x z -> q <= x -> peg (PStar (round_exp (ts :: map fst l))) x (Some z)).
    { clear HR z E.
      assert (Hround : forall x y, through g s p (map (fun x => shape x) ((ts, ss) :: l)) (Some x) y ->
        (exists j, y = Some j /\ peg (round_exp (ts :: map fst l)) x (Some j)) \/ (peg (round_exp (ts :: map fst l)) x None /\ y = Some q)).
      { intros x y (z & Hz & Hy). apply through_rest in Hz; [|done]. cbn [round_exp]. destruct z as [z|].
        - destruct (picks_some _ _ _ _ Hy) as [(j & -> & Hj)|[H3 H4]].
          + left. exists j. split; [done|]. by eapply peg_seq_ok.
          + right. split; [by eapply peg_seq_ok|]. apply picks_seeds in H4. by eapply peg_det.
        - right. apply picks_none, picks_seeds in Hy. split; [by apply peg_seq_fail|]. by eapply peg_det. }
      intros x z HR. induction HR as [x y Hy Hle|x y z Hy Hlt _ IH]; intros Hqx.
      - apply peg_star_stop. destruct (Hround _ _ Hy) as [(j & -> & Hj)|[Hn _]]; [|done]. apply Hcons in Hj. lia.
      - destruct (Hround _ _ Hy) as [(j & [= <-] & Hj)|[_ [= ->]]]; [|lia]. eapply peg_star_more; [exact Hj|]. apply IH. lia. }
    by apply Hall.
  Qed.
End seeds.
