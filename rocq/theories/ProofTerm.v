(** Termination of generated parsers, left recursion included. *)
From Verif Require Import ProofSafe ProofFuel SpecTerm ProofLR.

(** Four-fold lexicographic induction. *)
Definition lt4 (a b c d a' b' c' d' : nat) : Prop :=
  (a < a' \/ (a = a' /\ (b < b' \/ (b = b' /\ (c < c' \/ (c = c' /\ d < d'))))))%nat.
Lemma lt4_ind (P : nat -> nat -> nat -> nat -> Prop) :
  (forall a b c d, (forall a' b' c' d', lt4 a' b' c' d' a b c d -> P a' b' c' d') -> P a b c d) ->
  forall a b c d, P a b c d.
Proof.
  intros H. induction a as [a IHa] using lt_wf_ind. induction b as [b IHb] using lt_wf_ind.
  induction c as [c IHc] using lt_wf_ind. induction d as [d IHd] using lt_wf_ind.
  apply H. intros a' b' c' d' [?|[-> [?|[-> [?|[-> ?]]]]]]; auto.
Qed.

(** ** Halting, with monotone fuel *)
Section halts.
  Context {St : Type}.
  Definition mono {A} (F : nat -> M St A) : Prop := forall n m, (n <= m)%nat -> m_le (F n) (F m).
  Definition halts {A} (F : nat -> M St A) (st : St) : Prop := exists m, F m st <> NoFuel.

  Lemma halts_const {A} (x : M St A) st : x st <> NoFuel -> halts (fun _ => x) st.
  Proof. intros H. by exists 0%nat. Qed.
  Lemma halts_bind {A B} (F : nat -> M St A) (K : nat -> A -> M St B) st :
    mono F -> (forall a, mono (fun m => K m a)) -> halts F st ->
    (forall m a st', F m st = Ok (a, st') -> halts (fun m => K m a) st') ->
    halts (fun m => mbind' (F m) (K m)) st.
  Proof.
    intros HF HK [m Hm] H. destruct (F m st) as [[a st']|p|] eqn:E; [| |done].
    - destruct (H m a st' E) as [m' Hm']. exists (m `max` m')%nat. unfold mbind'.
      assert (E' : F (m `max` m')%nat st = Ok (a, st')) by (eapply res_le_Ok; [apply (HF m); lia|done]).
      rewrite E'. simpl. assert (Hle := HK a m' (m `max` m')%nat ltac:(lia) st').
      unfold res_le in Hle. by rewrite Hle.
    - exists m. unfold mbind'. by rewrite E.
  Qed.
  Lemma halts_bind_const {A B} (x : M St A) (K : nat -> A -> M St B) st :
    x st <> NoFuel -> (forall a st', x st = Ok (a, st') -> halts (fun m => K m a) st') ->
    halts (fun m => mbind' x (K m)) st.
  Proof.
    intros Hn H. destruct (x st) as [[a st']|p|] eqn:E; [| |done].
    - destruct (H a st' eq_refl) as [m Hm]. exists m. unfold mbind'. by rewrite E.
    - exists 0%nat. unfold mbind'. by rewrite E.
  Qed.
  Lemma halts_shift {A} (F : nat -> M St A) st : halts (fun m => F (S m)) st -> halts F st.
  Proof. intros [m H]. by exists (S m). Qed.
  Lemma halts_ext {A} (F G : nat -> M St A) st : (forall m, F m st = G m st) -> halts F st -> halts G st.
  Proof. intros E [m H]. exists m. by rewrite <-E. Qed.
  Lemma mono_const {A} (x : M St A) : mono (fun _ => x).
  Proof. intros n m _. apply m_le_refl. Qed.
  Lemma mono_bind {A B} (F : nat -> M St A) (K : nat -> A -> M St B) :
    mono F -> (forall a, mono (fun m => K m a)) -> mono (fun m => mbind' (F m) (K m)).
  Proof. intros H1 H2 n m Hm. apply m_le_bind; [by apply H1|]. intros a. by apply H2. Qed.
End halts.

(** ** Heads only gain keys and only lose pending evaluations while a
    left recursion is active. *)
Definition hle (c c' : cache) : Prop := forall r i h, hd c r i = Some h ->
  exists h', hd c' r i = Some h' /\ h_eval h' ⊆ h_eval h.
Lemma hle_refl c : hle c c.
Proof. intros r i h H. eauto. Qed.
Lemma hle_trans c1 c2 c3 : hle c1 c2 -> hle c2 c3 -> hle c1 c3.
Proof.
  intros H1 H2 r i h H. destruct (H1 r i h H) as (h' & H' & E). destruct (H2 r i h' H') as (h'' & H'' & E').
  exists h''. split; [done|]. by etrans.
Qed.
Lemma hle_heads c c' : c_heads c' = c_heads c -> hle c c'.
Proof. intros E r i h H. exists h. unfold hd in *. by rewrite E. Qed.

Definition hpost (c c' : cache) : Prop :=
  c_active c' = c_active c /\ (is_Some (c_active c) -> hle c c').
Lemma hpost_refl c : hpost c c.
Proof. split; [done|]. intros _. apply hle_refl. Qed.
Lemma hpost_trans c1 c2 c3 : hpost c1 c2 -> hpost c2 c3 -> hpost c1 c3.
Proof.
  intros [A1 H1] [A2 H2]. split; [congruence|]. intros Hs. eapply hle_trans; [by apply H1|].
  apply H2. by rewrite A1.
Qed.

Section term.
  Context {U : Type} (pr : program U) (s : list N) (fn : N -> N) (nul : N -> bool) (lvl : N -> nat).
  Context (Hs : N.of_nat (length s) < u32_modulus).
  Context (Hpr : program_wf pr fn) (Hwf : well_founded_program pr nul lvl) (Hhk : veto_hooks pr).
  Notation L := (N.of_nat (length s)).
  Notation src := (source_new s).
  Notation nl := (nullable nul).

  (** ** What a finished run leaves behind *)
  Definition span_ok (nu : bool) (x q : N) : Prop := x <= q <= L /\ (q = x -> nu = true).
  Record tame (c : cache) : Prop := mkTame {
    tm_memo : forall r i b q k, memo c r i = Some (b, q, k) -> (b = false -> q = i) /\ (b = true -> span_ok (nul (fn r)) i q);
    tm_act : forall r i, c_active c = Some (r, i) -> is_Some (hd c r i);
  }.
  Definition tpost (nu : bool) (x : N) (c : cache) (r : bool * N) (st' : pstate U) : Prop :=
    hpost c (cch st') /\ tame (cch st') /\ (fst r = false -> snd r = x) /\ (fst r = true -> span_ok nu x (snd r)).
  Definition keeps (nu : bool) (f : parser U) : Prop := forall parent x st, x <= L -> tame (cch st) ->
    pc (f parent x) st (tpost nu x (cch st)).

  Lemma tpost_trans nu x c1 c2 r st' : hpost c1 c2 -> tpost nu x c2 r st' -> tpost nu x c1 r st'.
  Proof. intros H (? & ? & ? & ?). split; [by eapply hpost_trans|done]. Qed.
  Lemma tpost_res nu nu' x x' c b q st' b' q' : tpost nu x c (b, q) st' ->
    (b' = false -> q' = x') -> (b' = true -> span_ok nu' x' q') -> tpost nu' x' c (b', q') st'.
  Proof. intros (? & ? & _ & _) ? ?. done. Qed.

  Lemma keeps_seq n1 n2 f1 f2 : keeps n1 f1 -> keeps n2 f2 -> keeps (n1 && n2) (sequence_kernel f1 f2).
  Proof.
    intros H1 H2 p x st Hx Ht. unfold sequence_kernel. apply wp_bind. eapply wp_mono; [by apply H1|].
    intros [b q] st1 HP1. pose proof HP1 as (Hh1 & Ht1 & _ & Hq1). simpl in *. destruct b.
    - destruct (Hq1 eq_refl) as [[? ?] ?]. apply wp_bind. eapply wp_mono; [apply H2; done|].
      intros [b2 q2] st2 HP2. pose proof HP2 as (Hh2 & Ht2 & _ & Hq2). simpl in *.
      destruct b2; apply wp_ret; eapply tpost_trans; try done; eapply tpost_res; try done.
      intros _. destruct (Hq2 eq_refl) as [[? ?] Hn2]. split; [lia|]. intros ->. apply andb_true_iff. split; [|apply Hn2; lia].
      match goal with H : q = x -> n1 = true |- _ => apply H end. lia.
    - apply wp_ret. by eapply tpost_res.
  Qed.
  Lemma span_or_l n1 n2 x q : span_ok n1 x q -> span_ok (n1 || n2) x q.
  Proof. intros [? H]. split; [done|]. intros E. by rewrite H. Qed.
  Lemma span_or_r n1 n2 x q : span_ok n2 x q -> span_ok (n1 || n2) x q.
  Proof. intros [? H]. split; [done|]. intros E. rewrite H by done. apply orb_true_r. Qed.
  Lemma span_here x : x <= L -> span_ok true x x.
  Proof. split; [lia|done]. Qed.
  Lemma span_weak nu x q : span_ok nu x q -> span_ok true x q.
  Proof. by intros [? _]. Qed.
  Lemma keeps_choice n1 n2 f1 f2 : keeps n1 f1 -> keeps n2 f2 -> keeps (n1 || n2) (ordered_choice_kernel f1 f2).
  Proof.
    intros H1 H2 p x st Hx Ht. unfold ordered_choice_kernel. apply wp_bind. eapply wp_mono; [by apply H1|].
    intros [b q] st1 HP1. pose proof HP1 as (Hh1 & Ht1 & _ & Hq1). simpl in *. destruct b.
    - apply wp_ret. eapply tpost_res; [done..|]. intros _. by apply span_or_l, Hq1.
    - apply wp_bind. eapply wp_mono; [apply H2; done|].
      intros [b2 q2] st2 HP2. pose proof HP2 as (Hh2 & Ht2 & _ & Hq2). simpl in *.
      destruct b2; apply wp_ret; eapply tpost_trans; try done; eapply tpost_res; try done.
      intros _. by apply span_or_r, Hq2.
  Qed.
  Lemma keeps_and nu f : keeps nu f -> keeps true (and_predicate_kernel f).
  Proof.
    intros H1 p x st Hx Ht. unfold and_predicate_kernel. apply wp_bind. eapply wp_mono; [by apply H1|].
    intros [[] q] st1 HP1; apply wp_ret; (eapply tpost_res; [done..|]); intros; try done; by apply span_here.
  Qed.
  Lemma keeps_not nu f : keeps nu f -> keeps true (not_predicate_kernel f).
  Proof.
    intros H1 p x st Hx Ht. unfold not_predicate_kernel. apply wp_bind. eapply wp_mono; [by apply H1|].
    intros [[] q] st1 HP1; apply wp_ret; (eapply tpost_res; [done..|]); intros; try done; by apply span_here.
  Qed.
  Lemma keeps_opt nu f : keeps nu f -> keeps true (optional_kernel f).
  Proof.
    intros H1 p x st Hx Ht. unfold optional_kernel. apply wp_bind. eapply wp_mono; [by apply H1|].
    intros [[] q] st1 HP1; pose proof HP1 as (_ & _ & _ & Hq1); apply wp_ret; (eapply tpost_res; [done..|]); intros;
      first [done|by apply span_here|by eapply span_weak, Hq1].
  Qed.
  Lemma keeps_sub nu f : keeps nu f -> keeps nu (subexpression_kernel f).
  Proof.
    intros H1 p x st Hx Ht. unfold subexpression_kernel. apply wp_bind. eapply wp_mono; [by apply H1|].
    intros [[] q] st1 HP1; apply wp_ret; pose proof HP1 as (_ & _ & _ & Hq1); by (eapply tpost_res; [done..|]).
  Qed.
  Lemma keeps_loop' nu f n : keeps nu f -> forall parent x st, x <= L -> tame (cch st) ->
    pc (repeat_loop n f parent x) st (fun r st' => fst r = true /\ tpost true x (cch st) r st').
  Proof.
    intros H1. induction n as [|n IH]; intros p x st Hx Ht; [done|]. cbn [repeat_loop].
    apply wp_bind. eapply wp_mono; [by apply H1|].
    intros [[] q] st1 HP1; pose proof HP1 as (Hh1 & Ht1 & _ & Hq1); simpl in *.
    - destruct (Hq1 eq_refl) as [[? ?] ?]. eapply wp_mono; [by apply IH|]. intros [b2 q2] st2 [E HP2]. simpl in E. subst b2.
      split; [done|]. eapply tpost_trans; [done|]. eapply tpost_res; [done|done|]. intros _. destruct HP2 as (_ & _ & _ & Hq2).
      destruct (Hq2 eq_refl) as [[? ?] _]. simpl in *. split; [lia|done].
    - apply wp_ret. split; [done|]. eapply tpost_res; [done..|]. intros _. by apply span_here.
  Qed.
  Lemma keeps_loop nu f n : keeps nu f -> keeps true (repeat_loop n f).
  Proof. intros H1 p x st Hx Ht. eapply wp_mono; [by eapply keeps_loop'|]. by intros r st' [_ ?]. Qed.
  Lemma keeps_plus nu f n : keeps nu f -> keeps nu (one_or_more_kernel n f).
  Proof.
    intros H1 p x st Hx Ht. unfold one_or_more_kernel. apply wp_bind. eapply wp_mono; [by apply H1|].
    intros [[] q] st1 HP1; pose proof HP1 as (Hh1 & Ht1 & _ & Hq1); simpl in *.
    - destruct (Hq1 eq_refl) as [[? ?] Hn]. eapply wp_mono; [by eapply keeps_loop'|]. intros [b2 q2] st2 [E HP2].
      simpl in E. subst b2. eapply tpost_trans; [done|]. eapply tpost_res; [done|done|]. intros _.
      destruct HP2 as (_ & _ & _ & Hq2). destruct (Hq2 eq_refl) as [[? ?] _]. simpl in *. split; [lia|]. intros ->. apply Hn. lia.
    - apply wp_ret. by eapply tpost_res.
  Qed.

  Lemma tame_ins c r x b q k : tame c -> (b = false -> q = x) -> (b = true -> span_ok (nul (fn r)) x q) ->
    tame (c_ins c r x (b, q, k)).
  Proof.
    intros [T1 T2] Hf Ht. split; [|done]. intros r' i b' q' k' Hm.
    destruct (decide ((r', i) = (r, x))) as [[= -> ->]|Hne].
    - rewrite memo_ins in Hm. by simplify_eq.
    - rewrite memo_ins_ne in Hm by done. by eapply T1.
  Qed.
  Lemma tame_hd c r x h : tame c -> tame (c_hd c r x h).
  Proof.
    intros [T1 T2]. split; [done|]. intros r' i HA. specialize (T2 r' i HA).
    destruct (decide ((r', i) = (r, x))) as [[= -> ->]|Hne]; [rewrite hd_hd; eauto|]. by rewrite hd_hd_ne.
  Qed.
  Lemma tame_act c a : tame c -> (forall r i, a = Some (r, i) -> is_Some (hd c r i)) -> tame (c_act c a).
  Proof. intros [T1 T2] H. split; [done|]. intros r i HA. by apply H. Qed.

  Lemma keeps_var r f : keeps (nul (fn r)) f -> keeps (nul (fn r)) (var_name_kernel r f).
  Proof.
    intros H1 p x st Hx Ht. unfold var_name_kernel. apply pc_get.
    change (check (st_ctx st) r x) with (memo (cch st) r x).
    destruct (memo (cch st) r x) as [[[b q] k]|] eqn:Em.
    - unfold memoized_behaviour. apply pc_connect. intros st1 E. apply wp_ret. unfold tpost. rewrite E.
      split; [apply hpost_refl|]. split; [done|]. by eapply (tm_memo _ Ht).
    - unfold default_behaviour. apply pc_reserve. intros k st1 E1. apply wp_bind.
      eapply wp_mono; [apply H1; [done|by rewrite E1]|].
      intros [b q] st2 (Hh & Ht2 & Hq1 & Hq2). apply pc_memo. intros st3 E3. apply pc_update. intros st4 E4. apply pc_connect. intros st5 E5.
      cbn [fst snd] in *. apply wp_ret. unfold tpost. rewrite E5, E4, E3. rewrite E1 in Hh. cbn [fst snd].
      split; [|split; [by apply tame_ins|done]].
      eapply hpost_trans; [exact Hh|]. split; [done|]. intros _. by apply hle_heads.
  Qed.

  (** Growth: state before is [c0]; [GS c0 r x c]: fine during growth. *)
  Definition GS (c0 : cache) (prev : option (N * N)) (r x : N) (c : cache) : Prop :=
    tame c /\ c_active c = Some (r, x) /\ (is_Some prev -> hd c0 r x = None /\ hle c0 c).
  Lemma GS_start c0 r x h : tame c0 -> (is_Some (c_active c0) -> hd c0 r x = None) ->
    GS c0 (c_active c0) r x (c_hd (c_act c0 (Some (r, x))) r x h).
  Proof.
    intros [T1 T2] Hn. split; [split|split].
    - done.
    - intros r' i [= <- <-]. rewrite hd_hd. eauto.
    - done.
    - intros Hp. specialize (Hn Hp). split; [done|]. intros r' i h' Hh'.
      assert (Hne : (r', i) <> (r, x)) by (intros [= -> ->]; congruence). rewrite hd_hd_ne by done. eauto.
  Qed.
  Lemma GS_reinit c0 prev r x c h : GS c0 prev r x c -> GS c0 prev r x (c_hd c r x h).
  Proof.
    intros (HT & HA & HP). split; [by apply tame_hd|]. split; [done|]. intros Hp. destruct (HP Hp) as [Hn Hle].
    split; [done|]. intros r' i h' Hh'. assert (Hne : (r', i) <> (r, x)) by (intros [= -> ->]; congruence).
    rewrite hd_hd_ne by done. by apply Hle.
  Qed.
  Lemma GS_body c0 prev r x c c' : GS c0 prev r x c -> tame c' -> hpost c c' -> GS c0 prev r x c'.
  Proof.
    intros (HT & HA & HP) HT' [E1 E2]. split; [done|]. split; [congruence|]. intros Hp. destruct (HP Hp) as [Hn Hle].
    split; [done|]. eapply hle_trans; [done|]. apply E2. by rewrite HA.
  Qed.
  Lemma GS_end c0 r x c b q k : tame c0 -> GS c0 (c_active c0) r x c -> (b = false -> q = x) -> (b = true -> span_ok (nul (fn r)) x q) ->
    let c' := c_ins (c_act c (c_active c0)) r x (b, q, k) in hpost c0 c' /\ tame c'.
  Proof.
    intros HT0 (HT & HA & HP) Hf Ht c'. split; [split; [done|]|].
    - intros Hp. eapply hle_trans; [by apply HP|]. by apply hle_heads.
    - apply tame_ins; [|done|done]. apply tame_act; [done|]. intros r' i E. rewrite E in HP.
      destruct (HP ltac:(eauto)) as [_ Hle]. destruct (tm_act _ HT0 r' i E) as [h Hh].
      destruct (Hle r' i h Hh) as (h' & ? & _). eauto.
  Qed.

  Lemma keeps_growth_loop r f n x c0 : tame c0 -> x <= L -> keeps (nul (fn r)) f -> forall p last lk ck st,
    GS c0 (c_active c0) r x (cch st) ->
    (fst last = false -> snd last = x) -> (fst last = true -> span_ok (nul (fn r)) x (snd last)) ->
    pc (growth_loop n r p x f (c_active c0) last lk ck) st (tpost (nul (fn r)) x c0).
  Proof.
    intros HT0 Hx H1. induction n as [|n IH]; intros p last lk ck st HG Hl1 Hl2; [done|].
    cbn [growth_loop]. destruct (c_heads (cch st) !! (r, x)) as [h|] eqn:Eh.
    2: { apply wp_bind. unfold wp, upd_ctx, with_ctx, reinitialize_eval_set. by rewrite Eh. }
    apply (pc_reinit _ _ _ h); [done|]. intros st1 E1.
    assert (HG1 : GS c0 (c_active c0) r x (cch st1)) by (rewrite E1; by apply GS_reinit).
    apply wp_bind. eapply wp_mono; [apply H1; [done|apply HG1]|].
    intros res st2 (Hh2 & Ht2 & Hq1 & Hq2). apply pc_get.
    pose proof (GS_body _ _ _ _ _ _ HG1 Ht2 Hh2) as HG2.
    assert (Hres : let '(ck', res') := match check (st_ctx st2) r x with Some (b, e, k) => (k, (b, e)) | None => (ck, res) end in
      (fst res' = false -> snd res' = x) /\ (fst res' = true -> span_ok (nul (fn r)) x (snd res'))).
    { change (check (st_ctx st2) r x) with (memo (cch st2) r x).
      destruct (memo (cch st2) r x) as [[[b q] k]|] eqn:Em; [|done]. by eapply (tm_memo _ Ht2). }
    destruct (match check (st_ctx st2) r x with Some (b, e, k) => (k, (b, e)) | None => (ck, res) end) as [ck' res'].
    destruct Hres as [Hr1 Hr2].
    apply pc_update. intros st3 E3. destruct (negb (fst res') || (snd res' <=? snd last)).
    - apply pc_connect. intros st4 E4. apply pc_active. intros st5 E5. apply pc_memo. intros st6 E6. apply wp_ret.
      unfold tpost. rewrite E6, E5, E4, E3.
      destruct (GS_end c0 r x (cch st2) (fst last) (snd last) lk HT0 HG2 Hl1 Hl2) as [? ?]. done.
    - apply pc_reserve. intros ck2 st4 E4. apply IH; [|done|done]. by rewrite E4, E3.
  Qed.

  (** The left-recursion entry, split by what it decides to do. *)
  Lemma lr_cases r inv f n p x st (Q : bool * N -> pstate U -> Prop) :
    tame (cch st) ->
    (forall st1, (is_Some (c_active (cch st)) -> hd (cch st) r x = None) ->
       cch st1 = c_act (cch st) (Some (r, x)) ->
       pc (growth_function n inv r f p x (c_active (cch st))) st1 Q) ->
    (forall a j h k st1, c_active (cch st) = Some (a, j) -> hd (cch st) a j = Some h -> r ∈ h_eval h ->
       cch st1 = c_hd (cch st) a j (Head (h_start h) (h_rule h) (h_involved h) (h_eval h ∖ {[r]})) ->
       pc (f k x) st1 (fun res st2 => forall st3, cch st3 = c_ins (cch st2) r x (fst res, snd res, k) -> Q res st3)) ->
    (forall b q k st1, memo (cch st) r x = Some (b, q, k) -> cch st1 = cch st -> Q (b, q) st1) ->
    (forall st1, cch st1 = cch st -> Q (false, x) st1) ->
    pc (var_name_kernel_indirect_left_recursion n inv r f p x) st Q.
  Proof.
    intros HT Hgrow Heval Hmemo Hfail.
    unfold var_name_kernel_indirect_left_recursion, should_go_into_growth_function.
    apply wp_bind. apply pc_get. unfold get_current_active_lr_position.
    assert (Hno : is_Some (c_active (cch st)) -> pc (do c <- get_ctx;
      match get_current_active_lr_position c with
      | Some active_lr_position =>
          do is_in_eval_set <- with_ctx (fun c0 => let! b := rule_in_eval_set c0 active_lr_position r in Ok (b, c0));
          (if is_in_eval_set then
            do current_key <- with_ctx (fun c0 => reserve_publisher_entry c0 r);
            do _ <- upd_ctx (fun c0 => remove_from_eval_set c0 active_lr_position r);
            do result <- f current_key x;
            do _ <- upd_ctx (fun c0 => update_publisher_entry c0 current_key (fst result) x (snd result));
            do _ <- upd_ctx (fun c0 => Ok (create_cache_entry c0 r (fst result) x (snd result) current_key));
            do _ <- upd_ctx (fun c0 => ctx_connect c0 p current_key); mret result
          else
            do c0 <- get_ctx;
            match check c0 r x with
            | Some (b, e, k) => do _ <- upd_ctx (fun c1 => ctx_connect_if_not_connected c1 p k); mret (b, e)
            | None => mret (false, x)
            end)
      | None => mpanic PExpectActive
      end) st Q).
    { intros [[a j] HA]. apply pc_get. unfold get_current_active_lr_position. rewrite HA.
      apply wp_bind. unfold wp at 1, with_ctx, rule_in_eval_set.
      destruct (c_heads (cch st) !! (a, j)) as [h|] eqn:Eh; [|done]. cbn [rbind sat fst snd].
      replace (PState (st_ctx st) (st_user st)) with st by (by destruct st).
      destruct (bool_decide (r ∈ h_eval h)) eqn:Ed.
      - apply bool_decide_eq_true in Ed.
        apply pc_reserve. intros k st1 E1. apply wp_bind. unfold wp at 1, upd_ctx, with_ctx, remove_from_eval_set.
        rewrite E1, Eh. cbn [rbind sat fst snd].
        match goal with |- wp _ _ ?S1 _ => set (st2 := S1) end.
        assert (E2 : cch st2 = c_hd (cch st) a j (Head (h_start h) (h_rule h) (h_involved h) (h_eval h ∖ {[r]}))).
        { subst st2. simpl. unfold c_hd. by rewrite E1. }
        clearbody st2. apply wp_bind. eapply wp_mono; [by eapply (Heval a j h k st2 HA Eh Ed)|]. intros res st3 HP3.
        apply pc_update. intros st4 E4. apply pc_memo. intros st5 E5. apply pc_connect. intros st6 E6. apply wp_ret.
        apply HP3. by rewrite E6, E5, E4.
      - apply pc_get. change (check (st_ctx st) r x) with (memo (cch st) r x).
        destruct (memo (cch st) r x) as [[[b q] k]|] eqn:Em.
        + apply pc_connect_if. intros st1 E. apply wp_ret. by eapply Hmemo.
        + apply wp_ret. by apply Hfail. }
    destruct (c_active (cch st)) as [[a j]|] eqn:HA.
    - change (check_head (st_ctx st) r x) with (hd (cch st) r x). destruct (hd (cch st) r x) as [h'|] eqn:Eh.
      + apply wp_ret. cbn [fst snd]. apply Hno. eauto.
      + apply wp_bind. unfold wp at 1, with_ctx, rule_in_involved_set.
        destruct (c_heads (cch st) !! (a, j)) as [h|] eqn:Eh'; [|done]. cbn [rbind sat fst snd].
        replace (PState (st_ctx st) (st_user st)) with st by (by destruct st).
        destruct (bool_decide (r ∈ h_involved h)).
        * apply wp_ret. cbn [fst snd]. apply Hno. eauto.
        * apply pc_active. intros st1 E1. apply wp_ret. cbn [fst snd]. by apply Hgrow.
    - apply pc_active. intros st1 E1. apply wp_ret. cbn [fst snd]. apply Hgrow; [|done]. by intros [? ?].
  Qed.

  Lemma keeps_lr r inv f n : keeps (nul (fn r)) f -> keeps (nul (fn r)) (var_name_kernel_indirect_left_recursion n inv r f).
  Proof.
    intros H1 p x st Hx HT. apply lr_cases; [done|..].
    - intros st1 Hn E1. unfold growth_function. apply pc_reserve. intros k2 st2 E2. apply pc_update. intros st3 E3.
      apply pc_reserve. intros k4 st4 E4. apply pc_set_head. intros st5 E5.
      apply keeps_growth_loop; [done|done|done| |done|done]. rewrite E5, E4, E3, E2, E1. by apply GS_start.
    - intros a j h k st1 HA Hh Hin E1. eapply wp_mono; [apply H1; [done|rewrite E1; by apply tame_hd]|].
      intros [b q] st2 (HP2 & HT2 & Hq1 & Hq2) st3 E3. cbn [fst snd] in *. unfold tpost. rewrite E3. cbn [fst snd].
      split; [|split; [by apply tame_ins|done]].
      eapply hpost_trans; [|eapply hpost_trans; [exact HP2|]].
      + rewrite E1. split; [done|]. intros _ r' i h' Hh'. destruct (decide ((r', i) = (a, j))) as [[= -> ->]|Hne].
        * rewrite hd_hd. eexists. split; [done|]. rewrite Hh in Hh'. simplify_eq. simpl. set_solver.
        * rewrite hd_hd_ne by done. eauto.
      + split; [done|]. intros _. by apply hle_heads.
    - intros b q k st1 Hm E1. unfold tpost. rewrite E1. split; [apply hpost_refl|]. split; [done|]. by eapply (tm_memo _ HT).
    - intros st1 E1. unfold tpost. rewrite E1. split; [apply hpost_refl|]. done.
  Qed.

  Lemma keeps_leaf nu (f : parser U) :
    (forall p x st, x <= L -> exists r, f p x st = Ok (r, st) /\ (fst r = false -> snd r = x) /\ (fst r = true -> span_ok nu x (snd r))) -> keeps nu f.
  Proof.
    intros H p x st Hx HT. destruct (H p x st Hx) as (r & E & H1 & H2). unfold wp. rewrite E. simpl.
    split; [apply hpost_refl|]. done.
  Qed.
  Lemma keeps_weak (nu nu' : bool) f : (nu = true -> nu' = true) -> keeps nu f -> keeps nu' f.
  Proof.
    intros Hn H p x st Hx HT. eapply wp_mono; [by apply H|]. intros r st' (? & ? & ? & Hq). split; [done|]. split; [done|].
    split; [done|]. intros E. destruct (Hq E) as [? ?]. split; auto.
  Qed.

  Lemma keeps_eval m e : expr_wf pr fn e -> keeps (nl (pexp_of e)) (eval pr src m e).
  Proof using All.
    revert e. induction m as [|m IH]; intros e He; [by intros p x st _ _|].
    assert (Hcall : forall f, is_Some (pr_fn pr f) ->
      keeps (nul f) (fun key position => match pr_fn pr f with
        | Some body => eval pr src m body key position | None => mpanic PNoFunction end)).
    { intros f [body Hb]. rewrite Hb. eapply keeps_weak; [by apply (Hwf f body Hb)|]. apply IH. by eapply Hpr. }
    destruct e; simpl in He; cbn [pexp_of eval nullable].
    - apply keeps_leaf. intros p x st Hx. rewrite terminal_eq by done. eexists. split; [done|]. case_decide as Hc; simpl; (split; [done|]); [|done].
      intros _. apply lookup_lt_Some in Hc. split; lia.
    - apply keeps_leaf. intros p x st Hx. unfold string_terminal_kernel. rewrite string_loop_eq by done. eexists. split; [done|].
      case_decide as Hc; simpl; (split; [done|]); [|done]. intros _. destruct data as [|c data].
      + simpl. rewrite N.add_0_r. by apply span_here.
      + pose proof (occurs_at_bound _ _ _ Hc ltac:(done)). simpl length in *. split; lia.
    - apply keeps_leaf. intros p x st Hx. rewrite range_eq by done. eexists. split; [done|].
      destruct (s !! N.to_nat x) as [v|] eqn:E; [|done]. destruct (_ && _); simpl; (split; [done|]); [|done].
      intros _. apply lookup_lt_Some in E. split; lia.
    - destruct He. apply keeps_seq; auto.
    - destruct He. apply keeps_choice; auto.
    - eapply keeps_and; auto.
    - eapply keeps_not; auto.
    - apply keeps_plus; auto.
    - eapply keeps_loop; auto.
    - eapply keeps_opt; auto.
    - apply keeps_sub; auto.
    - destruct He as [<- He]. apply keeps_var; auto.
    - auto.
    - destruct He as [<- He]. apply keeps_lr; auto.
    - destruct (Hhk h src) as (K & HK1 & HK2 & HK3). intros p x st Hx HT. unfold wp. rewrite HK1. apply wp_bind.
      eapply wp_mono; [by apply IH|]. intros r st1 HP1. unfold wp. destruct (K p x r st1) as [[r' st2]| |] eqn:EK; simpl; try done.
      destruct (HK3 _ _ _ _ _ _ EK) as [E1 E2]. destruct HP1 as (? & ? & ? & ?). unfold tpost. rewrite E1.
      destruct E2 as [->| ->]; done.
  Qed.

  (** ** Halting *)
  Lemma veto_mono : hooks_mono pr.
  Proof using Hhk.
    intros h sr f g Hfg k p st. destruct (Hhk h sr) as (K & HK & _ & _). rewrite !HK.
    apply m_le_bind; [apply Hfg|]. intros a. apply m_le_refl.
  Qed.

  Section prims.
    Context {B : Type}.
    Implicit Types K : nat -> unit -> M (pstate U) B.
    Implicit Types st : pstate U.
    Lemma h_reserve st r (K : nat -> N -> M (pstate U) B) :
      (forall k st1, cch st1 = cch st -> halts (fun m => K m k) st1) ->
      halts (fun m => mbind' (with_ctx (fun c => reserve_publisher_entry c r)) (K m)) st.
    Proof.
      intros H. apply halts_bind_const.
      - unfold with_ctx, reserve_publisher_entry, add_node. destruct (_ <? _); done.
      - intros k st1 E. apply H. unfold with_ctx, reserve_publisher_entry, add_node in E.
        destruct (_ <? _); simpl in E; by simplify_eq.
    Qed.
    Lemma h_upd st f K : (forall c, f c <> NoFuel) -> (forall c c', f c = Ok c' -> cx_cache c' = cx_cache c) ->
      (forall st1, cch st1 = cch st -> halts (fun m => K m tt) st1) ->
      halts (fun m => mbind' (upd_ctx f) (K m)) st.
    Proof.
      intros Hn Hc H. specialize (Hn (st_ctx st)). specialize (Hc (st_ctx st)). apply halts_bind_const.
      - unfold upd_ctx, with_ctx. by destruct (f (st_ctx st)).
      - intros [] st1 E. apply H. unfold upd_ctx, with_ctx in E. destruct (f (st_ctx st)); simpl in E; simplify_eq. by apply Hc.
    Qed.
    Ltac nofuel := repeat first [done | match goal with |- context [match ?x with Some _ => _ | None => _ end] => destruct x; cbn end
      | match goal with |- context [if ?x then _ else _] => destruct x; cbn end].
    Lemma h_connect st p k K :
      (forall st1, cch st1 = cch st -> halts (fun m => K m tt) st1) ->
      halts (fun m => mbind' (upd_ctx (fun c => ctx_connect c p k)) (K m)) st.
    Proof.
      apply h_upd.
      - intros c. unfold ctx_connect, connect, get_node, rbind. nofuel.
      - intros c c'. unfold ctx_connect. intros (p' & _ & [= <-])%rbind_Ok_inv. done.
    Qed.
    Lemma h_connect_if st p k K :
      (forall st1, cch st1 = cch st -> halts (fun m => K m tt) st1) ->
      halts (fun m => mbind' (upd_ctx (fun c => ctx_connect_if_not_connected c p k)) (K m)) st.
    Proof.
      apply h_upd.
      - intros c. unfold ctx_connect_if_not_connected, connect_if_not_connected, get_node, rbind. nofuel.
      - intros c c'. unfold ctx_connect_if_not_connected. intros (p' & _ & [= <-])%rbind_Ok_inv. done.
    Qed.
    Lemma h_update st k b i q K :
      (forall st1, cch st1 = cch st -> halts (fun m => K m tt) st1) ->
      halts (fun m => mbind' (upd_ctx (fun c => update_publisher_entry c k b i q)) (K m)) st.
    Proof.
      apply h_upd.
      - intros c. unfold update_publisher_entry, set_node_result, set_node_start_position, set_node_end_position, get_node, rbind.
        simpl. nofuel.
      - intros c c'. unfold update_publisher_entry.
        intros (p1 & _ & (p2 & _ & (p3 & _ & [= <-])%rbind_Ok_inv)%rbind_Ok_inv)%rbind_Ok_inv. done.
    Qed.
    Lemma h_pure st f K : (forall st1, cch st1 = cx_cache (f (st_ctx st)) -> halts (fun m => K m tt) st1) ->
      halts (fun m => mbind' (upd_ctx (fun c => Ok (f c))) (K m)) st.
    Proof. intros H. apply halts_bind_const; [done|]. intros [] st1 [= <-]. by apply H. Qed.
    Lemma h_reinit st i r h K : c_heads (cch st) !! (r, i) = Some h ->
      (forall st1, cch st1 = c_hd (cch st) r i (Head (h_start h) (h_rule h) (h_involved h) (h_involved h)) -> halts (fun m => K m tt) st1) ->
      halts (fun m => mbind' (upd_ctx (fun c => reinitialize_eval_set c r i)) (K m)) st.
    Proof.
      intros Hh H. apply halts_bind_const; unfold upd_ctx, with_ctx, reinitialize_eval_set; rewrite Hh; [done|].
      intros [] st1 [= <-]. by apply H.
    Qed.
    Lemma h_get st (K : nat -> context -> M (pstate U) B) :
      halts (fun m => K m (st_ctx st)) st -> halts (fun m => mbind' get_ctx (K m)) st.
    Proof. intros H. apply halts_bind_const; [done|]. by intros c st1 [= <- <-]. Qed.
  End prims.
  Lemma h_ret {A} (a : A) (st : pstate U) : halts (fun _ => mret a) st.
  Proof. by exists 0%nat. Qed.

  Definition pmono (F : nat -> parser U) : Prop := forall n m, (n <= m)%nat -> p_le (F n) (F m).
  Lemma pmono_m F k x : pmono F -> mono (fun m => F m k x).
  Proof. intros H n m Hm st. by apply H. Qed.

  Lemma growth_halts r x c0 (F : nat -> parser U) (Hp : pmono F) :
    tame c0 -> x <= L -> (forall m, keeps (nul (fn r)) (F m)) ->
    (forall k st, GS c0 (c_active c0) r x (cch st) -> halts (fun m => F m k x) st) ->
    forall p last lk ck st, GS c0 (c_active c0) r x (cch st) ->
    (fst last = false -> snd last = x) -> (fst last = true -> span_ok (nul (fn r)) x (snd last)) ->
    halts (fun m => growth_loop m r p x (F m) (c_active c0) last lk ck) st.
  Proof.
    intros HT0 Hx HK HF p last.
    remember (N.to_nat (L + 1 - snd last)) as d eqn:Ed. revert last Ed.
    induction d as [d IH] using lt_wf_ind. intros last Ed lk ck st HG Hl1 Hl2.
    enough (exists k, halts (fun m => growth_loop (S k) r p x (F m) (c_active c0) last lk ck) st) as [k [m Hm]].
    { exists (S (k `max` m))%nat.
      assert (Hle := growth_loop_mono (F m) (F (S (k `max` m))%nat) (S k) (S (k `max` m)) ltac:(apply Hp; lia) ltac:(lia) r p x (c_active c0) last lk ck st).
      unfold res_le in Hle. by rewrite Hle. }
    pose proof HG as (HT & HA & HP).
    destruct (tm_act _ HT r x HA) as [h Hh].
    set (st1 := PState (with_heads (st_ctx st) (<[(r, x) := Head (h_start h) (h_rule h) (h_involved h) (h_involved h)]> (c_heads (cch st)))) (st_user st)).
    assert (E1 : cch st1 = c_hd (cch st) r x (Head (h_start h) (h_rule h) (h_involved h) (h_involved h))) by done.
    assert (HG1 : GS c0 (c_active c0) r x (cch st1)) by (rewrite E1; by apply GS_reinit).
    destruct (HF ck st1 HG1) as [m0 Hm0].
    destruct (F m0 ck x st1) as [[res st2]|pn|] eqn:EF; [| |done].
    2: { exists 0%nat, m0. cbn [growth_loop]. unfold mbind' at 1, upd_ctx, with_ctx, reinitialize_eval_set. unfold hd in Hh. rewrite Hh. cbn [rbind].
         unfold mbind' at 1. fold st1. by rewrite EF. }
    pose proof (wp_Ok _ _ _ _ _ _ (HK m0 ck x st1 Hx (proj1 HG1)) EF) as (Hh2 & Ht2 & Hq1 & Hq2).
    pose proof (GS_body _ _ _ _ _ _ HG1 Ht2 Hh2) as HG2.
    destruct (match check (st_ctx st2) r x with Some (b, e, k) => (k, (b, e)) | None => (ck, res) end) as [ck' res'] eqn:Er.
    assert (Hres : (fst res' = false -> snd res' = x) /\ (fst res' = true -> span_ok (nul (fn r)) x (snd res'))).
    { change (check (st_ctx st2) r x) with (memo (cch st2) r x) in Er.
      destruct (memo (cch st2) r x) as [[[b q] k]|] eqn:Em; simplify_eq; [|done]. by eapply (tm_memo _ Ht2). }
    destruct Hres as [Hr1 Hr2].
    assert (Hstep : forall k m, (m0 <= m)%nat -> growth_loop (S k) r p x (F m) (c_active c0) last lk ck st =
      mbind' (upd_ctx (fun c => update_publisher_entry c ck' (fst res') x (snd res'))) (fun _ =>
      if negb (fst res') || (snd res' <=? snd last) then
        do _ <- upd_ctx (fun c => ctx_connect c p lk);
        do _ <- upd_ctx (fun c => Ok (set_current_active_lr_position c (c_active c0)));
        do _ <- upd_ctx (fun c => Ok (create_cache_entry c r (fst last) x (snd last) lk));
        mret last
      else
        do current_key <- with_ctx (fun c => reserve_publisher_entry c r);
        growth_loop k r p x (F m) (c_active c0) res' ck' current_key) st2).
    { intros k m Hm. cbn [growth_loop]. unfold mbind' at 1, upd_ctx at 1, with_ctx at 1, reinitialize_eval_set. unfold hd in Hh. rewrite Hh. cbn [rbind].
      fold st1. unfold mbind' at 1. rewrite (res_le_Ok _ _ _ (Hp m0 m Hm ck x st1) EF). cbn [rbind].
      unfold mbind' at 1, get_ctx at 1. cbn [rbind]. by rewrite Er. }
    assert (Hlast : snd last <= L + 1).
    { destruct (fst last) eqn:E; [destruct (Hl2 eq_refl); lia|]. rewrite Hl1 by done. lia. }
    destruct (negb (fst res') || (snd res' <=? snd last)) eqn:Estop.
    - exists 0%nat, m0. rewrite Hstep by done.
      enough (H : halts (fun _ => mbind' (upd_ctx (fun c => update_publisher_entry c ck' (fst res') x (snd res'))) (fun _ =>
        do _ <- upd_ctx (fun c => ctx_connect c p lk);
        do _ <- upd_ctx (fun c => Ok (set_current_active_lr_position c (c_active c0)));
        do _ <- upd_ctx (fun c => Ok (create_cache_entry c r (fst last) x (snd last) lk));
        mret last)) st2) by (by destruct H).
      apply (h_update (B:=bool*N) _ _ _ _ _ (fun _ _ => _)). intros st3 _.
      apply (h_connect (B:=bool*N) _ _ _ (fun _ _ => _)). intros st4 _. by exists 0%nat.
    - assert (H : halts (fun m => mbind' (upd_ctx (fun c => update_publisher_entry c ck' (fst res') x (snd res'))) (fun _ =>
        do current_key <- with_ctx (fun c => reserve_publisher_entry c r);
        growth_loop m r p x (F m) (c_active c0) res' ck' current_key)) st2).
      { apply h_update. intros st3 E3. apply h_reserve. intros ck2 st4 E4.
        apply orb_false_iff in Estop as [Eb Hgt]. apply negb_false_iff in Eb. apply N.leb_gt in Hgt.
        destruct (Hr2 Eb) as [[? ?] ?].
        eapply (IH (N.to_nat (L + 1 - snd res'))); [lia|done|by rewrite E4, E3|done|done]. }
      destruct H as [m1 Hm1]. set (m2 := (m0 `max` m1)%nat). exists m2, m2. rewrite Hstep by lia.
      match goal with H : ?X <> NoFuel |- ?Y <> NoFuel => enough (E : Y = X) by (by rewrite E) end.
      match goal with |- ?A ?st = ?B ?st => assert (Hle : m_le B A) end; [|by apply Hle].
      apply m_le_bind; [apply m_le_refl|intros _]. apply m_le_bind; [apply m_le_refl|intros ck2].
      apply growth_loop_mono; [apply Hp; lia|lia].
  Qed.

  Lemma lr_halts r inv (F : nat -> parser U) p x st (Hp : pmono F) :
    tame (cch st) ->
    (forall st1, (is_Some (c_active (cch st)) -> hd (cch st) r x = None) ->
       cch st1 = c_act (cch st) (Some (r, x)) ->
       halts (fun m => growth_function m inv r (F m) p x (c_active (cch st))) st1) ->
    (forall a j h k st1, c_active (cch st) = Some (a, j) -> hd (cch st) a j = Some h -> r ∈ h_eval h ->
       cch st1 = c_hd (cch st) a j (Head (h_start h) (h_rule h) (h_involved h) (h_eval h ∖ {[r]})) ->
       halts (fun m => F m k x) st1) ->
    halts (fun m => var_name_kernel_indirect_left_recursion m inv r (F m) p x) st.
  Proof.
    intros HT Hgrow Heval. assert (Est : PState (st_ctx st) (st_user st) = st) by (by destruct st).
    assert (Hcut : forall (b : bool) prev st1,
      should_go_into_growth_function r x st = Ok ((b, prev), st1) ->
      (if b then prev = c_active (cch st) /\ (is_Some (c_active (cch st)) -> hd (cch st) r x = None) /\ cch st1 = c_act (cch st) (Some (r, x))
       else st1 = st /\ is_Some (c_active (cch st)))).
    { intros b prev st1. unfold should_go_into_growth_function, mbind', get_ctx, mret, upd_ctx, with_ctx. cbn [rbind].
      unfold get_current_active_lr_position. destruct (c_active (cch st)) as [[a j]|] eqn:HA; cbn [rbind].
      - change (check_head (st_ctx st) r x) with (hd (cch st) r x). destruct (hd (cch st) r x) as [h'|] eqn:Eh; [by intros [= <- <- <-]; eauto|].
        unfold rule_in_involved_set. destruct (c_heads (cch st) !! (a, j)) as [h|]; [|done]. cbn [rbind].
        destruct (bool_decide _); cbn [rbind]; intros [= <- <- <-].
        + split; [by rewrite Est|eauto].
        + done.
      - intros [= <- <- <-]. split; [done|]. split; [by intros [? ?]|done]. }
    unfold var_name_kernel_indirect_left_recursion. apply halts_bind_const.
    { unfold should_go_into_growth_function, mbind', get_ctx, mret, upd_ctx, with_ctx. cbn [rbind].
      destruct (get_current_active_lr_position _) as [[a j]|]; [|done]. destruct (check_head _ _ _); [done|].
      unfold rule_in_involved_set. cbn [rbind]. destruct (c_heads _ !! _); [|done]. cbn [rbind]. by destruct (bool_decide _). }
    intros [b prev] st1 E. specialize (Hcut b prev st1 E). destruct b; cbn [fst snd].
    { destruct Hcut as (-> & Hn & E1). by apply Hgrow. }
    destruct Hcut as (-> & [[a j] HA]). apply h_get. unfold get_current_active_lr_position. rewrite HA.
    apply halts_bind_const.
    { unfold with_ctx, rule_in_eval_set. by destruct (c_heads _ !! _). }
    intros ev st1 E1. unfold with_ctx, rule_in_eval_set in E1. destruct (c_heads (cch st) !! (a, j)) as [h|] eqn:Eh; [|done].
    cbn [rbind] in E1. injection E1 as <- <-. rewrite Est.
    destruct (bool_decide (r ∈ h_eval h)) eqn:Ed.
    - apply bool_decide_eq_true in Ed. apply h_reserve. intros k st1 E1. apply halts_bind_const.
      { unfold upd_ctx, with_ctx, remove_from_eval_set. by rewrite E1, Eh. }
      intros [] st2 E2. unfold upd_ctx, with_ctx, remove_from_eval_set in E2. rewrite E1, Eh in E2. cbn [rbind] in E2. injection E2 as <-.
      apply halts_bind.
      + by apply pmono_m.
      + intros res. apply mono_const.
      + eapply (Heval a j h k); [done|done|done|]. simpl. unfold c_hd. by rewrite E1.
      + intros m res st3 _. apply (h_update (B:=bool*N) _ _ _ _ _ (fun _ _ => _)). intros st4 _.
        apply (h_pure (B:=bool*N) _ (fun c => create_cache_entry c r (fst res) x (snd res) k) (fun _ _ => _)). intros st5 _.
        apply (h_connect (B:=bool*N) _ _ _ (fun _ _ => _)). intros st6 _. apply h_ret.
    - apply (h_get (B:=bool*N) _ (fun _ _ => _)). destruct (check _ _ _) as [[[b q] k]|]; [|apply h_ret].
      apply (h_connect_if (B:=bool*N) _ _ _ (fun _ _ => _)). intros st1 _. apply h_ret.
  Qed.

  Lemma loop_halts (F : nat -> parser U) (Hp : pmono F) (I : N -> cache -> Prop) :
    (forall m, keeps false (F m)) ->
    (forall x c c' q, I x c -> hpost c c' -> tame c -> x < q <= L -> I q c') ->
    (forall p x st, x <= L -> tame (cch st) -> I x (cch st) -> halts (fun m => F m p x) st) ->
    forall p x st, x <= L -> tame (cch st) -> I x (cch st) -> halts (fun m => repeat_loop m (F m) p x) st.
  Proof.
    intros HK HI HF p x. remember (N.to_nat (L - x)) as d eqn:Ed. revert x Ed.
    induction d as [d IH] using lt_wf_ind. intros x Ed st Hx HT Hi.
    enough (exists k, halts (fun m => repeat_loop (S k) (F m) p x) st) as [k [m Hm]].
    { exists (S (k `max` m))%nat.
      assert (Hle := loop_mono (F m) (F (S (k `max` m))%nat) (S k) (S (k `max` m)) ltac:(apply Hp; lia) ltac:(lia) p x st).
      unfold res_le in Hle. by rewrite Hle. }
    destruct (HF p x st Hx HT Hi) as [m0 Hm0]. destruct (F m0 p x st) as [[[b q] st1]|pn|] eqn:EF; [| |done].
    - pose proof (wp_Ok _ _ _ _ _ _ (HK m0 p x st Hx HT) EF) as (Hh1 & Ht1 & _ & Hq). cbn [fst snd] in *. destruct b.
      + destruct (Hq eq_refl) as [Hb Hne]. assert (x <> q) by (intros ->; by specialize (Hne eq_refl)).
        destruct (IH (N.to_nat (L - q)) ltac:(lia) q eq_refl st1 ltac:(lia) Ht1) as [m1 Hm1]; [eapply HI; eauto; lia|].
        set (m2 := (m0 `max` m1)%nat). exists m2, m2. cbn [repeat_loop]. unfold mbind' at 1.
        rewrite (res_le_Ok _ _ _ (Hp m0 m2 ltac:(lia) p x st) EF). cbn [rbind].
        assert (Hle := loop_mono (F m1) (F m2) m1 m2 ltac:(apply Hp; lia) ltac:(lia) p q st1).
        unfold res_le in Hle. cbn [negb]. by rewrite Hle.
      + exists 0%nat, m0. cbn [repeat_loop]. unfold mbind' at 1. by rewrite EF.
    - exists 0%nat, m0. cbn [repeat_loop]. unfold mbind' at 1. by rewrite EF.
  Qed.

  (** ** The measure *)
  Context (R : gset N) (HR : lr_labels_in pr R).
  Definition mA (x : N) : nat := N.to_nat (L - x).
  Definition mB (c : cache) : nat := match c_active c with None => 1%nat | Some _ => 0%nat end.
  Definition missing (c : cache) (x : N) : gset N := filter (fun r => ~ is_Some (hd c r x)) R.
  Definition mC (c : cache) (x : N) : nat := match c_active c with None => 0%nat | Some _ => size (missing c x) end.
  Definition mD (c : cache) : nat :=
    match c_active c with
    | None => 0%nat
    | Some (a, j) => match hd c a j with Some h => size (h_eval h) | None => 0%nat end
    end.
  Definition le4 (a b c d a' b' c' d' : nat) : Prop :=
    lt4 a b c d a' b' c' d' \/ (a = a' /\ b = b' /\ c = c' /\ d = d').

  Lemma missing_mono c c' x : hle c c' -> missing c' x ⊆ missing c x.
  Proof.
    intros H r. unfold missing. rewrite !elem_of_filter. intros [Hn Hin]. split; [|done].
    intros [h Hh]. destruct (H r x h Hh) as (h' & Hh' & _). apply Hn. eauto.
  Qed.
  Lemma meas_mono c c' x : tame c -> hpost c c' -> mB c' = mB c /\ (mC c' x <= mC c x)%nat /\ (mD c' <= mD c)%nat.
  Proof.
    intros HT [E H]. unfold mB, mC, mD. rewrite E. destruct (c_active c) as [[a j]|] eqn:HA; [|done].
    specialize (H ltac:(eauto)). split; [done|]. split.
    - apply subseteq_size. by apply missing_mono.
    - destruct (tm_act _ HT a j HA) as [h Hh]. destruct (H a j h Hh) as (h' & Hh' & Hsz). rewrite Hh, Hh'. by apply subseteq_size.
  Qed.

  Definition below (a b c d : nat) (start : bool) (x : N) (ch : cache) : Prop :=
    le4 (mA x) (mB ch) (mC ch x) (mD ch) a b c d /\ (start = false -> (mA x < a)%nat).

  Lemma below_step a b c d start start' x ch ch' q : below a b c d start x ch -> tame ch -> hpost ch ch' -> x <= q <= L ->
    (start = true -> start' = false -> x < q) -> below a b c d start' q ch'.
  Proof.
    intros [H1 H2] HT HP Hq Hsz. destruct (decide (q = x)) as [->|Hne].
    - destruct (meas_mono ch ch' x HT HP) as (E1 & E2 & E3). split.
      + unfold le4, lt4 in *. lia.
      + intros ->. destruct start; [|auto]. specialize (Hsz eq_refl eq_refl). lia.
    - assert (mA q < mA x)%nat by (unfold mA; lia). split.
      + unfold le4, lt4 in *. lia.
      + intros _. unfold le4, lt4 in *. lia.
  Qed.

  Definition call (m : nat) (f : N) : parser U := fun key position =>
    match pr_fn pr f with Some body => eval pr src m body key position | None => mpanic PNoFunction end.
  Lemma eval_pmono e : pmono (fun m => eval pr src m e).
  Proof using Hhk. intros n m Hm. apply eval_mono; [apply veto_mono|done]. Qed.
  Lemma eval_m e p x : mono (fun m => eval pr src m e p x).
  Proof using Hhk. apply (pmono_m (fun m => eval pr src m e) p x), eval_pmono. Qed.
  Lemma call_pmono f : pmono (fun m => call m f).
  Proof using Hhk.
    intros n m Hm k p. unfold call. destruct (pr_fn pr f); [|apply m_le_refl]. apply eval_mono; [apply veto_mono|done].
  Qed.
  Lemma call_keeps m r f : fn r = f -> is_Some (pr_fn pr f) -> keeps (nul (fn r)) (call m f).
  Proof using Hhk Hpr Hs Hwf.
    intros <- [body Hb]. unfold call. rewrite Hb. eapply keeps_weak; [by apply (Hwf _ body Hb)|]. apply keeps_eval. by eapply Hpr.
  Qed.

  Definition Terminates (a b c d n : nat) : Prop := forall e start, expr_wf pr fn e -> guarded nul lvl n start e ->
    (forall r, r ∈ lr_labels e -> r ∈ R) -> forall p x st, x <= L -> tame (cch st) -> below a b c d start x (cch st) ->
    halts (fun m => eval pr src m e p x) st.

  Lemma le4_refl a b c d : le4 a b c d a b c d.
  Proof. right. done. Qed.

  Theorem eval_halts a b c d : forall n, Terminates a b c d n.
  Proof using All.
    revert a b c d. refine (lt4_ind _ _). intros a b c d IHm.
    induction n as [n IHn] using lt_wf_ind. intros e.
    (* calling a function without the left-recursion entry *)
    assert (Hcall : forall f start p x st, is_Some (pr_fn pr f) -> (start = true -> (lvl f < n)%nat) -> x <= L -> tame (cch st) ->
      below a b c d start x (cch st) -> halts (fun m => call m f p x) st).
    { intros f start p x st [body Hb] Hl Hx HT [Hm Hst]. unfold call. rewrite Hb.
      destruct (Hwf f body Hb) as [Hgd _]. destruct start.
      - eapply (IHn (lvl f)); [auto|by eapply Hpr|exact Hgd|intros; by eapply HR|done|done|]. by split.
      - specialize (Hst eq_refl). eapply (IHm (mA x) (mB (cch st)) (mC (cch st) x) (mD (cch st))); [by left|by eapply Hpr|exact Hgd|intros; by eapply HR|done|done|].
        split; [apply le4_refl|done]. }
    (* running a body at a strictly smaller measure, at the same position *)
    assert (Hsmall : forall f p x st, is_Some (pr_fn pr f) -> x <= L -> tame (cch st) ->
      lt4 (mA x) (mB (cch st)) (mC (cch st) x) (mD (cch st)) a b c d -> halts (fun m => call m f p x) st).
    { intros f p x st [body Hb] Hx HT Hlt. unfold call. rewrite Hb. destruct (Hwf f body Hb) as [Hgd _].
      eapply (IHm _ _ _ _ Hlt); [by eapply Hpr|exact Hgd|intros; by eapply HR|done|done|]. split; [apply le4_refl|done]. }
    induction e; intros sb Hwfe Hgd Hlr p x st Hx HT HB; apply halts_shift; simpl in Hwfe, Hgd, Hlr; cbn [eval].
    - by exists 0%nat; rewrite terminal_eq.
    - exists 0%nat. unfold string_terminal_kernel. by rewrite string_loop_eq.
    - by exists 0%nat; rewrite range_eq.
    - destruct Hwfe as [W1 W2], Hgd as [G1 G2]. unfold sequence_kernel. apply halts_bind.
      + apply eval_m.
      + intros [[] q]; [|apply mono_const]. apply mono_bind; [apply eval_m|]. intros [[] ?]; apply mono_const.
      + eapply IHe1; [done|done| |done|done|done]. intros r Hr. apply Hlr, elem_of_app. by left.
      + intros m [b1 q] st1 E. pose proof (wp_Ok _ _ _ _ _ _ (keeps_eval m e1 W1 p x st Hx HT) E) as (Hh1 & Ht1 & _ & Hq1).
        cbn [fst snd] in *. destruct b1; [|apply h_ret]. destruct (Hq1 eq_refl) as [Hb Hn].
        apply halts_bind; [apply eval_m|intros [[] ?]; apply mono_const| |intros _ [[] ?] ? _; apply h_ret].
        eapply IHe2; [done|exact G2| |lia|done|].
        * intros r Hr. apply Hlr, elem_of_app. by right.
        * eapply below_step; [done|done|done|lia|]. intros -> En. simpl in En. assert (q <> x); [|lia]. intros E'. specialize (Hn E'). congruence.
    - destruct Hwfe as [W1 W2], Hgd as [G1 G2]. unfold ordered_choice_kernel. apply halts_bind.
      + apply eval_m.
      + intros [[] q]; [apply mono_const|]. apply mono_bind; [apply eval_m|]. intros [[] ?]; apply mono_const.
      + eapply IHe1; [done|done| |done|done|done]. intros r Hr. apply Hlr, elem_of_app. by left.
      + intros m [b1 q] st1 E. pose proof (wp_Ok _ _ _ _ _ _ (keeps_eval m e1 W1 p x st Hx HT) E) as (Hh1 & Ht1 & _ & Hq1).
        cbn [fst snd] in *. destruct b1; [apply h_ret|].
        apply halts_bind; [apply eval_m|intros [[] ?]; apply mono_const| |intros _ [[] ?] ? _; apply h_ret].
        eapply IHe2; [done|exact G2| |lia|done|].
        * intros r Hr. apply Hlr, elem_of_app. by right.
        * eapply below_step; [done|done|done|lia|]. intros -> ?. done.
    - unfold and_predicate_kernel. apply halts_bind; [apply eval_m|intros [[] ?]; apply mono_const| |intros _ [[] ?] ? _; apply h_ret]. eauto.
    - unfold not_predicate_kernel. apply halts_bind; [apply eval_m|intros [[] ?]; apply mono_const| |intros _ [[] ?] ? _; apply h_ret]. eauto.
    - (* + *)
      destruct Hgd as [Hn Hgd]. assert (HK : forall m, keeps false (eval pr src m e)) by (intros m; rewrite <-Hn; by apply keeps_eval).
      unfold one_or_more_kernel. apply halts_bind.
      + apply eval_m.
      + intros [[] q]; cbn [negb fst snd]; [|apply mono_const]. intros m1 m2 Hm. apply loop_mono; [by apply eval_pmono|done].
      + eauto.
      + intros m [b1 q] st1 E. pose proof (wp_Ok _ _ _ _ _ _ (HK m p x st Hx HT) E) as (Hh1 & Ht1 & _ & Hq1).
        cbn [fst snd] in *. destruct b1; [|apply h_ret]. destruct (Hq1 eq_refl) as [Hb Hne].
        eapply (loop_halts _ (eval_pmono e) (below a b c d sb)); [done| | |lia|done|].
        * intros x' c1 c2 q' HB' HP' HT' Hq'. eapply below_step; [done|done|done|lia|lia].
        * intros p' x' st' Hx' HT' HB'. eauto.
        * eapply below_step; [done|done|done|lia|]. intros -> ?. done.
    - (* * *)
      destruct Hgd as [Hn Hgd]. assert (HK : forall m, keeps false (eval pr src m e)) by (intros m; rewrite <-Hn; by apply keeps_eval).
      unfold zero_or_more_kernel. eapply (loop_halts _ (eval_pmono e) (below a b c d sb)); [done| | |done|done|done].
      * intros x' c1 c2 q' HB' HP' HT' Hq'. eapply below_step; [done|done|done|lia|lia].
      * intros p' x' st' Hx' HT' HB'. eauto.
    - unfold optional_kernel. apply halts_bind; [apply eval_m|intros [[] ?]; apply mono_const| |intros _ [[] ?] ? _; apply h_ret]. eauto.
    - unfold subexpression_kernel. apply halts_bind; [apply eval_m|intros [[] ?]; apply mono_const| |intros _ [[] ?] ? _; apply h_ret]. eauto.
    - (* EVar *)
      destruct Hwfe as [Hfn Hf]. unfold var_name_kernel. apply h_get. destruct (check _ _ _) as [[[b1 q] k]|].
      + unfold memoized_behaviour. apply (h_connect (B:=bool*N) _ _ _ (fun _ _ => _)). intros; apply h_ret.
      + unfold default_behaviour. apply h_reserve. intros k st1 E1. apply halts_bind.
        * apply (pmono_m (fun m => call m f) k x), (call_pmono f).
        * intros ?. apply mono_const.
        * eapply (Hcall f sb); [done|done|done|by rewrite E1|by rewrite E1].
        * intros m res st2 _. apply (h_pure (B:=bool*N) _ (fun c => create_cache_entry c rule (fst res) x (snd res) k) (fun _ _ => _)). intros st3 _.
          apply (h_update (B:=bool*N) _ _ _ _ _ (fun _ _ => _)). intros st4 _.
          apply (h_connect (B:=bool*N) _ _ _ (fun _ _ => _)). intros st5 _. apply h_ret.
    - (* EInline *) by eapply (Hcall f sb).
    - (* ELR *)
      destruct Hwfe as [Hfn Hf]. destruct HB as [HB _].
      assert (Hin : rule ∈ R) by (apply Hlr, elem_of_list_singleton; done).
      apply (lr_halts rule involved (fun m => call m f) p x st (call_pmono f) HT).
      + intros st1 Hn E1. unfold growth_function.
        apply h_reserve. intros k2 st2 E2. apply h_update. intros st3 E3. apply h_reserve. intros k4 st4 E4.
        apply (h_pure _ (fun c => set_head c x rule (convert_vec_to_btree_set involved))). intros st5 E5.
        set (h0 := Head x rule (convert_vec_to_btree_set involved) (convert_vec_to_btree_set involved)).
        assert (E : cch st5 = c_hd (c_act (cch st) (Some (rule, x))) rule x h0).
        { rewrite E5. unfold set_head, with_heads, c_hd. simpl. by rewrite E4, E3, E2, E1. }
        eapply (growth_halts rule x (cch st)); [apply call_pmono|done|done|intros m; by apply call_keeps| |rewrite E; by apply GS_start|done|done].
        intros k st6 (HT6 & HA6 & HP6). apply Hsmall; [done|done|done|].
        assert (HB6 : mB (cch st6) = 0%nat) by (unfold mB; by rewrite HA6).
        destruct (c_active (cch st)) as [[a' j]|] eqn:HA.
        * assert (HB0 : mB (cch st) = 0%nat) by (unfold mB; by rewrite HA).
          destruct (HP6 ltac:(eauto)) as [Hnone Hle].
          assert (HC : (mC (cch st6) x < mC (cch st) x)%nat).
          { unfold mC. rewrite HA6, HA. apply subset_size. split; [by apply missing_mono|].
            intros Hsub. assert (Hi : rule ∈ missing (cch st) x).
            { apply elem_of_filter. split; [|done]. rewrite Hnone. by intros [? ?]. }
            apply Hsub, elem_of_filter in Hi as [Hi _]. apply Hi. by apply (tm_act _ HT6). }
          unfold le4, lt4 in *. lia.
        * assert (HB0 : mB (cch st) = 1%nat) by (unfold mB; by rewrite HA). unfold le4, lt4 in *. lia.
      + intros a' j h k st1 HA Hh Hev E1. apply Hsmall; [done|done|rewrite E1; by apply tame_hd|].
        assert (HB1 : mB (cch st1) = mB (cch st)) by (rewrite E1; done).
        assert (HC1 : (mC (cch st1) x <= mC (cch st) x)%nat).
        { unfold mC. rewrite E1. simpl. rewrite HA. apply subseteq_size. intros r'. unfold missing. rewrite !elem_of_filter.
          intros [Hm ?]. split; [|done]. intros [h' Hh']. apply Hm. destruct (decide ((r', x) = (a', j))) as [[= -> ->]|Hne]; [rewrite hd_hd; eauto|].
          rewrite hd_hd_ne by done. eauto. }
        assert (HD1 : (mD (cch st1) < mD (cch st))%nat).
        { unfold mD. rewrite E1. simpl. rewrite HA, hd_hd, Hh. simpl. apply subset_size. set_solver. }
        unfold le4, lt4 in *. lia.
    - (* hook *)
      destruct (Hhk h src) as (K & HK1 & HK2 & HK3). apply (halts_ext (fun m => mbind' (eval pr src m e p x) (K p x))); [intros m; symmetry; apply HK1|].
      apply (halts_bind _ (fun _ => K p x)); [apply eval_m|intros ?; apply mono_const|eauto|].
      intros m r st1 _. exists 0%nat. apply HK2.
  Qed.

  Lemma tame_init : tame cache_new.
  Proof. split; [|done]. intros r i b q k Hm. by unfold memo in Hm. Qed.

  Corollary eval_total n e p x st : expr_wf pr fn e -> guarded nul lvl n true e -> (forall r, r ∈ lr_labels e -> r ∈ R) ->
    x <= L -> tame (cch st) -> exists m, eval pr src m e p x st <> NoFuel.
  Proof using All.
    intros H1 H2 H3 Hx HT. eapply (eval_halts (mA x) (mB (cch st)) (mC (cch st) x) (mD (cch st)) n e true); [done..|].
    split; [apply le4_refl|done].
  Qed.
End term.
