(** Proofs about left recursion round a cycle of rules (SpecCycle.v): only the
    answers matter here, so the node store is followed no further than that it
    does not change the memo table. *)
From Verif Require Import SpecCycle ProofBasics ProofPeg ProofSound.
Local Open Scope N_scope.

Notation W := (wp (fun _ => True)).
Notation cache st := (cx_cache (st_ctx st)).

Section pub.
  Context {U : Type}.
  Lemma reserve_cache c r k c' : reserve_publisher_entry c r = Ok (k, c') -> cx_cache c' = cx_cache c.
  Proof. unfold reserve_publisher_entry. destruct (add_node _ _ _ _ _) as [[k' p]| |]; simpl; [|done..]. by intros [= <- <-]. Qed.
  Lemma connect_cache c a b c' : ctx_connect c a b = Ok c' -> cx_cache c' = cx_cache c.
  Proof. unfold ctx_connect. destruct (connect _ _ _); simpl; [|done..]. by intros [= <-]. Qed.
  Lemma connect_if_cache c a b c' : ctx_connect_if_not_connected c a b = Ok c' -> cx_cache c' = cx_cache c.
  Proof. unfold ctx_connect_if_not_connected. destruct (connect_if_not_connected _ _ _); simpl; [|done..]. by intros [= <-]. Qed.
  Lemma update_cache c k b i j c' : update_publisher_entry c k b i j = Ok c' -> cx_cache c' = cx_cache c.
  Proof.
    unfold update_publisher_entry. destruct (set_node_result _ _ _); simpl; [|done..]. destruct (set_node_start_position _ _ _); simpl; [|done..].
    destruct (set_node_end_position _ _ _); simpl; [|done..]. by intros [= <-].
  Qed.
  Lemma W_reserve r (st : pstate U) (Q : N -> pstate U -> Prop) :
    (forall k st', cache st' = cache st -> Q k st') -> W (with_ctx (fun c => reserve_publisher_entry c r)) st Q.
  Proof.
    intros H. unfold wp, with_ctx. destruct (reserve_publisher_entry (st_ctx st) r) as [[k c]| |] eqn:E; simpl; [|done..].
    apply H. simpl. by eapply reserve_cache.
  Qed.
  Lemma W_upd F (st : pstate U) (Q : unit -> pstate U -> Prop) :
    (forall c', F (st_ctx st) = Ok c' -> Q tt (PState c' (st_user st))) -> W (upd_ctx F) st Q.
  Proof. intros H. unfold wp, upd_ctx, with_ctx. destruct (F (st_ctx st)) as [c| |] eqn:E; simpl; [|done..]. by apply H. Qed.
  Lemma W_connect a b (st : pstate U) (Q : unit -> pstate U -> Prop) :
    (forall st', cache st' = cache st -> Q tt st') -> W (upd_ctx (fun c => ctx_connect c a b)) st Q.
  Proof. intros H. apply W_upd. intros c' E. apply H. by eapply connect_cache. Qed.
  Lemma W_connect_if a b (st : pstate U) (Q : unit -> pstate U -> Prop) :
    (forall st', cache st' = cache st -> Q tt st') -> W (upd_ctx (fun c => ctx_connect_if_not_connected c a b)) st Q.
  Proof. intros H. apply W_upd. intros c' E. apply H. by eapply connect_if_cache. Qed.
  Lemma W_update k b i j (st : pstate U) (Q : unit -> pstate U -> Prop) :
    (forall st', cache st' = cache st -> Q tt st') -> W (upd_ctx (fun c => update_publisher_entry c k b i j)) st Q.
  Proof. intros H. apply W_upd. intros c' E. apply H. by eapply update_cache. Qed.
  Lemma W_get (st : pstate U) (Q : context -> pstate U -> Prop) : Q (st_ctx st) st -> W get_ctx st Q.
  Proof. done. Qed.
End pub.

Section plain.
  Context {U : Type} (pr : program U) (fn : N -> N) (plain : N -> bool).
  Context (s : list N) (Hs : N.of_nat (length s) < u32_modulus).
  Context (Hplain : forall g body, plain g = true -> pr_fn pr g = Some body -> plain_code fn plain body).
  Notation g := (grammar_of pr).
  Notation src := (source_new s).

  Definition memo_plain (st : pstate U) : Prop := forall r i b q k,
    c_memo (cache st) !! (r, i) = Some (b, q, k) -> plain (fn r) = true -> peg g s (PRef (Some r) (fn r)) i (outcome b q).
  Definition same_lr (st st' : pstate U) : Prop :=
    c_heads (cache st') = c_heads (cache st) /\ c_active (cache st') = c_active (cache st) /\
    forall r i, plain (fn r) = false -> c_memo (cache st') !! (r, i) = c_memo (cache st) !! (r, i).
  Lemma same_lr_refl st : same_lr st st.
  Proof. done. Qed.
  Lemma same_lr_trans a b c : same_lr a b -> same_lr b c -> same_lr a c.
  Proof. intros (H1 & H2 & H3) (H4 & H5 & H6). split_and!; [congruence..|]. intros r i Hr. by rewrite H6, H3. Qed.
  Lemma same_lr_cache a b : cache b = cache a -> same_lr a b.
  Proof. unfold same_lr. by intros ->. Qed.
  Lemma memo_plain_cache a b : cache b = cache a -> memo_plain a -> memo_plain b.
  Proof. unfold memo_plain. by intros ->. Qed.

  Definition answers (e : pexp) (f : parser U) : Prop := forall parent pos st, memo_plain st ->
    W (f parent pos) st (fun r st' => peg g s e pos (outcome (fst r) (snd r)) /\ memo_plain st' /\ same_lr st st').

  Lemma pure_answers e (f : parser U) : (forall parent pos st, exists b q, f parent pos st = Ok ((b, q), st) /\ peg g s e pos (outcome b q)) -> answers e f.
  Proof. intros H parent pos st Hm. destruct (H parent pos st) as (b & q & E & Hp). unfold wp. rewrite E. simpl. split_and!; done. Qed.
  Lemma then_ (f : parser U) e (k : bool * N -> M (pstate U) (bool * N)) parent pos st (Q : bool * N -> pstate U -> Prop) : answers e f -> memo_plain st ->
    (forall b q st', peg g s e pos (outcome b q) -> memo_plain st' -> same_lr st st' -> W (k (b, q)) st' Q) ->
    W (mbind' (f parent pos) k) st Q.
  Proof. intros Hf Hm H. apply wp_bind. eapply wp_mono; [by apply Hf|]. intros [b q] st' (H1 & H2 & H3). by apply H. Qed.
  Lemma ret_ (r : bool * N) e pos st0 st : peg g s e pos (outcome (fst r) (snd r)) -> memo_plain st -> same_lr st0 st ->
    W (mret r) st (fun r st' => peg g s e pos (outcome (fst r) (snd r)) /\ memo_plain st' /\ same_lr st0 st').
  Proof. intros. by apply wp_ret. Qed.

  Lemma loop_answers fuel e (f : parser U) : answers e f -> answers (PStar e) (repeat_loop fuel f).
  Proof.
    intros Hf. induction fuel as [|fuel IH]; intros parent pos st Hm; [done|]. simpl. eapply then_; [done..|]. intros b q st' Hp Hm' Hs'. destruct b; simpl in *.
    - eapply wp_mono; [by apply IH|]. intros [b' q'] st2 (H1 & H2 & H3). split_and!; [|done|by eapply same_lr_trans]. by eapply peg_star_more.
    - apply ret_; [by constructor|done..].
  Qed.
  Lemma eval_answers n : forall e, plain_code fn plain e -> answers (pexp_of e) (eval pr src n e).
  Proof.
    induction n as [|n IH]; intros e He; [by intros parent pos st Hm|]. destruct e; simpl in He |- *.
    - apply pure_answers. intros parent pos st. rewrite terminal_eq by done. case_decide; eexists _, _; (split; [done|]); simpl; by constructor.
    - apply pure_answers. intros parent pos st. unfold string_terminal_kernel. rewrite string_loop_eq by done. case_decide; eexists _, _; (split; [done|]); simpl; by constructor.
    - apply pure_answers. intros parent pos st. rewrite range_eq by done. destruct (s !! N.to_nat pos) as [v|] eqn:E.
      + destruct ((start <=? v) && (v <=? end_)) eqn:E2; eexists _, _; (split; [done|]); simpl.
        * apply andb_true_iff in E2 as [?%N.leb_le ?%N.leb_le]. by econstructor.
        * constructor. intros x Hx [??]. simplify_eq. apply andb_false_iff in E2 as [?%N.leb_gt|?%N.leb_gt]; lia.
      + eexists _, _. split; [done|]. simpl. constructor. congruence.
    - destruct He as [H1 H2]. intros parent pos st Hm. unfold sequence_kernel. eapply then_; [by apply IH|done|]. intros b q st1 Hp1 Hm1 Hs1. destruct b.
      + eapply then_; [by apply IH|done|]. intros b q2 st2 Hp2 Hm2 Hs2. destruct b; apply ret_; try done; try (by eapply same_lr_trans); by eapply peg_seq_ok.
      + apply ret_; [by apply peg_seq_fail|done..].
    - destruct He as [H1 H2]. intros parent pos st Hm. unfold ordered_choice_kernel. eapply then_; [by apply IH|done|]. intros b q st1 Hp1 Hm1 Hs1. destruct b.
      + apply ret_; [by apply peg_alt_1|done..].
      + eapply then_; [by apply IH|done|]. intros b q2 st2 Hp2 Hm2 Hs2. destruct b; apply ret_; try done; try (by eapply same_lr_trans); by apply peg_alt_2.
    - intros parent pos st Hm. unfold and_predicate_kernel. eapply then_; [by apply IH|done|]. intros b q st1 Hp1 Hm1 Hs1. destruct b; apply ret_; try done; simpl.
      + by eapply peg_and_ok.
      + by apply peg_and_fail.
    - intros parent pos st Hm. unfold not_predicate_kernel. eapply then_; [by apply IH|done|]. intros b q st1 Hp1 Hm1 Hs1. destruct b; apply ret_; try done; simpl.
      + by eapply peg_not_fail.
      + by apply peg_not_ok.
    - intros parent pos st Hm. unfold one_or_more_kernel. eapply then_; [by apply IH|done|]. intros b q st1 Hp1 Hm1 Hs1. destruct b; simpl.
      + eapply wp_mono; [by apply (loop_answers n _ _ (IH _ He))|]. intros [b' q'] st2 (E1 & E2 & E3). split_and!; [|done|by eapply same_lr_trans]. by eapply peg_plus_ok.
      + apply ret_; [by constructor|done..].
    - by apply loop_answers, IH.
    - intros parent pos st Hm. unfold optional_kernel. eapply then_; [by apply IH|done|]. intros b q st1 Hp1 Hm1 Hs1. destruct b; apply ret_; try done; simpl.
      + by apply peg_opt_some.
      + by apply peg_opt_none.
    - intros parent pos st Hm. unfold subexpression_kernel. eapply then_; [by apply IH|done|]. intros b q st1 Hp1 Hm1 Hs1. destruct b; by apply ret_.
    - destruct He as [<- He]. intros parent pos st Hm. unfold var_name_kernel. apply wp_bind, W_get. unfold check.
      destruct (c_memo (cache st) !! (rule, pos)) as [[[b q] k]|] eqn:E.
      + unfold memoized_behaviour. apply wp_bind, W_connect. intros st' Ec. apply ret_; [by eapply Hm|by eapply memo_plain_cache|by apply same_lr_cache].
      + unfold default_behaviour. apply wp_bind, W_reserve. intros k st1 E1. apply wp_bind.
        destruct (pr_fn pr (fn rule)) as [body|] eqn:Eb; [|done].
        eapply wp_mono; [apply (IH body); [by eapply Hplain|by eapply memo_plain_cache]|]. intros [b q] st2 (P2 & M2 & S2). simpl in P2.
        assert (P : peg g s (PRef (Some rule) (fn rule)) pos (outcome b q)). { eapply peg_ref; [|exact P2]. unfold grammar_of. by rewrite Eb. }
        apply wp_bind, W_upd. intros c' [= <-]. apply wp_bind, W_update. intros st3 E3. apply wp_bind, W_connect. intros st4 E4. apply wp_ret.
        rewrite E3 in E4. simpl in E4. split_and!; [done| |].
        * intros r i b' q' k'. rewrite E4. simpl. rewrite lookup_insert_Some.
          intros [[[= <- <-] [= <- <- <-]]|[_ H]]; [done|]. by eapply M2.
        * eapply same_lr_trans; [by apply same_lr_cache|]. destruct S2 as (S1 & S2 & S3). unfold same_lr. rewrite E4. simpl. split_and!; [done..|].
          intros r i Hr. rewrite lookup_insert_ne; [by apply S3|]. intros [= -> ->]. congruence.
    - intros parent pos st Hm. destruct (pr_fn pr f) as [body|] eqn:Eb; [|done]. eapply wp_mono; [apply (IH body); [by eapply Hplain|done]|].
      intros [b q] st2 (P2 & M2 & S2). split_and!; [|done..]. eapply peg_ref; [|exact P2]. unfold grammar_of. by rewrite Eb.
    - done.
    - done.
  Qed.
End plain.

Section cycle.
  Context {U : Type} (pr : program U) (fn : N -> N) (plain : N -> bool) (inv : list N).
  Context (s : list N) (Hs : N.of_nat (length s) < u32_modulus).
  Context (m0 : member) (rest : list member) (HC : left_cycle pr fn plain inv m0 rest) (p : N).
  Notation g := (grammar_of pr).
  Notation src := (source_new s).
  Notation r0 := (m_label m0).
  Notation memo_plain := (memo_plain pr fn plain s).
  Notation same_lr := (same_lr fn plain).
  Notation picks := (picks g s p).
  Notation through := (through g s p).

  Definition growing (E : gset N) (st : pstate U) : Prop :=
    c_active (cache st) = Some (r0, p) /\
    exists h, c_heads (cache st) !! (r0, p) = Some h /\ h_involved h = list_to_set inv /\ h_eval h = E.
  Definition has (st : pstate U) (r : N) (x : option N) : Prop :=
    exists b q k, c_memo (cache st) !! (r, p) = Some (b, q, k) /\ x = outcome b q.
  Definition remembers (st : pstate U) (r : N) (x : option N) : Prop :=
    has st r x \/ (c_memo (cache st) !! (r, p) = None /\ x = None).

  Lemma growing_same E st st' : same_lr st st' -> growing E st -> growing E st'.
  Proof. intros (H1 & H2 & _) (H3 & H4). unfold growing. by rewrite H1, H2. Qed.
  Lemma has_same st st' r x : plain (fn r) = false -> same_lr st st' -> has st r x -> has st' r x.
  Proof. intros Hr (_ & _ & H3) (b & q & k & H & ->). exists b, q, k. by rewrite H3. Qed.
  Lemma remembers_same st st' r x : plain (fn r) = false -> same_lr st st' -> remembers st r x -> remembers st' r x.
  Proof. intros Hr HS [H|[H ->]]; [left; by eapply has_same|right]. destruct HS as (_ & _ & H3). by rewrite H3. Qed.

  Lemma should_not_grow E st r : growing E st -> r ∈ inv -> should_go_into_growth_function r p st = Ok ((false, None), st).
  Proof.
    intros (Ha & h & Hh & Hi & He) Hr. unfold should_go_into_growth_function, mbind', get_ctx, get_current_active_lr_position. simpl. rewrite Ha.
    unfold check_head. destruct (c_heads (cache st) !! (r, p)); [done|]. unfold with_ctx, rule_in_involved_set. rewrite Hh. simpl. rewrite Hi.
    rewrite bool_decide_eq_true_2 by (by apply elem_of_list_to_set). simpl. by destruct st.
  Qed.

  (** A call of an involved rule that is no longer to be evaluated. *)
  Lemma call_memo n r f E x parent st : memo_plain st -> growing E st -> r ∈ inv -> r ∉ E -> remembers st r x ->
    W (eval pr src n (ELR inv r f) parent p) st (fun res st' => outcome (fst res) (snd res) = x /\ memo_plain st' /\ same_lr st st').
  Proof.
    intros Hm HG Hr HE Hx. destruct n as [|n]; [done|]. simpl. unfold var_name_kernel_indirect_left_recursion. apply wp_bind. unfold wp at 1.
    rewrite (should_not_grow _ _ _ HG Hr). cbn [sat fst snd]. pose proof HG as (Ha & h & Hh & Hi & He).
    apply wp_bind, W_get. unfold get_current_active_lr_position. rewrite Ha. apply wp_bind. unfold wp at 1, with_ctx, rule_in_eval_set. rewrite Hh. cbn [rbind sat fst snd]. rewrite He.
    rewrite bool_decide_eq_false_2 by done. replace (PState (st_ctx st) (st_user st)) with st by (by destruct st).
    apply wp_bind, W_get. unfold check. destruct Hx as [(b & q & k & -> & ->)|[-> ->]].
    - apply wp_bind, W_connect_if. intros st' E'. apply wp_ret. split_and!; [done|by eapply memo_plain_cache|by apply same_lr_cache].
    - apply wp_ret. split_and!; done.
  Qed.

  Lemma member_plain m nx : member_ok pr fn plain inv m nx -> plain (fn (m_label m)) = false.
  Proof. intros (-> & H & _). done. Qed.

  (** A call of an involved rule that is to be evaluated: its body is run. *)
  Lemma call_eval m body E parent st (R : option N -> pstate U -> Prop) n :
    pr_fn pr (m_fn m) = Some body -> plain (fn (m_label m)) = false ->
    growing E st -> m_label m ∈ inv -> m_label m ∈ E -> memo_plain st ->
    (forall n k st1, memo_plain st1 -> growing (E ∖ {[m_label m]}) st1 -> (forall r i, c_memo (cache st1) !! (r, i) = c_memo (cache st) !! (r, i)) ->
      W (eval pr src n body k p) st1 (fun res st2 => R (outcome (fst res) (snd res)) st2 /\ memo_plain st2)) ->
    W (eval pr src n (ELR inv (m_label m) (m_fn m)) parent p) st (fun res st' => exists st2,
      R (outcome (fst res) (snd res)) st2 /\ memo_plain st' /\ has st' (m_label m) (outcome (fst res) (snd res)) /\
      c_heads (cache st') = c_heads (cache st2) /\ c_active (cache st') = c_active (cache st2) /\
      forall r i, r <> m_label m -> c_memo (cache st') !! (r, i) = c_memo (cache st2) !! (r, i)).
  Proof.
    intros Hb Hpl HG Hr HE Hm Hbody. destruct n as [|n]; [done|]. simpl. unfold var_name_kernel_indirect_left_recursion. apply wp_bind. unfold wp at 1.
    rewrite (should_not_grow _ _ _ HG Hr). cbn [sat fst snd]. pose proof HG as (Ha & h & Hh & Hi & He).
    apply wp_bind, W_get. unfold get_current_active_lr_position. rewrite Ha. apply wp_bind. unfold wp at 1, with_ctx, rule_in_eval_set. rewrite Hh. cbn [rbind sat fst snd]. rewrite He.
    rewrite bool_decide_eq_true_2 by done. replace (PState (st_ctx st) (st_user st)) with st by (by destruct st).
    apply wp_bind, W_reserve. intros k st1 E1. apply wp_bind, W_upd. intros c'. unfold remove_from_eval_set. rewrite E1, Hh. intros [= <-]. rewrite Hb.
    apply wp_bind. eapply wp_mono.
    { apply Hbody.
      - intros r i b q k'. simpl. rewrite E1. apply Hm.
      - split; simpl; [by rewrite E1|]. rewrite lookup_insert. eexists. split; [done|]. simpl. rewrite He. done.
      - intros r i. simpl. by rewrite E1. }
    intros [b q] st2 [HR Hm2]. cbn [fst snd] in *. apply wp_bind, W_update. intros st3 E3. apply wp_bind, W_upd. intros c' [= <-]. apply wp_bind, W_connect. intros st4 E4. apply wp_ret.
    exists st2. cbn [fst snd]. simpl in E4. rewrite E3 in E4. split; [done|]. rewrite !E4. simpl. split_and!; try done.
    - intros r i b' q' k'. rewrite E4. simpl. rewrite lookup_insert_Some. intros [[[= <- <-] _]|[_ H]]; [congruence|]. by eapply Hm2.
    - exists b, q, k. split; [|done]. rewrite E4. simpl. by rewrite lookup_insert.
    - intros r i Hne. rewrite lookup_insert_ne; [done|]. congruence.
  Qed.

  (** ** The body of a rule, the next rule being [nr] *)
  Section body.
    Context (nr nf : N) (Hnr : nr ∈ inv) (Hnp : plain (fn nr) = false).
    Notation leading := (leading inv nr nf).
    Notation alternatives := (alternatives inv nr nf).
    Definition ready (x : option N) (st : pstate U) : Prop := exists E, growing E st /\ nr ∉ E /\ remembers st nr x.
    Lemma ready_same x st st' : same_lr st st' -> ready x st -> ready x st'.
    Proof using Hnp. intros HS (E & H1 & H2 & H3). exists E. split_and!; [by eapply growing_same|done|by eapply remembers_same]. Qed.

    (** What is known of the first call of the next rule in state [st]. *)
    Definition called (st : pstate U) (K : option N -> pstate U -> Prop) : Prop := forall n parent,
      W (eval pr src n (ELR inv nr nf) parent p) st (fun r st1 => ready (outcome (fst r) (snd r)) st1 /\ memo_plain st1 /\ K (outcome (fst r) (snd r)) st1).
    Definition after_call (K : option N -> pstate U -> Prop) (A : option N -> Prop) (st' : pstate U) : Prop :=
      exists x st1, K x st1 /\ same_lr st1 st' /\ memo_plain st' /\ ready x st' /\ A x.

    Definition follows (t : option expr) (o x : option N) : Prop := match x with Some q => tail_means g s t q o | None => o = None end.
    Lemma leading_called st K n : called st K -> forall e t, leading e = Some t -> (match t with Some t => plain_code fn plain t | None => True end) -> forall parent,
      W (eval pr src n e parent p) st (fun r st' => after_call K (follows t (outcome (fst r) (snd r))) st').
    Proof using HC Hs Hnp.
      intros Hc. induction n as [|n IH]; intros e t Ht Hp parent; [done|]. destruct e; try done.
      - (* sequence *)
        simpl in Ht |- *. destruct (leading e1) as [t1|] eqn:E1; [|done].
        assert (exists t2, t = Some t2 /\ plain_code fn plain e2 /\ match t1 with Some t1 => plain_code fn plain t1 /\ t2 = ESeq t1 e2 | None => t2 = e2 end) as (t2 & -> & P2 & P1).
        { destruct t1 as [t1|]; injection Ht as <-; simpl in Hp; eauto. destruct Hp. eauto. }
        unfold sequence_kernel. apply wp_bind. eapply wp_mono; [apply (IH _ _ E1); by destruct t1 as [t1|]; [destruct P1|]|].
        intros [b q] st' (x & st1 & HK & HS & Hm & Hrd & Hx). cbn [fst snd] in Hx. destruct b; cbn [outcome] in Hx.
        + destruct x as [qx|]; [|done]. simpl in Hx.
          eapply (then_ pr fn plain s _ _ _ _ _ _ _ (eval_answers pr fn plain s Hs (lc_plain _ _ _ _ _ _ HC) n e2 P2) Hm).
          intros b q2 st2 Hp2 Hm2 Hs2. apply (wp_mono _ _ _ (fun r st' => st' = st2 /\ r = if b then (true, q2) else (false, p))); [by destruct b; apply wp_ret|].
          intros r st3 [-> ->]. exists (Some qx), st1. split_and!; [done|by eapply same_lr_trans|done|by eapply ready_same|]. simpl.
          assert (Ho : outcome b q2 = outcome (fst (if b then (true, q2) else (false, p))) (snd (if b then (true, q2) else (false, p)))) by (by destruct b).
          rewrite <- Ho. destruct t1 as [t1|].
          * destruct P1 as [_ ->]. simpl. by eapply peg_seq_ok.
          * subst t2. simpl in Hx. injection Hx as <-. done.
        + apply wp_ret. exists x, st1. split_and!; [done..|]. destruct x as [qx|]; simpl in Hx |- *; [|done]. destruct t1 as [t1|]; [|done].
          destruct P1 as [_ ->]. simpl. by apply peg_seq_fail.
      - (* subexpression *)
        simpl in Ht |- *. unfold subexpression_kernel. apply wp_bind. eapply wp_mono; [by apply (IH _ _ Ht)|].
        intros [b q] st' H. destruct b; simpl; apply wp_ret; exact H.
      - (* the call *)
        simpl in Ht. destruct (decide _) as [(-> & -> & ->)|]; [|done]. injection Ht as <-. eapply wp_mono; [apply Hc|].
        intros [b q] st' (H1 & H2 & H3). eexists _, st'. split_and!; [exact H3|apply same_lr_refl|done|done|]. cbn [fst snd]. by destruct b.
    Qed.

    Lemma picks_app x l1 l2 o1 o2 : picks x l1 o1 -> (o1 = None -> picks x l2 o2) -> picks x (l1 ++ l2) (match o1 with Some q => Some q | None => o2 end).
    Proof. clear. induction 1; simpl; intros H2; [by apply H2|..]; try (econstructor; by eauto). Qed.
    Lemma picks_one x t o : follows t o x -> picks x [Follow t] o.
    Proof.
      clear. intros H. destruct x as [q|]; simpl in H.
      - destruct o as [j|]; [by eapply picks_follow|]. apply picks_follow_next; [done|constructor].
      - subst o. apply picks_follow_next; [done|constructor].
    Qed.
    Lemma seed_one x e o : peg g s (pexp_of e) p o -> picks x [Seed e] o.
    Proof. clear. intros H. destruct o; [by constructor|]. apply picks_seed_next; [done|constructor]. Qed.
    Lemma memo_called x st : memo_plain st -> ready x st -> called st (fun y st1 => y = x /\ same_lr st st1).
    Proof using Hnr Hnp.
      intros Hm HR n parent. pose proof HR as (E & H1 & H2 & H3). eapply wp_mono; [by eapply call_memo|]. intros r st' (-> & Hm' & HS).
      split_and!; [by eapply ready_same|done..].
    Qed.
    (** Every other expression of a body is one alternative. *)
    Lemma single_cases e : (exists a b, e = EChoice a b) \/ (exists a, e = ESub a) \/ alternatives e = match leading e with Some t => [Follow t] | None => [Seed e] end.
    Proof. destruct e; eauto. Qed.

    Lemma body_ready n : forall e x parent st, Forall (plain_alternative fn plain) (alternatives e) -> memo_plain st -> ready x st ->
      W (eval pr src n e parent p) st (fun r st' => picks x (alternatives e) (outcome (fst r) (snd r)) /\ memo_plain st' /\ same_lr st st').
    Proof using HC Hs Hnr Hnp.
      induction n as [|n IH]; intros e x parent st Hpl Hm HR; [done|]. destruct (single_cases e) as [(a & b & ->)|[(a & ->)|Ha]].
      - simpl in Hpl |- *. apply Forall_app in Hpl as [P1 P2]. unfold ordered_choice_kernel. apply wp_bind. eapply wp_mono; [by apply (IH a x)|].
        intros [b1 q1] st1 (X1 & M1 & S1). cbn [fst snd] in X1. destruct b1.
        + apply wp_ret. split_and!; [|done..]. by apply (picks_app _ _ _ _ None X1).
        + apply wp_bind. eapply wp_mono; [apply (IH b x); [done..|by eapply ready_same]|]. intros [b2 q2] st2 (X2 & M2 & S2). cbn [fst snd] in X2.
          pose proof (picks_app _ _ _ _ _ X1 (fun _ => X2)) as X. simpl in X.
          destruct b2; apply wp_ret; (split_and!; [done..|by eapply same_lr_trans]).
      - simpl in Hpl |- *. unfold subexpression_kernel. apply wp_bind. eapply wp_mono; [by apply (IH a x)|].
        intros [b1 q1] st1 H. destruct b1; simpl; apply wp_ret; exact H.
      - rewrite Ha in Hpl |- *. destruct (leading e) as [t|] eqn:El.
        + eapply wp_mono; [apply (leading_called st _ (S n) (memo_called x st Hm HR) e t El); by apply Forall_inv in Hpl; destruct t|].
          intros r st' (y & st1 & [-> HS1] & HS2 & Hm' & _ & Hf). split_and!; [by apply picks_one|done|by eapply same_lr_trans].
        + eapply wp_mono; [apply (eval_answers pr fn plain s Hs (lc_plain _ _ _ _ _ _ HC)); [by apply Forall_inv in Hpl|done]|].
          intros r st' (X & M & S'). split_and!; [by apply seed_one|done..].
    Qed.

    Lemma alternatives_cons e : exists a l, alternatives e = a :: l.
    Proof.
      clear. induction e; simpl; eauto.
      - destruct (match SpecCycle.leading inv nr nf e1 with Some _ => _ | None => _ end); eauto.
      - destruct IHe1 as (a & l & ->). simpl. eauto.
      - destruct (decide _); eauto.
    Qed.
    Lemma body_called st K n : called st K -> forall e t l, alternatives e = Follow t :: l -> Forall (plain_alternative fn plain) (alternatives e) -> forall parent,
      W (eval pr src n e parent p) st (fun r st' => after_call K (fun x => picks x (alternatives e) (outcome (fst r) (snd r))) st').
    Proof using HC Hs Hnr Hnp.
      intros Hc. induction n as [|n IH]; intros e t l Ht Hpl parent; [done|]. destruct (single_cases e) as [(a & b & ->)|[(a & ->)|Ha]].
      - simpl in Ht, Hpl |- *. apply Forall_app in Hpl as [P1 P2]. destruct (alternatives_cons a) as (a1 & la & Ea).
        assert (a1 = Follow t) as -> by (rewrite Ea in Ht; by injection Ht).
        unfold ordered_choice_kernel. apply wp_bind. eapply wp_mono; [by apply (IH a t la)|].
        intros [b1 q1] st' (x & st1 & HK & HS & Hm & Hrd & X1). cbn [fst snd] in X1. destruct b1.
        + apply wp_ret. exists x, st1. split_and!; [done..|]. by apply (picks_app _ _ _ _ None X1).
        + apply wp_bind. eapply wp_mono; [by apply (body_ready n b x)|]. intros [b2 q2] st2 (X2 & M2 & S2). cbn [fst snd] in X2.
          pose proof (picks_app _ _ _ _ _ X1 (fun _ => X2)) as X. simpl in X.
          destruct b2; apply wp_ret; (exists x, st1; split_and!; [done|by eapply same_lr_trans|done|by eapply ready_same|done]).
      - simpl in Ht, Hpl |- *. unfold subexpression_kernel. apply wp_bind. eapply wp_mono; [by apply (IH a t l)|].
        intros [b1 q1] st1 H. destruct b1; simpl; apply wp_ret; exact H.
      - rewrite Ha in Hpl, Ht |- *. destruct (leading e) as [t'|] eqn:El; [|done]. injection Ht as -> <-.
        eapply wp_mono; [apply (leading_called st _ (S n) Hc e t El); by apply Forall_inv in Hpl; destruct t|].
        intros r st' (y & st1 & HK & HS & Hm' & Hrd & Hf). exists y, st1. split_and!; [done..|by apply picks_one].
    Qed.
  End body.

  (** ** Once round the cycle *)
  Lemma in_inv m : m ∈ m0 :: rest -> m_label m ∈ inv.
  Proof. intros H. apply (lc_involved _ _ _ _ _ _ HC), elem_of_list_In, in_map, elem_of_list_In, H. Qed.
  Lemma linked_member ms last m : linked pr fn plain inv ms last -> m ∈ ms -> plain (fn (m_label m)) = false.
  Proof.
    intros H Hm. induction ms as [|a ms IH]; [by apply elem_of_nil in Hm|]. destruct H as [H1 H2]. apply elem_of_cons in Hm as [->|Hm]; [by eapply member_plain|auto].
  Qed.
  Lemma not_plain m : m ∈ m0 :: rest -> plain (fn (m_label m)) = false.
  Proof. intros H. eapply linked_member; [apply (lc_linked _ _ _ _ _ _ HC)|done]. Qed.
  Definition hd_of (ms : list member) : member := match ms with m :: _ => m | [] => m0 end.
  Lemma linked_suffix ms last pre m : linked pr fn plain inv (pre ++ m :: ms) last ->
    member_ok pr fn plain inv m (match ms with n :: _ => n | [] => last end).
  Proof. induction pre as [|a pre IH]; simpl; intros [H1 H2]; [done|auto]. Qed.
  Lemma hd_in ms pre : rest = pre ++ ms -> hd_of ms ∈ m0 :: rest.
  Proof. intros ->. destruct ms; simpl; [by left|]. right. apply elem_of_app. right. by left. Qed.

  Lemma chain ms : forall pre, rest = pre ++ ms -> forall n parent st x, memo_plain st -> growing (list_to_set (r0 :: map m_label ms)) st ->
    remembers st (m_label (hd_of rest)) x ->
    W (eval pr src n (ELR inv (m_label (hd_of ms)) (m_fn (hd_of ms))) parent p) st (fun r st' => memo_plain st' /\ growing ∅ st' /\
      exists y, picks x (m_alts m0) y /\ through (map m_alts ms) y (outcome (fst r) (snd r)) /\ has st' r0 y /\ has st' (m_label (hd_of ms)) (outcome (fst r) (snd r))).
  Proof using HC Hs.
    induction ms as [|m ms IH]; intros pre Epre n parent st x Hm HG Hx.
    - (* the nested call of the first rule *)
      pose proof (lc_linked _ _ _ _ _ _ HC) as [(E1 & E2 & (body & Hb & Ha) & (t & l & Ht) & Hpl) _].
      assert (Hnext : (match rest with n :: _ => n | [] => m0 end) = hd_of rest) by (by destruct rest). rewrite Hnext in Ha.
      assert (Hin0 : m0 ∈ m0 :: rest) by (by left). assert (Hinr : hd_of rest ∈ m0 :: rest) by (by apply (hd_in rest [])).
      cbn [hd_of]. eapply wp_mono.
      { apply (call_eval m0 body _ parent st (fun y st2 => picks x (m_alts m0) y /\ growing ∅ st2) n Hb (not_plain _ Hin0) HG (in_inv _ Hin0)); [set_solver|done|].
        intros n' k st1 Hm1 HG1 Hmm. rewrite <- Ha in Hpl.
        assert (HGe : growing ∅ st1). { replace (∅ : gset N) with ((list_to_set (r0 :: map m_label [])) ∖ {[r0]} : gset N); [done|]. apply leibniz_equiv. set_solver. }
        eapply wp_mono.
        { apply (body_ready (m_label (hd_of rest)) (m_fn (hd_of rest)) (in_inv _ Hinr) (not_plain _ Hinr) n' body x k st1); [done|done|].
          exists ∅. split_and!; [done|set_solver|]. destruct Hx as [(b & q & k' & H1 & H2)|[H1 H2]]; [left; exists b, q, k'; by rewrite Hmm|right; by rewrite Hmm]. }
        intros r st2 (X & M2 & S2). rewrite Ha in X. split; [|done]. split; [done|]. by eapply growing_same. }
      intros [b q] st' (st2 & [HX (Ha2 & HH2)] & Hm' & Hh & Eh & Ea & Em). cbn [fst snd] in *. split; [done|]. split.
      { unfold growing. by rewrite Eh, Ea. }
      exists (outcome b q). split_and!; done.
    - assert (Hin : m ∈ m0 :: rest) by (rewrite Epre; right; apply elem_of_app; right; by left).
      pose proof (lc_linked _ _ _ _ _ _ HC) as [_ HL]. rewrite Epre in HL. apply linked_suffix in HL. change (match ms with n :: _ => n | [] => m0 end) with (hd_of ms) in HL.
      destruct HL as (E1 & E2 & (body & Hb & Ha) & (t & l & Ht) & Hpl).
      assert (Epre' : rest = (pre ++ [m]) ++ ms) by (by rewrite <- app_assoc).
      pose proof (hd_in ms _ Epre') as Hinr.
      assert (Hfresh : m_label m <> r0 /\ m_label m ∉ map m_label ms).
      { pose proof (lc_labels _ _ _ _ _ _ HC) as HN. simpl in HN. apply list.NoDup_cons in HN as [N1 N2]. rewrite Epre, map_app in N1, N2. simpl in N1, N2.
        apply NoDup_app in N2 as (_ & _ & N2). apply list.NoDup_cons in N2 as [N2 _]. split; [|done]. intros E. apply N1. rewrite <- E. apply elem_of_app. right. by left. }
      destruct Hfresh as [Hf1 Hf2].
      cbn [hd_of]. eapply wp_mono.
      { apply (call_eval m body _ parent st (fun z st2 => growing ∅ st2 /\ exists y z', picks x (m_alts m0) y /\ through (map m_alts ms) y z' /\ picks z' (m_alts m) z /\ has st2 r0 y) n Hb (not_plain _ Hin) HG (in_inv _ Hin)); [set_solver|done|].
        intros n' k st1 Hm1 HG1 Hmm. rewrite <- Ha in Hpl, Ht.
        assert (HGe : growing (list_to_set (r0 :: map m_label ms)) st1).
        { replace (list_to_set (r0 :: map m_label ms) : gset N) with ((list_to_set (r0 :: map m_label (m :: ms))) ∖ {[m_label m]} : gset N); [done|]. apply leibniz_equiv. simpl.
          assert (m_label m ∉ (list_to_set (map m_label ms) : gset N)) by (by rewrite elem_of_list_to_set). set_solver. }
        assert (Hx1 : remembers st1 (m_label (hd_of rest)) x).
        { destruct Hx as [(b & q & k' & H1 & H2)|[H1 H2]]; [left; exists b, q, k'; by rewrite Hmm|right; by rewrite Hmm]. }
        eapply wp_mono.
        { apply (body_called (m_label (hd_of ms)) (m_fn (hd_of ms)) (in_inv _ Hinr) (not_plain _ Hinr) st1
            (fun z' st2 => growing ∅ st2 /\ exists y, picks x (m_alts m0) y /\ through (map m_alts ms) y z' /\ has st2 r0 y) n') with (t := t) (l := l); [|done|done].
          intros n2 parent2. eapply wp_mono; [by apply (IH (pre ++ [m]) Epre' n2 parent2 st1 x)|].
          intros r st2 (M2 & G2 & y & X1 & X2 & X3 & X4). split; [|split; [done|eauto]]. exists ∅. split_and!; [done|set_solver|by left]. }
        intros r st2 (z' & st3 & (G3 & y & Y1 & Y2 & Y3) & S3 & M3 & _ & X). rewrite Ha in X. split; [|done]. split; [by eapply growing_same|].
        exists y, z'. split_and!; [done..|]. eapply has_same; [apply (not_plain m0); by left|done..]. }
      intros [b q] st' (st2 & ((Ha2 & HH2) & y & z' & Y1 & Y2 & Y3 & Y4) & Hm' & Hh & Eh & Ea & Em). cbn [fst snd] in *. split; [done|]. split.
      { unfold growing. by rewrite Eh, Ea. }
      exists y. split; [done|]. split; [by exists z'|]. split; [|done]. destruct Y4 as (b' & q' & k' & H1 & H2). exists b', q', k'. by rewrite Em.
  Qed.

  (** ** Growing *)
  Context (body : expr) (Hbody : pr_fn pr (m_fn m0) = Some body).
  Notation rules := (m_alts m0 :: map m_alts rest).
  Lemma first_body : alternatives inv (m_label (hd_of rest)) (m_fn (hd_of rest)) body = m_alts m0 /\
    (exists t l, m_alts m0 = Follow t :: l) /\ Forall (plain_alternative fn plain) (m_alts m0).
  Proof using HC Hbody.
    pose proof (lc_linked _ _ _ _ _ _ HC) as [(E1 & E2 & (body' & Hb & Ha) & Ht & Hpl) _]. rewrite Hbody in Hb. injection Hb as <-.
    assert (Hnext : (match rest with n :: _ => n | [] => m0 end) = hd_of rest) by (by destruct rest). rewrite Hnext in Ha. done.
  Qed.
  Lemma one_round n k st x : memo_plain st -> growing (list_to_set inv) st -> remembers st (m_label (hd_of rest)) x ->
    W (eval pr src n body k p) st (fun r st' => memo_plain st' /\ growing ∅ st' /\
      exists y z, picks x (m_alts m0) y /\ through (map m_alts rest) y z /\ has st' r0 y /\ has st' (m_label (hd_of rest)) z).
  Proof using HC Hs Hbody.
    intros Hm HG Hx. destruct first_body as (Ha & (t & l & Ht) & Hpl). rewrite <- Ha in Ht, Hpl. pose proof (hd_in rest [] eq_refl) as Hinr.
    assert (Hinv : (list_to_set inv : gset N) = list_to_set (r0 :: map m_label rest)).
    { apply leibniz_equiv. intros r. rewrite !elem_of_list_to_set. apply (lc_involved _ _ _ _ _ _ HC). }
    rewrite Hinv in HG. eapply wp_mono.
    { apply (body_called (m_label (hd_of rest)) (m_fn (hd_of rest)) (in_inv _ Hinr) (not_plain _ Hinr) st
        (fun z st2 => growing ∅ st2 /\ exists y, picks x (m_alts m0) y /\ through (map m_alts rest) y z /\ has st2 r0 y /\ has st2 (m_label (hd_of rest)) z) n) with (t := t) (l := l); [|done|done].
      intros n2 parent2. eapply wp_mono; [by apply (chain rest [] eq_refl n2 parent2 st x)|].
      intros r st2 (M2 & G2 & y & X1 & X2 & X3 & X4). split; [|split; [done|eauto 6]]. exists ∅. split_and!; [done|set_solver|by left]. }
    intros r st2 (z & st3 & (G3 & y & Y1 & Y2 & Y3 & Y4) & S3 & M3 & _ & X). split; [done|]. split; [by eapply growing_same|].
    exists y, z. split_and!; [done..| |].
    - eapply has_same; [apply (not_plain m0); by left|done..].
    - eapply has_same; [by apply not_plain|done..].
  Qed.
  Definition started (st : pstate U) : Prop := exists E, growing E st.
  (** One turn of the loop: what is kept of the last value, what comes next. *)
  Lemma loop_step fuel n parent prev last lk ck st x (Q : bool * N -> pstate U -> Prop) :
    memo_plain st -> started st -> remembers st (m_label (hd_of rest)) x ->
    (forall y z st', picks x (m_alts m0) y -> through (map m_alts rest) y z -> memo_plain st' -> started st' -> remembers st' (m_label (hd_of rest)) z ->
      match y with
      | Some q => if q <=? snd last then (forall st'', memo_plain st'' -> c_active (cache st'') = prev -> Q last st'')
                  else forall k' ck', W (growth_loop fuel r0 parent p (fun k pos => eval pr src n body k pos) prev (true, q) k' ck') st' Q
      | None => forall st'', memo_plain st'' -> c_active (cache st'') = prev -> Q last st''
      end) ->
    W (growth_loop (S fuel) r0 parent p (fun k pos => eval pr src n body k pos) prev last lk ck) st Q.
  Proof using HC Hs Hbody.
    intros Hm [E (Ha & h & Hh & Hi & He)] Hx HQ. cbn [growth_loop]. apply wp_bind, W_upd. intros c'. unfold reinitialize_eval_set. rewrite Hh. intros [= <-].
    apply wp_bind. eapply wp_mono.
    { apply one_round with (x := x).
      - intros r i b q k'. simpl. apply Hm.
      - split; simpl; [done|]. rewrite lookup_insert. eexists. split; [done|]. simpl. rewrite Hi. done.
      - destruct Hx as [(b & q & k' & H1 & H2)|[H1 H2]]; [left; by exists b, q, k'|by right]. }
    intros r st1 (M1 & G1 & y & z & X1 & X2 & (b & q & k & X3 & Hy) & X4). apply wp_bind, W_get. unfold check. rewrite X3. cbv iota beta.
    assert (Hr0 : plain (fn r0) = false) by (apply not_plain; by left).
    apply wp_bind, W_update. intros st2 E2. cbn [fst snd].
    assert (Hstop : (forall st'', memo_plain st'' -> c_active (cache st'') = prev -> Q last st'') ->
      W (do _ <- upd_ctx (fun c => ctx_connect c parent lk); do _ <- upd_ctx (fun c => Ok (set_current_active_lr_position c prev));
         do _ <- upd_ctx (fun c => Ok (create_cache_entry c r0 (fst last) p (snd last) lk)); mret last) st2 Q).
    { intros H. apply wp_bind, W_connect. intros st3 E3. apply wp_bind, W_upd. intros c' [= <-]. apply wp_bind, W_upd. intros c' [= <-]. apply wp_ret. apply H; [|done].
      intros r' i b' q' k'. simpl. rewrite E3, E2, lookup_insert_Some. intros [[[= <- <-] _]|[_ H']]; [congruence|by eapply M1]. }
    assert (HQ' : forall st3, cache st3 = cache st2 -> match y with
      | Some q => if q <=? snd last then (forall st'', memo_plain st'' -> c_active (cache st'') = prev -> Q last st'')
                  else forall k' ck', W (growth_loop fuel r0 parent p (fun k pos => eval pr src n body k pos) prev (true, q) k' ck') st3 Q
      | None => forall st'', memo_plain st'' -> c_active (cache st'') = prev -> Q last st''
      end).
    { intros st3 E3. rewrite E2 in E3. apply (HQ y z st3 X1 X2).
      - by eapply memo_plain_cache.
      - exists ∅. by eapply growing_same, G1; apply same_lr_cache.
      - left. destruct X4 as (b' & q' & k' & H1 & H2). exists b', q', k'. by rewrite E3. }
    rewrite Hy in HQ'. destruct b; cbn [outcome negb orb] in HQ' |- *.
    - destruct (N.leb_spec q (snd last)).
      + apply Hstop. by apply (HQ' st2).
      + apply wp_bind, W_reserve. intros k' st3 E3. by apply HQ'.
    - apply Hstop. by apply (HQ' st2).
  Qed.

  Lemma later_rounds fuel n parent prev lq : forall lk ck st x, memo_plain st -> started st -> remembers st (m_label (hd_of rest)) x ->
    through (map m_alts rest) (Some lq) x ->
    W (growth_loop fuel r0 parent p (fun k pos => eval pr src n body k pos) prev (true, lq) lk ck) st (fun r st' =>
      memo_plain st' /\ c_active (cache st') = prev /\ exists z, r = (true, z) /\ rounds g s p rules lq z).
  Proof using HC Hs Hbody.
    revert lq. induction fuel as [|fuel IH]; intros lq lk ck st x Hm Hst Hx Hth; [done|]. eapply loop_step; [done..|].
    intros y z st' Hy Hz Hm' Hst' Hx'. assert (Ht : through rules (Some lq) y) by (exists x; done). destruct y as [q|]; cbn [snd].
    - destruct (N.leb_spec q lq).
      + intros st'' H1 H2. split_and!; [done..|]. exists lq. split; [done|]. by eapply rounds_stop.
      + intros k' ck'. eapply wp_mono; [by apply (IH q k' ck' st' z)|]. intros r st'' (H1 & H2 & w & -> & H3). split_and!; [done..|]. exists w. split; [done|]. by eapply rounds_more.
    - intros st'' H1 H2. split_and!; [done..|]. exists lq. split; [done|]. by eapply rounds_stop.
  Qed.
  Lemma all_rounds fuel n parent prev lk ck st : memo_plain st -> started st -> c_memo (cache st) !! (m_label (hd_of rest), p) = None ->
    W (growth_loop fuel r0 parent p (fun k pos => eval pr src n body k pos) prev (false, p) lk ck) st (fun r st' =>
      memo_plain st' /\ c_active (cache st') = prev /\ cycle_means g s p rules (outcome (fst r) (snd r)) /\ (fst r = false -> snd r = p)).
  Proof using HC Hs Hbody.
    intros Hm Hst Hx. destruct fuel as [|fuel]; [done|]. eapply (loop_step fuel n parent prev _ lk ck st None); [done|done|by right|].
    intros y z st' Hy Hz Hm' Hst' Hx'. destruct y as [q|]; cbn [snd].
    - destruct (N.leb_spec q p) as [Hle|Hlt].
      + intros st'' H1 H2. split_and!; [done..| |done]. exists (m_alts m0), (map m_alts rest), (Some q). split_and!; [done..|]. apply N.leb_le in Hle. by rewrite Hle.
      + intros k' ck'. eapply wp_mono; [by apply (later_rounds fuel n parent prev q k' ck' st' z)|]. intros r st'' (H1 & H2 & w & -> & H3). split_and!; [done..| |done].
        exists (m_alts m0), (map m_alts rest), (Some q). split_and!; [done..|]. apply N.leb_gt in Hlt. rewrite Hlt. exists w. done.
    - intros st'' H1 H2. split_and!; [done..| |done]. by exists (m_alts m0), (map m_alts rest), None.
  Qed.

  (** The call of the first rule outside any left recursion. *)
  Lemma call_cycle n parent st : memo_plain st -> c_active (cache st) = None -> (forall r, r ∈ inv -> c_memo (cache st) !! (r, p) = None) ->
    W (eval pr src n (ELR inv r0 (m_fn m0)) parent p) st (fun r st' =>
      memo_plain st' /\ c_active (cache st') = None /\ cycle_means g s p rules (outcome (fst r) (snd r)) /\ (fst r = false -> snd r = p)).
  Proof using HC Hs Hbody.
    intros Hm Ha Hfresh. destruct n as [|n]; [done|]. simpl. rewrite Hbody. unfold var_name_kernel_indirect_left_recursion. apply wp_bind.
    unfold should_go_into_growth_function. apply wp_bind, W_get. unfold get_current_active_lr_position. rewrite Ha.
    apply wp_bind, W_upd. intros c' [= <-]. apply wp_ret. cbn [fst snd]. unfold growth_function.
    apply wp_bind, W_reserve. intros lk st1 E1. apply wp_bind, W_update. intros st2 E2. apply wp_bind, W_reserve. intros ck st3 E3.
    apply wp_bind, W_upd. intros c' [= <-]. rewrite E2, E1 in E3. simpl in E3. apply all_rounds.
    - intros r i b q k. simpl. rewrite E3. simpl. apply Hm.
    - eexists. split; simpl; [by rewrite E3|]. rewrite lookup_insert. eexists. split; [done|]. simpl. split; [done|]. reflexivity.
    - simpl. rewrite E3. simpl. apply Hfresh, in_inv, (hd_in rest [] eq_refl).
  Qed.
End cycle.
