(** Theorems C26 - C29: parsers with left recursion. *)
From Verif Require Import ProofComplete ProofFuel ProofTree2 ProofSafe SpecSession SpecTerm SpecLR Programs TheoremsKernel TheoremsPackrat.
From Verif Require Import ProofPegTotal Checks ProofTerm ProofLR.

(** ** C26, C28: every well-formed hook-free program, whatever its left
    recursion and involved sets. *)
Section any_lr.
  Context {U : Type} (pr : program U) (fn : N -> N) (s : list N) (u0 : U).
  Context (Hs : N.of_nat (length s) < u32_modulus) (Hpr : program_wf pr fn) (Hnh : no_hooks pr).
  Notation len := (N.of_nat (length s)).

  Theorem C26_only_key_exhaustion st fuel e pos x :
    session pr (expr_wf pr fn) s u0 st -> expr_wf pr fn e -> pos <= len ->
    eval pr (source_new s) fuel e 0 pos st = Panic x -> x = PKeyOverflow.
  Proof using Hnh Hpr Hs.
    intros HS He Hpos Hev.
    pose proof (eval_safe pr s fn Hs key_overflow eq_refl Hpr (no_hooks_behave pr _ _ _ _ Hnh) fuel e He root_open st 0 pos
      (session_usable pr fn s u0 Hs Hpr key_overflow eq_refl (no_hooks_behave pr _ _ _ _ Hnh) st HS) eq_refl Hpos) as H.
    by rewrite Hev in H.
  Qed.

  Theorem C26_unwound st : session pr (expr_wf pr fn) s u0 st -> get_current_active_lr_position (st_ctx st) = None.
  Proof using Hnh Hpr Hs.
    induction 1 as [|st fuel e pos r st' HS IH He Hpos Hev]; [done|].
    pose proof (eval_safe pr s fn Hs key_overflow eq_refl Hpr (no_hooks_behave pr _ _ _ _ Hnh) fuel e He root_open st 0 pos
      (session_usable pr fn s u0 Hs Hpr key_overflow eq_refl (no_hooks_behave pr _ _ _ _ Hnh) st HS) eq_refl Hpos) as H.
    rewrite Hev in H. destruct r as [b q]. destruct H as (_ & _ & _ & Hp). by rewrite (pv_active _ _ _ Hp).
  Qed.
  (** Nested calls hand back the recursion they found. *)
  Theorem C26_balanced fuel e (O : N -> Prop) (st : pstate U) parent pos r st' :
    expr_wf pr fn e -> usable len (memo_claim pr s fn) O st -> O parent -> pos <= len ->
    eval pr (source_new s) fuel e parent pos st = Ok (r, st') ->
    get_current_active_lr_position (st_ctx st') = get_current_active_lr_position (st_ctx st).
  Proof using Hnh Hpr Hs.
    intros He HU HO Hpos Hev.
    pose proof (eval_safe pr s fn Hs key_overflow eq_refl Hpr (no_hooks_behave pr _ _ _ _ Hnh) fuel e He O st parent pos HU HO Hpos) as H.
    rewrite Hev in H. destruct r as [b q]. destruct H as (_ & _ & _ & Hp). by apply (pv_active _ _ _ Hp).
  Qed.

  Theorem C28_matches_derivable st fuel e pos q st' :
    session pr (expr_wf pr fn) s u0 st -> expr_wf pr fn e -> pos <= len ->
    eval pr (source_new s) fuel e 0 pos st = Ok ((true, q), st') ->
    cfg (grammar_of pr) s (pexp_of e) pos q.
  Proof using Hnh Hpr Hs.
    intros HS He Hpos Hev.
    pose proof (eval_safe pr s fn Hs key_overflow eq_refl Hpr (no_hooks_behave pr _ _ _ _ Hnh) fuel e He root_open st 0 pos
      (session_usable pr fn s u0 Hs Hpr key_overflow eq_refl (no_hooks_behave pr _ _ _ _ Hnh) st HS) eq_refl Hpos) as H.
    rewrite Hev in H. destruct H as (_ & H & _). by destruct (H eq_refl).
  Qed.
  (** Also for everything the memo table will answer later. *)
  Theorem C28_memo_derivable st r i q k :
    session pr (expr_wf pr fn) s u0 st -> check (st_ctx st) r i = Some (true, q, k) ->
    cfg (grammar_of pr) s (PRef (Some r) (fn r)) i q.
  Proof using Hnh Hpr Hs.
    intros HS Hc.
    pose proof (session_usable pr fn s u0 Hs Hpr key_overflow eq_refl (no_hooks_behave pr _ _ _ _ Hnh) st HS) as HU.
    destruct (us_memo _ _ _ _ HU _ _ _ _ _ Hc) as (_ & _ & H). by destruct (H eq_refl).
  Qed.
End any_lr.

(** ** C27 *)
(** Memo entries end inside a text of length [L]. *)
Definition ends_within {U} (L : N) (st : pstate U) : Prop :=
  forall r i b q k, check (st_ctx st) r i = Some (b, q, k) -> i <= L -> q <= L.

Section growth.
  Context {U : Type} (L : N) (r pos : N) (f : parser U).
  (** A rule body that always answers, inside the text. *)
  Context (Hf : forall k st, ends_within L st ->
    match f k pos st with
    | Ok ((b, q), st') => q <= L /\ ends_within L st'
    | Panic _ => True
    | NoFuel => False
    end).
  Context (Hpos : pos <= L).

  Lemma grow_bound n : forall parent prev last lk ck st, ends_within L st -> snd last <= L ->
    (N.to_nat (L - snd last) + 1 <= n)%nat -> growth_loop n r parent pos f prev last lk ck st <> NoFuel.
  Proof using Hf Hpos.
    induction n as [|n IH]; intros parent prev last lk ck st Hst Hl Hn; [lia|].
    cbn [growth_loop].
    assert (Hb1 : forall st1 : pstate U, ends_within L st1 -> 
      (do result <- f ck pos;
       do c <- get_ctx;
       let '(current_key, result) :=
         match check c r pos with
         | None => (ck, result)
         | Some (b, e, k) => (k, (b, e))
         end in
       do _ <- upd_ctx (fun c => update_publisher_entry c current_key (fst result) pos (snd result));
       if negb (fst result) || (snd result <=? snd last) then
         do _ <- upd_ctx (fun c => ctx_connect c parent lk);
         do _ <- upd_ctx (fun c => Ok (set_current_active_lr_position c prev));
         do _ <- upd_ctx (fun c => Ok (create_cache_entry c r (fst last) pos (snd last) lk));
         mret last
       else
         do current_key0 <- with_ctx (fun c => reserve_publisher_entry c r);
         growth_loop n r parent pos f prev result current_key current_key0) st1 <> NoFuel).
    { intros st1 Hst1. specialize (Hf ck st1 Hst1). unfold mbind' at 1. destruct (f ck pos st1) as [[[b q] st2]| |]; cbn [rbind]; [|done|done].
      destruct Hf as [Hq Hst2]. unfold mbind' at 1, get_ctx at 1. cbn [rbind].
      destruct (match check (st_ctx st2) r pos with Some (b, e, k) => (k, (b, e)) | None => (ck, (b, q)) end) as [ck' res] eqn:Er.
      assert (Hres : snd res <= L).
      { destruct (check (st_ctx st2) r pos) as [[[b' q'] k']|] eqn:Ec; simplify_eq; [|done]. by eapply Hst2. }
      assert (Hupd : forall c, update_publisher_entry c ck' (fst res) pos (snd res) <> NoFuel).
      { intros c. unfold update_publisher_entry, set_node_result, set_node_start_position, set_node_end_position, get_node.
        simpl. destruct (p_nodes (cx_pub c) !! ck'); simpl; [|done]. rewrite !lookup_insert. simpl. by rewrite !lookup_insert. }
      unfold mbind' at 1, upd_ctx at 1, with_ctx at 1. specialize (Hupd (st_ctx st2)).
      destruct (update_publisher_entry _ _ _ _ _) as [c3| |] eqn:Eu; cbn [rbind]; [|done|done].
      assert (E3 : cx_cache c3 = cx_cache (st_ctx st2)).
      { revert Eu. unfold update_publisher_entry. by intros (p1 & _ & (p2 & _ & (p3 & _ & [= <-])%rbind_Ok_inv)%rbind_Ok_inv)%rbind_Ok_inv. }
      destruct (negb (fst res) || (snd res <=? snd last)) eqn:Es.
      - unfold mbind' at 1, upd_ctx at 1, with_ctx at 1, ctx_connect, connect, get_node. simpl.
        destruct (parent =? lk); [done|]. by destruct (p_nodes (cx_pub c3) !! parent).
      - apply orb_false_iff in Es as [_ Es]. apply N.leb_gt in Es.
        unfold mbind' at 1, with_ctx at 1, reserve_publisher_entry, add_node. simpl.
        destruct (p_len (cx_pub c3) <? u32_modulus); cbn [rbind]; [|done].
        apply IH; [|done|lia]. intros r' i b' q' k'. unfold check. simpl. rewrite E3. apply Hst2. }
    unfold mbind' at 1, upd_ctx at 1, with_ctx at 1, reinitialize_eval_set.
    destruct (c_heads (cx_cache (st_ctx st)) !! (r, pos)) as [h|]; cbn [rbind]; [|done].
    apply Hb1. intros r' i b' q' k' Hc. by eapply Hst.
  Qed.

  (** [length - position + 1] evaluations of the rule body are always enough
      (the first argument of the left-recursive entry bounds them). *)
  Theorem C27_growth_bound parent inv st : ends_within L st ->
    var_name_kernel_indirect_left_recursion (N.to_nat (L - pos) + 1) inv r f parent pos st <> NoFuel.
  Proof using Hf Hpos.
    intros Hst. unfold var_name_kernel_indirect_left_recursion, should_go_into_growth_function.
    assert (Hgrow : forall st1 prev, ends_within L st1 ->
      growth_function (N.to_nat (L - pos) + 1) inv r f parent pos prev st1 <> NoFuel).
    { intros st1 prev Hst1. unfold growth_function. unfold mbind' at 1, with_ctx at 1, reserve_publisher_entry, add_node.
      destruct (p_len (cx_pub (st_ctx st1)) <? u32_modulus); cbn [rbind]; [|done].
      unfold mbind' at 1, upd_ctx at 1, with_ctx at 1, update_publisher_entry, set_node_result, set_node_start_position, set_node_end_position, get_node.
      simpl. rewrite lookup_insert. simpl. rewrite lookup_insert. simpl. rewrite lookup_insert. simpl.
      unfold mbind' at 1, with_ctx at 1, reserve_publisher_entry, add_node. simpl.
      destruct (_ <? u32_modulus); cbn [rbind]; [|done].
      unfold mbind' at 1, upd_ctx at 1, with_ctx at 1. cbn [rbind].
      apply grow_bound; [|done|simpl; lia]. intros r' i b' q' k' Hc. by eapply Hst1. }
    assert (Hfst : forall k (st1 : pstate U) (K : bool * N -> M (pstate U) (bool * N)), ends_within L st1 ->
      (forall res st2, K res st2 <> NoFuel) -> (do res <- f k pos; K res) st1 <> NoFuel).
    { intros k st1 K Hst1 HK. specialize (Hf k st1 Hst1). unfold mbind' at 1. destruct (f k pos st1) as [[res st2]| |]; cbn [rbind]; [apply HK|done|done]. }
    assert (Hrest : forall aj st1, get_current_active_lr_position (st_ctx st1) = Some aj -> ends_within L st1 ->
      (do c <- get_ctx;
      match get_current_active_lr_position c with
      | None => mpanic PExpectActive
      | Some active_lr_position =>
        do is_in_eval_set <- with_ctx (fun c => let! b := rule_in_eval_set c active_lr_position r in Ok (b, c));
        if (is_in_eval_set : bool) then
          do current_key <- with_ctx (fun c => reserve_publisher_entry c r);
          do _ <- upd_ctx (fun c => remove_from_eval_set c active_lr_position r);
          do result <- f current_key pos;
          do _ <- upd_ctx (fun c => update_publisher_entry c current_key (fst result) pos (snd result));
          do _ <- upd_ctx (fun c => Ok (create_cache_entry c r (fst result) pos (snd result) current_key));
          do _ <- upd_ctx (fun c => ctx_connect c parent current_key);
          mret result
        else
          do c <- get_ctx;
          match check c r pos with
          | Some (b, e, k) =>
            do _ <- upd_ctx (fun c => ctx_connect_if_not_connected c parent k);
            mret (b, e)
          | None => mret (false, pos)
          end
      end) st1 <> NoFuel).
    { intros aj st1 HA Hst1. unfold mbind' at 1, get_ctx at 1. cbn [rbind]. rewrite HA.
      unfold mbind' at 1, with_ctx at 1, rule_in_eval_set. destruct (c_heads (cx_cache (st_ctx st1)) !! aj) as [h|] eqn:Eh; cbn [rbind]; [|done].
      destruct (bool_decide (r ∈ h_eval h)).
      - unfold mbind' at 1, with_ctx at 1, reserve_publisher_entry, add_node. cbn [st_ctx].
        destruct (p_len (cx_pub (st_ctx st1)) <? u32_modulus); cbn [rbind]; [|done].
        unfold mbind' at 1, upd_ctx at 1, with_ctx at 1, remove_from_eval_set. simpl. rewrite Eh. cbn [rbind].
        apply Hfst.
        + intros r' i b' q' k' Hc. by eapply Hst1.
        + intros res st2. unfold mbind' at 1, upd_ctx at 1, with_ctx at 1, update_publisher_entry, set_node_result, set_node_start_position, set_node_end_position, get_node.
          simpl. destruct (p_nodes (cx_pub (st_ctx st2)) !! _); simpl; [|done]. rewrite lookup_insert. simpl. rewrite lookup_insert. simpl.
          unfold mbind' at 1, upd_ctx at 1, with_ctx at 1. cbn [rbind]. unfold mbind' at 1, upd_ctx at 1, with_ctx at 1, ctx_connect, connect, get_node. simpl.
          destruct (parent =? _); [done|]. by destruct (_ !! parent).
      - unfold mbind' at 1, get_ctx at 1. cbn [rbind st_ctx]. destruct (check (st_ctx st1) r pos) as [[[b q] k]|]; [|done].
        unfold mbind' at 1, upd_ctx at 1, with_ctx at 1, ctx_connect_if_not_connected, connect_if_not_connected, get_node. simpl.
        repeat (match goal with |- context [match ?x with _ => _ end] => destruct x end; simpl; try done). }
    unfold mbind' at 1 2, get_ctx at 1. cbn [rbind].
    destruct (get_current_active_lr_position (st_ctx st)) as [[a j]|] eqn:EA.
    - destruct (check_head (st_ctx st) r pos); cbn [rbind].
      + cbn [mret fst snd rbind]. by eapply Hrest.
      + unfold mbind' at 1, with_ctx at 1, rule_in_involved_set.
        destruct (c_heads (cx_cache (st_ctx st)) !! (a, j)) as [h|] eqn:Eh; cbn [rbind]; [|done].
        destruct (bool_decide (r ∈ h_involved h)); cbn [rbind].
        * cbn [mret fst snd rbind]. by eapply Hrest.
        * unfold mbind' at 1, upd_ctx at 1, with_ctx at 1. cbn [rbind]. cbn [mret fst snd rbind]. apply Hgrow.
          intros r' i b' q' k' Hc. by eapply Hst.
    - unfold mbind' at 1, upd_ctx at 1, with_ctx at 1. cbn [rbind]. cbn [mret fst snd rbind]. apply Hgrow.
      intros r' i b' q' k' Hc. by eapply Hst.
  Qed.

  (** The match only ever gets longer: whatever the loop ends with is at least
      as long as what it was given (so each accepted round, which becomes the
      next round's input, is strictly longer than all before). *)
  Theorem C27_growth_lengthens n : forall parent prev last lk ck st res st',
    growth_loop n r parent pos f prev last lk ck st = Ok (res, st') ->
    res = last \/ (fst res = true /\ snd last < snd res).
  Proof.
    clear. induction n as [|n IH]; intros parent prev last lk ck st res st' H; [done|]. cbn [growth_loop] in H.
    apply mbind_Ok_inv in H as (? & st1 & _ & H). apply mbind_Ok_inv in H as (res1 & st2 & _ & H).
    apply mbind_Ok_inv in H as (c & st3 & _ & H).
    destruct (match check c r pos with Some (b, e, k) => (k, (b, e)) | None => (ck, res1) end) as [ck' res'].
    apply mbind_Ok_inv in H as (? & st4 & _ & H). destruct (negb (fst res') || (snd res' <=? snd last)) eqn:E.
    - apply mbind_Ok_inv in H as (? & ? & _ & H). apply mbind_Ok_inv in H as (? & ? & _ & H). apply mbind_Ok_inv in H as (? & ? & _ & H).
      left. by injection H as <- _.
    - apply mbind_Ok_inv in H as (k & st5 & _ & H). apply orb_false_iff in E as [E1 E2]. apply negb_false_iff in E1. apply N.leb_gt in E2.
      right. apply IH in H as [->|[? ?]]; [done|]. split; [done|lia].
  Qed.
End growth.

(** ** Termination of parsers with left recursion. *)
Section lr_total.
  Context {U : Type} (pr : program U) (fn : N -> N) (nul : N -> bool) (lvl : N -> nat) (s : list N) (u0 : U).
  Context (Hs : N.of_nat (length s) < u32_modulus) (Hpr : program_wf pr fn) (Hwf : well_founded_program pr nul lvl).
  Notation len := (N.of_nat (length s)).
  Notation src := (source_new s).

  Lemma tame_session (Hv : veto_hooks pr) st : session pr (expr_wf pr fn) s u0 st -> tame s fn nul (cch st).
  Proof using Hpr Hwf Hs.
    induction 1 as [|st fuel e pos r st' HS IH He Hpos Hev]; [apply tame_init|].
    pose proof (wp_Ok _ _ _ _ _ _ (keeps_eval pr s fn nul lvl Hs Hpr Hwf Hv fuel e He 0 pos st Hpos IH) Hev) as (_ & H & _). done.
  Qed.

  Theorem C27_left_recursion_terminates R st e n pos :
    veto_hooks pr -> lr_labels_in pr R -> (forall r, r ∈ lr_labels e -> r ∈ R) ->
    session pr (expr_wf pr fn) s u0 st -> expr_wf pr fn e -> guarded nul lvl n true e -> pos <= len ->
    exists fuel0 res, res <> NoFuel /\ forall fuel, (fuel0 <= fuel)%nat -> eval pr src fuel e 0 pos st = res.
  Proof using Hpr Hwf Hs.
    intros Hv HR He HS Hwe Hg Hpos.
    destruct (eval_total pr s fn nul lvl Hs Hpr Hwf Hv R HR n e 0 pos st Hwe Hg He Hpos (tame_session Hv st HS)) as [m Hm].
    exists m, (eval pr src m e 0 pos st). split; [done|]. intros fuel Hf.
    eapply (eval_mono pr src); [by apply veto_mono|exact Hf|done].
  Qed.

  (** Hook-free: an answer, or key exhaustion. *)
  Theorem C27_answers_or_key_exhaustion R st e n pos :
    no_hooks pr -> lr_labels_in pr R -> (forall r, r ∈ lr_labels e -> r ∈ R) ->
    session pr (expr_wf pr fn) s u0 st -> expr_wf pr fn e -> guarded nul lvl n true e -> pos <= len ->
    exists fuel0, (exists r st', forall fuel, (fuel0 <= fuel)%nat -> eval pr src fuel e 0 pos st = Ok (r, st')) \/
      (forall fuel, (fuel0 <= fuel)%nat -> eval pr src fuel e 0 pos st = Panic PKeyOverflow).
  Proof using Hpr Hwf Hs.
    intros Hnh HR He HS Hwe Hg Hpos.
    destruct (C27_left_recursion_terminates R st e n pos (no_hooks_veto pr Hnh) HR He HS Hwe Hg Hpos) as (m & res & Hn & H).
    exists m. destruct res as [[r st']|x|]; [left; eauto| |done]. right. intros fuel Hf. rewrite H by done. f_equal.
    eapply (C26_only_key_exhaustion pr fn s u0 Hs Hpr Hnh st m e pos x); [done|done|done|]. by apply H.
  Qed.
End lr_total.

(** ** C29 *)
Section stratified.
  Context {U : Type} (pr : program U) (S : strat) (s : list N) (u0 : U).
  Context (Hs : N.of_nat (length s) < u32_modulus) (HS : stratified pr S).
  Notation len := (N.of_nat (length s)).
  Notation src := (source_new s).

  (** Entry calls: any well-formed expression of the program. *)
  Definition top_call (e : expr) : Prop := typed pr S 0 None false e.

  Lemma strat_session st : session pr top_call s u0 st -> VInv pr S s 0 0 None (cch st).
  Proof using HS Hs.
    induction 1 as [|st fuel e pos r st' Hses IH He Hpos Hev]; [by apply VInv_init|].
    pose proof (wp_Ok _ _ _ _ _ _ (eval_lr pr S s Hs HS fuel e 0 0 None false He pos 0 st (N.le_0_l _) IH) Hev) as (_ & _ & H & _). done.
  Qed.

  (** Every answer, in every reachable context, is the PEG answer of the
      grammar in which each left-recursive rule reads "seed, then tails". *)
  Theorem C29_left_recursion_meaning st fuel e pos b q st' :
    session pr top_call s u0 st -> top_call e ->
    eval pr src fuel e 0 pos st = Ok ((b, q), st') ->
    peg (lr_grammar pr S) s (pexp_of e) pos (if b then Some q else None) /\ (b = false -> q = pos).
  Proof using HS Hs.
    intros Hses He Hev.
    pose proof (wp_Ok _ _ _ _ _ _ (eval_lr pr S s Hs HS fuel e 0 0 None false He pos 0 st (N.le_0_l _) (strat_session st Hses)) Hev) as (H1 & H2 & _). done.
  Qed.
End stratified.

(** The plain case, spelled out: one directly left-recursive rule
    [A = (A , t1 , .. , tn) / s], whose tail and seed do not involve left
    recursion, in an otherwise arbitrary hook-free program. *)
Section direct.
  Context {U : Type} (pr : program U) (fn : N -> N) (nul : N -> bool) (s : list N) (u0 : U).
  Context (r f : N) (l t sd : expr).
  (** [plain g]: calling function [g] never involves left recursion. *)
  Context (plain : N -> bool).
  Fixpoint plain_expr (e : expr) : Prop :=
    match e with
    | ETerminal _ | EString _ | ERange _ _ => True
    | ESeq l r | EChoice l r => plain_expr l /\ plain_expr r
    | EAnd e | ENot e | EPlus e | EStar e | EOpt e | ESub e => plain_expr e
    | EVar r' g => fn r' = g /\ plain g = true /\ is_Some (pr_fn pr g)
    | EInline g => plain g = true /\ is_Some (pr_fn pr g)
    | ELR _ _ _ | EHook _ _ => False
    end.
  (** Any other code of the program: the rule is called with its
      left-recursive entry only. *)
  Fixpoint user_expr (e : expr) : Prop :=
    match e with
    | ETerminal _ | EString _ | ERange _ _ => True
    | ESeq l r | EChoice l r => user_expr l /\ user_expr r
    | EAnd e | ENot e | EPlus e | EStar e | EOpt e | ESub e => user_expr e
    | EVar r' g => fn r' = g /\ g <> f /\ is_Some (pr_fn pr g)
    | EInline g => g <> f /\ is_Some (pr_fn pr g)
    | ELR inv r' g => inv = [r] /\ r' = r /\ g = f
    | EHook _ _ => False
    end.
  Record direct_left_recursion : Prop := {
    dl_len : N.of_nat (length s) < u32_modulus;
    dl_label : fn r = f;
    dl_rule : pr_fn pr f = Some (EChoice (ESub l) sd);
    dl_left : lr_seq [r] r f l = Some t;          (* l is "A , t" *)
    dl_plain : forall g body, plain g = true -> pr_fn pr g = Some body -> plain_expr body;
    dl_not_plain : plain f = false;
    dl_tail : plain_expr t;
    dl_seed : plain_expr sd;
    dl_others : forall g body, pr_fn pr g = Some body -> g <> f -> user_expr body;
    dl_nul : forall g body, pr_fn pr g = Some body -> nullable nul (pexp_of body) = true -> nul g = true;
    dl_tail_consumes : nullable nul (pexp_of t) = false;
    dl_seed_consumes : nullable nul (pexp_of sd) = false;
  }.

  Definition direct_strat : strat := Strat fn (fun g => if g =? f then Some r else None) (fun _ => [r]) (fun _ => None)
    (fun g => if plain g then 0%nat else if g =? f then 1%nat else 2%nat) (fun g _ => plain g) nul.

  Context (HD : direct_left_recursion).

  Lemma plain_ne g : plain g = true -> (g =? f) = false.
  Proof using HD. intros H. apply N.eqb_neq. intros ->. rewrite (dl_not_plain HD) in H. done. Qed.
  Lemma plain_typed e : plain_expr e -> forall n A start, (start = true -> (0 < n)%nat) -> typed pr direct_strat n A start e.
  Proof using HD.
    induction e; simpl; intros He n A sb Hn; try done; try tauto.
    - destruct He. split; [auto|]. apply IHe2; [done|]. intros E. apply Hn. by destruct sb.
    - destruct He. split; auto.
    - auto.
    - auto.
    - auto.
    - auto.
    - auto.
    - auto.
    - destruct He as (H1 & H2 & H3). rewrite (plain_ne _ H2), H2. split_and!; try done. by destruct A.
    - destruct He as (H2 & H3). rewrite (plain_ne _ H2), H2. split_and!; try done. by destruct A.
  Qed.
  Lemma user_typed e : user_expr e -> forall n start, (start = true -> (2 < n)%nat) -> typed pr direct_strat n None start e.
  Proof using HD.
    induction e; simpl; intros He n sb Hn; try done; try tauto.
    - destruct He. split; [auto|]. apply IHe2; [done|]. intros E. apply Hn. by destruct sb.
    - destruct He. split; auto.
    - auto.
    - auto.
    - auto.
    - auto.
    - auto.
    - auto.
    - destruct He as (H1 & H2 & H3). apply N.eqb_neq in H2. rewrite H2. split_and!; try done.
      intros E. specialize (Hn E). destruct (plain f0); lia.
    - destruct He as (H2 & H3). apply N.eqb_neq in H2. rewrite H2. split_and!; try done.
      intros E. specialize (Hn E). destruct (plain f0); lia.
    - destruct He as (-> & -> & ->). rewrite N.eqb_refl. split_and!; try done.
      + apply (dl_label HD).
      + eexists. apply (dl_rule HD).
      + intros E. specialize (Hn E). destruct (plain f); lia.
  Qed.
  Lemma plain_no_lr e : plain_expr e -> lr_body pr fn [r] r f e = None.
  Proof using.
    assert (Halt : forall e, plain_expr e -> lr_alt pr fn [r] r f e = None /\ lr_seq [r] r f e = None).
    { clear. induction e; simpl; intros He; try done; try tauto.
      - destruct He as [H1 H2]. destruct (IHe1 H1) as [_ E]. destruct e1; try done; rewrite E; done.
      - destruct He as [H1 H2]. destruct (IHe1 H1) as [E1 E2]. rewrite E1, E2. done. }
    induction e; simpl; intros He; try done; [|auto].
    destruct He as [? ?]. destruct (Halt e1) as [-> _]; [done|]. by rewrite IHe1.
  Qed.
  Lemma direct_stratified : stratified pr direct_strat.
  Proof using HD.
    intros g body Hg. simpl. destruct (N.eqb_spec g f) as [->|Hne].
    - rewrite (dl_rule HD) in Hg. injection Hg as <-. split; simpl.
      + apply (dl_label HD).
      + done.
      + apply elem_of_list_here.
      + intros b Hb Hn. by apply elem_of_list_singleton in Hb.
      + intros b Hb. apply elem_of_list_singleton in Hb as ->. by rewrite (dl_label HD).
      + exists t, sd. rewrite (dl_left HD). rewrite (dl_not_plain HD), N.eqb_refl.
        pose proof (plain_no_lr sd (dl_seed HD)) as Hb.
        rewrite Hb. split; [done|]. split; [apply (dl_tail_consumes HD)|]. split; [apply (dl_seed_consumes HD)|].
        split; apply plain_typed; try apply HD; lia.
    - split; [|split].
      + destruct (plain g) eqn:Ep.
        * apply plain_typed; [by eapply (dl_plain HD)|lia].
        * apply N.eqb_neq in Hne as E. apply user_typed; [by eapply (dl_others HD)|lia].
      + intros a Ha. rewrite Ha. apply plain_typed; [by eapply (dl_plain HD)|lia].
      + by apply (dl_nul HD).
  Qed.

  Fixpoint plain_pexp (e : pexp) : Prop :=
    match e with
    | PChar _ | PStr _ | PRange _ _ => True
    | PSeq a b | PAlt a b => plain_pexp a /\ plain_pexp b
    | PAnd e | PNot e | POpt e | PPlus e | PStar e => plain_pexp e
    | PRef _ A => plain A = true
    end.
  Lemma plain_pexp_of e : plain_expr e -> plain_pexp (pexp_of e).
  Proof. induction e; simpl; tauto. Qed.
  Lemma peg_plain e i o : peg (lr_grammar pr direct_strat) s e i o -> plain_pexp e -> peg (grammar_of pr) s e i o.
  Proof using HD.
    induction 1; simpl; intros Hp; try (by constructor; auto).
    - eapply peg_range_ok; done.
    - destruct Hp. eapply peg_seq_ok; auto.
    - apply peg_seq_fail. tauto.
    - apply peg_alt_1. tauto.
    - apply peg_alt_2; tauto.
    - eapply peg_and_ok; auto.
    - eapply peg_not_fail; auto.
    - eapply peg_star_more; auto.
    - eapply peg_plus_ok; auto.
    - unfold lr_grammar in H. destruct (pr_fn pr A) as [body'|] eqn:E; [|done]. simpl in H. rewrite (plain_ne _ Hp) in H. injection H as <-.
      eapply peg_ref; [unfold grammar_of; by rewrite E|]. apply IHpeg, plain_pexp_of. by eapply (dl_plain HD).
  Qed.

  (** Whatever was parsed before, calling the rule parses a seed and then as
      many tails as possible. *)
  Theorem C29_direct_left_recursion st fuel pos b q st' :
    session pr user_expr s u0 st ->
    eval pr (source_new s) fuel (ELR [r] r f) 0 pos st = Ok ((b, q), st') ->
    peg (grammar_of pr) s (PSeq (pexp_of sd) (PStar (pexp_of t))) pos (if b then Some q else None) /\ (b = false -> q = pos).
  Proof using HD.
    intros HS Hev.
    assert (Htop : forall e, user_expr e -> top_call pr direct_strat e) by (intros e He; by apply user_typed).
    assert (HS' : session pr (top_call pr direct_strat) s u0 st).
    { clear Hev. induction HS as [|st1 fuel1 e1 pos1 r1 st1' _ IH He Hp Hev1]; [constructor|]. econstructor; [exact IH|by apply Htop|exact Hp|exact Hev1]. }
    destruct (C29_left_recursion_meaning pr direct_strat s u0 (dl_len HD) direct_stratified st fuel (ELR [r] r f) pos b q st' HS') as [H1 H2]; [by apply Htop|done|].
    split; [|done]. apply peg_ref_inv in H1 as (body & Hb & H1).
    unfold lr_grammar in Hb. rewrite (dl_rule HD) in Hb. simpl in Hb. rewrite N.eqb_refl in Hb.
    rewrite (dl_left HD), (plain_no_lr sd (dl_seed HD)) in Hb. simpl in Hb. injection Hb as <-.
    apply peg_plain; [done|]. simpl. split; apply plain_pexp_of, HD.
  Qed.
End direct.
