(** Proofs about left-recursive rules of the class of SpecLR.v. *)
From Verif Require Import ProofPeg ProofBasics ProofSound SpecLR.

(** Partial correctness. *)
Notation pc := (wp (fun _ => True)).
Notation cch st := (cx_cache (st_ctx st)).

Definition c_ins (c : cache) (r i : N) v : cache := Cache (<[(r, i) := v]> (c_memo c)) (c_heads c) (c_active c).
Definition c_hd (c : cache) (r i : N) h : cache := Cache (c_memo c) (<[(r, i) := h]> (c_heads c)) (c_active c).
Definition c_act (c : cache) a : cache := Cache (c_memo c) (c_heads c) a.

Section prims.
  Context {U : Type}.
  Implicit Types st : pstate U.

  Lemma pc_reserve {B} st r (K : N -> M (pstate U) B) Q :
    (forall k st1, cch st1 = cch st -> pc (K k) st1 Q) ->
    pc (mbind' (with_ctx (fun c => reserve_publisher_entry c r)) K) st Q.
  Proof.
    intros H. unfold wp, mbind', with_ctx, reserve_publisher_entry, add_node.
    destruct (p_len (cx_pub (st_ctx st)) <? u32_modulus); simpl; [|done]. by apply H.
  Qed.
  Lemma pc_pub {B} st f (K : unit -> M (pstate U) B) Q :
    (forall c c', f c = Ok c' -> cx_cache c' = cx_cache c) ->
    (forall st1, cch st1 = cch st -> pc (K tt) st1 Q) ->
    pc (mbind' (upd_ctx f) K) st Q.
  Proof.
    intros Hf H. unfold wp, mbind', upd_ctx, with_ctx.
    destruct (f (st_ctx st)) as [c'| |] eqn:E; simpl; try done. apply H. simpl. by eapply Hf.
  Qed.
  Lemma pc_connect {B} st p k (K : unit -> M (pstate U) B) Q :
    (forall st1, cch st1 = cch st -> pc (K tt) st1 Q) ->
    pc (mbind' (upd_ctx (fun c => ctx_connect c p k)) K) st Q.
  Proof.
    apply pc_pub. intros c c'. unfold ctx_connect. intros (p' & _ & [= <-])%rbind_Ok_inv. done.
  Qed.
  Lemma pc_connect_if {B} st p k (K : unit -> M (pstate U) B) Q :
    (forall st1, cch st1 = cch st -> pc (K tt) st1 Q) ->
    pc (mbind' (upd_ctx (fun c => ctx_connect_if_not_connected c p k)) K) st Q.
  Proof.
    apply pc_pub. intros c c'. unfold ctx_connect_if_not_connected. intros (p' & _ & [= <-])%rbind_Ok_inv. done.
  Qed.
  Lemma pc_update {B} st k b i q (K : unit -> M (pstate U) B) Q :
    (forall st1, cch st1 = cch st -> pc (K tt) st1 Q) ->
    pc (mbind' (upd_ctx (fun c => update_publisher_entry c k b i q)) K) st Q.
  Proof.
    apply pc_pub. intros c c'. unfold update_publisher_entry.
    intros (p1 & _ & (p2 & _ & (p3 & _ & [= <-])%rbind_Ok_inv)%rbind_Ok_inv)%rbind_Ok_inv. done.
  Qed.
  Lemma pc_memo {B} st r b i q k (K : unit -> M (pstate U) B) Q :
    (forall st1, cch st1 = c_ins (cch st) r i (b, q, k) -> pc (K tt) st1 Q) ->
    pc (mbind' (upd_ctx (fun c => Ok (create_cache_entry c r b i q k))) K) st Q.
  Proof. intros H. unfold wp, mbind', upd_ctx, with_ctx. simpl. by apply H. Qed.
  Lemma pc_active {B} st a (K : unit -> M (pstate U) B) Q :
    (forall st1, cch st1 = c_act (cch st) a -> pc (K tt) st1 Q) ->
    pc (mbind' (upd_ctx (fun c => Ok (set_current_active_lr_position c a))) K) st Q.
  Proof. intros H. unfold wp, mbind', upd_ctx, with_ctx. simpl. by apply H. Qed.
  Lemma pc_set_head {B} st i r inv (K : unit -> M (pstate U) B) Q :
    (forall st1, cch st1 = c_hd (cch st) r i (Head i r inv inv) -> pc (K tt) st1 Q) ->
    pc (mbind' (upd_ctx (fun c => Ok (set_head c i r inv))) K) st Q.
  Proof. intros H. unfold wp, mbind', upd_ctx, with_ctx. simpl. by apply H. Qed.
  Lemma pc_reinit {B} st i r h (K : unit -> M (pstate U) B) Q : c_heads (cch st) !! (r, i) = Some h ->
    (forall st1, cch st1 = c_hd (cch st) r i (Head (h_start h) (h_rule h) (h_involved h) (h_involved h)) -> pc (K tt) st1 Q) ->
    pc (mbind' (upd_ctx (fun c => reinitialize_eval_set c r i)) K) st Q.
  Proof.
    intros Hh H. unfold wp, mbind', upd_ctx, with_ctx, reinitialize_eval_set. rewrite Hh. simpl. by apply H.
  Qed.
  Lemma pc_get {B} st (K : context -> M (pstate U) B) Q :
    pc (K (st_ctx st)) st Q -> pc (mbind' get_ctx K) st Q.
  Proof. done. Qed.
End prims.

Definition memo (c : cache) (r i : N) := c_memo c !! (r, i).
Definition hd (c : cache) (r i : N) := c_heads c !! (r, i).
Definition mo (c : cache) (r i : N) : option N :=
  match memo c r i with Some (true, q, _) => Some q | _ => None end.

Lemma memo_ins c r i v : memo (c_ins c r i v) r i = Some v.
Proof. apply lookup_insert. Qed.
Lemma memo_ins_ne c r i v r' i' : (r', i') <> (r, i) -> memo (c_ins c r i v) r' i' = memo c r' i'.
Proof. intros H. apply lookup_insert_ne. congruence. Qed.
Lemma hd_hd c r i h : hd (c_hd c r i h) r i = Some h.
Proof. apply lookup_insert. Qed.
Lemma hd_hd_ne c r i h r' i' : (r', i') <> (r, i) -> hd (c_hd c r i h) r' i' = hd c r' i'.
Proof. intros H. apply lookup_insert_ne. congruence. Qed.
Lemma mo_ins c r i b q k : mo (c_ins c r i (b, q, k)) r i = outcome b q.
Proof. unfold mo. rewrite memo_ins. by destruct b. Qed.
Lemma mo_eq c c' r i : memo c' r i = memo c r i -> mo c' r i = mo c r i.
Proof. unfold mo. by intros ->. Qed.

Lemma peg_star_last g s e i j : peg g s (PStar e) i (Some j) -> peg g s e j None.
Proof.
  remember (PStar e) as E eqn:HE. remember (Some j) as o eqn:Ho. intros H.
  revert j e HE Ho. induction H; intros; simplify_eq; eauto.
Qed.
Lemma peg_star_ok g s e i o : peg g s (PStar e) i o -> exists j, o = Some j.
Proof.
  remember (PStar e) as E eqn:HE. intros H. revert e HE. induction H; intros; simplify_eq; eauto.
Qed.
Lemma peg_star_chain g s e i j :
  rtc (fun x y => peg g s e x (Some y)) i j -> peg g s e j None -> peg g s (PStar e) i (Some j).
Proof. induction 1; intros; [by constructor|]. eapply peg_star_more; eauto. Qed.

Lemma peg_star_rtc g s e i j :
  peg g s (PStar e) i (Some j) -> rtc (fun x y => peg g s e x (Some y)) i j /\ peg g s e j None.
Proof.
  remember (PStar e) as E eqn:HE. remember (Some j) as o eqn:Ho. intros H.
  revert j e HE Ho. induction H; intros; simplify_eq; [split; [apply rtc_refl|done]|].
  destruct (IHpeg2 _ _ eq_refl eq_refl) as [? ?]. split; [by eapply rtc_l|done].
Qed.
Lemma peg_ref_inv g s l A i o : peg g s (PRef l A) i o -> exists body, g A = Some body /\ peg g s body i o.
Proof. inversion 1; subst; eauto. Qed.

(** ** Shapes *)
Section shapes.
  Context {U : Type} (pr : program U) (fn : N -> N) (G : list N) (r f : N).
  Lemma lr_seq_first e t : lr_seq G r f e = Some t -> first_sat e = None.
  Proof.
    revert t. induction e; simpl; intros t H; try done.
    - apply bind_Some in H as (ta & Ha & _). eauto.
    - eauto.
  Qed.
  (** The first satellite [b] of a body, its tail [tb], and how it relates to
      the tails [t] of the whole body. *)
  Definition first_tail (s : list N) (g : pgrammar) (b : N) (tb t : expr) : Prop :=
    b ∈ G /\ b <> r /\ (exists body, pr_fn pr (fn b) = Some body /\ lr_seq G r f body = Some tb) /\
    (forall q q', peg g s (pexp_of tb) q (Some q') -> peg g s (pexp_of t) q (Some q')) /\
    (forall q, peg g s (pexp_of t) q None -> peg g s (pexp_of tb) q None).
  Lemma lr_alt_first s g e t b : lr_alt pr fn G r f e = Some t -> first_sat e = Some b ->
    exists tb, first_tail s g b tb t.
  Proof.
    revert t. induction e; simpl; intros t H Hb; try done.
    - apply bind_Some in H as (ta & Ha & H). apply bind_Some in H as (tb & Hb' & [= <-]).
      destruct (IHe1 ta Ha Hb) as (tb0 & H1 & H2 & H3 & H4 & H5). exists tb0. split; [done|]. split; [done|].
      split; [done|]. split; simpl.
      + intros q q' Hq. apply peg_alt_1. auto.
      + intros q Hq. inversion Hq; subst. auto.
    - apply lr_seq_first in H. simpl in H. congruence.
    - destruct (decide _) as [(-> & H1 & H2 & <-)|]; [|done]. apply bind_Some in H as (body & Hbody & H).
      injection Hb as <-. exists t. split; [done|]. split; [done|]. split; [eauto|]. done.
  Qed.
  Lemma lr_body_first s g e t sd b : lr_body pr fn G r f e = Some (t, sd) -> first_sat e = Some b ->
    exists tb, first_tail s g b tb t.
  Proof.
    revert t sd. induction e; simpl; intros t sd H Hb; try done.
    - destruct (lr_alt pr fn G r f e1) as [t1|] eqn:E1.
      + destruct (lr_alt_first s g _ _ _ E1 Hb) as (tb & H1 & H2 & H3 & H4 & H5).
        destruct (lr_body pr fn G r f e2) as [[t2 sd2]|]; simplify_eq; exists tb; [|done].
        split; [done|]. split; [done|]. split; [done|]. split; simpl.
        * intros q q' Hq. apply peg_alt_1. auto.
        * intros q Hq. inversion Hq; subst. auto.
      + apply bind_Some in H as ([t1 sd1] & H1 & [= <- <-]). eauto.
    - eauto.
  Qed.
End shapes.

Set Default Proof Using "All".
Section LR.
  Context {U : Type} (pr : program U) (S : strat) (s : list N).
  Context (Hs : N.of_nat (length s) < u32_modulus) (HS : stratified pr S).
  Notation g := (lr_grammar pr S).
  Notation src := (source_new s).
  Notation fn := (st_fn S).
  Notation lvl := (st_lvl S).
  Notation grp := (st_group S).
  Notation nul := (nullable (st_nul S)).
  Implicit Types st : pstate U.

  (** ** Consumption *)
  Lemma lr_parts f r body : pr_fn pr f = Some body -> st_lr S f = Some r ->
    exists t sd, lr_body pr fn (grp r) r f body = Some (t, sd) /\ g f = Some (PSeq (pexp_of sd) (PStar (pexp_of t))).
  Proof.
    intros Hf Hr. pose proof (HS f body Hf) as H. rewrite Hr in H.
    destruct (lo_shape _ _ _ _ _ H) as (t & sd & Hb & _). exists t, sd. split; [done|].
    unfold lr_grammar. rewrite Hf; simpl. rewrite Hr, Hb. done.
  Qed.

  Lemma nullable_sound e i o : peg g s e i o -> forall j, o = Some j -> i <= j /\ (j = i -> nul e = true).
  Proof.
    induction 1; intros j' Hj; simplify_eq; simpl; try (split; [lia|]; intros; lia || done).
    - split; [lia|]. destruct l; [done|simpl length; lia].
    - destruct (IHpeg1 _ eq_refl) as [? N1], (IHpeg2 _ eq_refl) as [? N2]. split; [lia|].
      intros ->. rewrite N1, N2 by lia. done.
    - destruct (IHpeg _ eq_refl) as [? N1]. split; [lia|]. intros. by rewrite N1.
    - destruct (IHpeg2 _ eq_refl) as [? N1]. split; [lia|]. intros. rewrite N1 by done. apply orb_true_r.
    - destruct (IHpeg1 _ eq_refl) as [? N1], (IHpeg2 _ eq_refl) as [? N2]. split; [lia|done].
    - destruct (IHpeg1 _ eq_refl) as [? N1], (IHpeg2 _ eq_refl) as [? N2]. split; [lia|].
      intros ->. apply N1. lia.
    - destruct (IHpeg _ eq_refl) as [? N1]. split; [lia|done].
    - destruct (IHpeg _ eq_refl) as [? N1]. split; [lia|]. intros ->.
      unfold lr_grammar in H. destruct (pr_fn pr A) as [e|] eqn:Hf; [|done]. simpl in H.
      pose proof (HS A e Hf) as HA. destruct (st_lr S A) as [r|].
      + destruct (lo_shape _ _ _ _ _ HA) as (t & sd & Hb & _ & Hn & _). rewrite Hb in H. simpl in H. simplify_eq.
        specialize (N1 eq_refl). simpl in N1. by rewrite Hn in N1.
      + simplify_eq. destruct HA as (_ & _ & Hn). by apply Hn, N1.
  Qed.
  Lemma consumes e i j : peg g s e i (Some j) -> nul e = false -> i < j.
  Proof.
    intros H Hn. destruct (nullable_sound _ _ _ H j eq_refl) as [H1 H2].
    assert (j <> i); [|lia]. intros E. rewrite H2 in Hn; done.
  Qed.
  Lemma grows e i j : peg g s e i (Some j) -> i <= j.
  Proof. intros H%peg_bounds. lia. Qed.

  (** ** Invariants *)
  Definition Valid (n : nat) (P r i : N) : Prop := P <= i \/ (i + 1 = P /\ (lvl (fn r) < n)%nat).
  Lemma Valid_dec n P r i : Valid n P r i \/ ~ Valid n P r i.
  Proof. unfold Valid. destruct (N.le_gt_cases P i); [lia|]. destruct (N.eq_dec (i + 1) P); lia. Qed.

  Definition answer (r i : N) (b : bool) (q : N) : Prop :=
    peg g s (PRef (Some r) (fn r)) i (outcome b q) /\ (b = false -> q = i).
  Definition chainpt (sd t : pexp) (i q : N) : Prop :=
    exists q0, peg g s sd i (Some q0) /\ rtc (fun x y => peg g s t x (Some y)) q0 q.

  Record VInv (n : nat) (P : N) (A : option N) (c : cache) : Prop := mkVInv {
    v_memo : forall r i b q k, memo c r i = Some (b, q, k) -> Valid n P r i -> st_sat S r = None -> answer r i b q;
    v_head : forall r i h, hd c r i = Some h -> Valid n P r i -> st_sat S r = None -> is_Some (memo c r i);
    v_stale : forall a f body t sd b i q, st_lr S f = Some a -> pr_fn pr f = Some body ->
      lr_body pr fn (grp a) a f body = Some (t, sd) -> first_sat body = Some b ->
      Valid n P a i -> mo c b i = Some q ->
      is_Some (memo c a i) /\ chainpt (pexp_of sd) (pexp_of t) i q;
    v_act : match c_active c with
            | None => True
            | Some (a, j) => A = Some a /\ st_sat S a = None /\ ~ Valid n P a j /\ exists h, hd c a j = Some h /\
                h_involved h = list_to_set (grp a) /\ h_eval h ⊆ h_involved h
            end;
  }.

  Record Fr (n : nat) (P : N) (c c' : cache) : Prop := mkFr {
    fr_act : c_active c' = c_active c;
    fr_same : forall r i, ~ Valid n P r i -> memo c' r i = memo c r i /\ hd c' r i = hd c r i;
  }.
  Lemma Fr_refl n P c : Fr n P c c.
  Proof. split; [done|]. done. Qed.
  Lemma Fr_trans n P c1 c2 c3 : Fr n P c1 c2 -> Fr n P c2 c3 -> Fr n P c1 c3.
  Proof.
    intros [A1 B1] [A2 B2]. split; [congruence|]. intros r i H.
    destruct (B1 r i H) as [-> ->] || destruct (B1 r i H). destruct (B2 r i H). split; congruence.
  Qed.

  Definition Post (e : pexp) n P A (x : N) (c : cache) (res : bool * N) (st' : pstate U) : Prop :=
    peg g s e x (outcome (fst res) (snd res)) /\ (fst res = false -> snd res = x) /\
    VInv n P A (cch st') /\ Fr n P c (cch st').

  Definition runs (e : pexp) n P A (start : bool) (f : parser U) : Prop :=
    forall x parent st, P <= x + (if start then 1 else 0) -> VInv n P A (cch st) ->
      pc (f parent x) st (Post e n P A x (cch st)).

  Section kernels.
    Context (n : nat) (P : N) (A : option N).
    Lemma seq_lr start e1 e2 f1 f2 : runs e1 n P A start f1 -> runs e2 n P A (start && nul e1) f2 ->
      runs (PSeq e1 e2) n P A start (sequence_kernel f1 f2).
    Proof.
      intros H1 H2 x parent st Hx HV. unfold sequence_kernel. apply wp_bind.
      eapply wp_mono; [by apply H1|]. intros [b q] st1 (Hp & Hf & HV1 & HF1). simpl in *. destruct b.
      - apply wp_bind. eapply wp_mono.
        { apply H2; [|done]. simpl in Hp. destruct (nullable_sound _ _ _ Hp q eq_refl) as [Hle Hn].
          destruct start; simpl in *; [|lia]. destruct (nul e1) eqn:En; [lia|].
          assert (q <> x); [|lia]. intros E. by specialize (Hn E). }
        intros [b2 q2] st2 (Hp2 & Hf2 & HV2 & HF2). simpl in *.
        destruct b2; apply wp_ret; (split; [|split; [done|split; [done|by eapply Fr_trans]]]); simpl in *;
          by eapply peg_seq_ok.
      - apply wp_ret. split; [by apply peg_seq_fail|]. done.
    Qed.
    Lemma choice_lr start e1 e2 f1 f2 : runs e1 n P A start f1 -> runs e2 n P A start f2 ->
      runs (PAlt e1 e2) n P A start (ordered_choice_kernel f1 f2).
    Proof.
      intros H1 H2 x parent st Hx HV. unfold ordered_choice_kernel. apply wp_bind.
      eapply wp_mono; [by apply H1|]. intros [b q] st1 (Hp & Hf & HV1 & HF1). simpl in *. destruct b.
      - apply wp_ret. split; [by apply peg_alt_1|]. done.
      - apply wp_bind. eapply wp_mono; [by apply H2|].
        intros [b2 q2] st2 (Hp2 & Hf2 & HV2 & HF2). simpl in *.
        destruct b2; apply wp_ret; (split; [|split; [done|split; [done|by eapply Fr_trans]]]); simpl in *;
          by eapply peg_alt_2.
    Qed.
    Lemma and_lr start e f : runs e n P A start f -> runs (PAnd e) n P A start (and_predicate_kernel f).
    Proof.
      intros H1 x parent st Hx HV. unfold and_predicate_kernel. apply wp_bind.
      eapply wp_mono; [by apply H1|]. intros [b q] st1 (Hp & Hf & HV1 & HF1). simpl in *.
      destruct b; apply wp_ret; (split; [|done]); simpl in *; [by eapply peg_and_ok|by eapply peg_and_fail].
    Qed.
    Lemma not_lr start e f : runs e n P A start f -> runs (PNot e) n P A start (not_predicate_kernel f).
    Proof.
      intros H1 x parent st Hx HV. unfold not_predicate_kernel. apply wp_bind.
      eapply wp_mono; [by apply H1|]. intros [b q] st1 (Hp & Hf & HV1 & HF1). simpl in *.
      destruct b; apply wp_ret; (split; [|done]); simpl in *; [by eapply peg_not_fail|by eapply peg_not_ok].
    Qed.
    Lemma opt_lr start e f : runs e n P A start f -> runs (POpt e) n P A start (optional_kernel f).
    Proof.
      intros H1 x parent st Hx HV. unfold optional_kernel. apply wp_bind.
      eapply wp_mono; [by apply H1|]. intros [b q] st1 (Hp & Hf & HV1 & HF1). simpl in *.
      destruct b; apply wp_ret; (split; [|done]); simpl in *; [by eapply peg_opt_some|by eapply peg_opt_none].
    Qed.
    Lemma sub_lr start e f : runs e n P A start f -> runs e n P A start (subexpression_kernel f).
    Proof.
      intros H1 x parent st Hx HV. unfold subexpression_kernel. apply wp_bind.
      eapply wp_mono; [by apply H1|]. intros [b q] st1 (Hp & Hf & HV1 & HF1). simpl in *.
      destruct b; apply wp_ret; split; done.
    Qed.
    Lemma loop_lr start e f fuel : runs e n P A start f -> runs (PStar e) n P A start (repeat_loop fuel f).
    Proof.
      intros H1. induction fuel as [|fuel IH]; intros x parent st Hx HV; [done|].
      cbn [repeat_loop]. apply wp_bind.
      eapply wp_mono; [by apply H1|]. intros [b q] st1 (Hp & Hf & HV1 & HF1). simpl in *.
      destruct b; simpl.
      - eapply wp_mono; [apply IH; [apply grows in Hp; destruct start; lia|done]|].
        intros [b2 q2] st2 (Hp2 & Hf2 & HV2 & HF2).
        split; [by eapply peg_star_more|]. split; [|split; [done|by eapply Fr_trans]].
        intros E. simpl in *. subst. apply peg_star_ok in Hp2 as [? ?]. done.
      - apply wp_ret. split; [by eapply peg_star_stop|]. done.
    Qed.
    Lemma plus_lr start e f fuel : runs e n P A start f -> runs (PPlus e) n P A start (one_or_more_kernel fuel f).
    Proof.
      intros H1 x parent st Hx HV. unfold one_or_more_kernel. apply wp_bind.
      eapply wp_mono; [by apply H1|]. intros [b q] st1 (Hp & Hf & HV1 & HF1). simpl in *.
      destruct b; simpl.
      - eapply wp_mono; [eapply loop_lr; [exact H1|apply grows in Hp; destruct start; lia|done]|].
        intros [b2 q2] st2 (Hp2 & Hf2 & HV2 & HF2).
        split; [by eapply peg_plus_ok|]. split; [|split; [done|by eapply Fr_trans]].
        intros E. simpl in *. subst. apply peg_star_ok in Hp2 as [? ?]. done.
      - apply wp_ret. split; [by eapply peg_plus_fail|]. done.
    Qed.
  End kernels.

  (** Narrowing and widening the region in which memo entries are trusted. *)
  Lemma VInv_narrow n P A n' P' c :
    (forall r i, Valid n' P' r i -> Valid n P r i) -> VInv n P A c -> VInv n' P' A c.
  Proof.
    intros H [V1 V2 V3 V4]. split; eauto. destruct (c_active c) as [[a j]|]; [|done].
    destruct V4 as (? & ? & ? & ?). split_and!; auto.
  Qed.
  Lemma VInv_widen n P A n' P' c c' :
    (forall r i, Valid n' P' r i -> Valid n P r i) -> VInv n P A c -> VInv n' P' A c' -> Fr n' P' c c' ->
    VInv n P A c' /\ Fr n P c c'.
  Proof.
    intros H [V1 V2 V3 V4] [W1 W2 W3 W4] [F1 F2]. split; [split|split].
    - intros r i b q k Hm Hv Hns. destruct (Valid_dec n' P' r i) as [D|D]; [by eapply W1|].
      destruct (F2 r i D) as [E _]. rewrite E in Hm. by eapply V1.
    - intros r i h Hh Hv Hns. destruct (Valid_dec n' P' r i) as [D|D]; [by eapply W2|].
      destruct (F2 r i D) as [E E']. rewrite E' in Hh. rewrite E. by eapply V2.
    - intros a f body t sd b i q Ha Hf Hb Hfs Hv Hq. destruct (Valid_dec n' P' a i) as [D|D]; [by eapply W3|].
      destruct (F2 a i D) as [E E']. rewrite E. eapply V3; try done. rewrite <-Hq. symmetry. apply mo_eq.
      apply (F2 b i). intros D'. apply D. clear -D' HS Ha Hf Hb Hfs.
      assert (Hl : lvl (fn b) = lvl (fn a)).
      { pose proof (HS f body Hf) as HL. rewrite Ha in HL.
        destruct (lr_body_first pr fn _ _ _ [] g _ _ _ _ Hb Hfs) as (tb & Hin & _).
        rewrite (lo_lvl _ _ _ _ _ HL b Hin). by rewrite (lo_fn _ _ _ _ _ HL). }
      unfold Valid in *. by rewrite <-Hl.
    - rewrite F1 in *. destruct (c_active c) as [[a j]|]; [|done].
      destruct V4 as (? & ? & ? & ?), W4 as (? & ? & ? & ?). split_and!; auto.
    - done.
    - intros r i D. apply F2. auto.
  Qed.

  (** ** Growing one rule *)
  Definition tail_out (t : pexp) (cA o : option N) : Prop :=
    match cA with Some q => peg g s t q o | None => o = None end.

  Section growth.
    Context (r f : N) (body t sd : expr) (x : N) (c0 : cache).
    Notation G := (grp r).
    Context (Hf : pr_fn pr f = Some body) (Hr : st_lr S f = Some r).
    Context (Hb : lr_body pr fn G r f body = Some (t, sd)).
    Context (M : nat).
    Context (IH : forall m, (m < M)%nat -> forall e n P A start, typed pr S n A start e ->
                    runs (pexp_of e) n P A start (eval pr src m e)).
    Notation V' := (Valid (lvl f) (x + 1)).

    Lemma Hok : lr_rule_ok pr S r f body.
    Proof. pose proof (HS f body Hf) as H. by rewrite Hr in H. Qed.
    Lemma typed_t : typed pr S (lvl f) (Some r) false t.
    Proof. destruct (lo_shape _ _ _ _ _ Hok) as (t' & sd' & E & _ & _ & H & _). rewrite Hb in E. by simplify_eq. Qed.
    Lemma typed_sd : typed pr S (lvl f) (Some r) true sd.
    Proof. destruct (lo_shape _ _ _ _ _ Hok) as (t' & sd' & E & _ & _ & _ & H). rewrite Hb in E. by simplify_eq. Qed.
    Lemma nul_t : nul (pexp_of t) = false.
    Proof. destruct (lo_shape _ _ _ _ _ Hok) as (t' & sd' & E & H & _). rewrite Hb in E. by simplify_eq. Qed.
    Lemma nul_sd : nul (pexp_of sd) = false.
    Proof. destruct (lo_shape _ _ _ _ _ Hok) as (t' & sd' & E & _ & H & _). rewrite Hb in E. by simplify_eq. Qed.
    Lemma G_lvl b : b ∈ G -> ~ V' b x.
    Proof. intros Hin. pose proof (lo_lvl _ _ _ _ _ Hok b Hin) as H. unfold Valid. lia. Qed.
    Lemma r_in : r ∈ G.
    Proof. apply (lo_in _ _ _ _ _ Hok). Qed.

    Definition evals (c : cache) : gset N := match hd c r x with Some h => h_eval h | None => ∅ end.
    Record GInv (c : cache) : Prop := mkGInv {
      gi_v : VInv (lvl f) (x + 1) (Some r) c;
      gi_act : c_active c = Some (r, x);
      gi_fr : forall r' i, ~ V' r' i -> ~ (i = x /\ r' ∈ G) ->
        memo c r' i = memo c0 r' i /\ hd c r' i = hd c0 r' i;
    }.
    Lemma gi_head c : GInv c -> exists h, hd c r x = Some h /\ h_involved h = list_to_set G /\ h_eval h ⊆ h_involved h.
    Proof. intros [[_ _ _ H] E _]. rewrite E in H. by destruct H as (_ & _ & _ & H). Qed.

    (** All group memo entries and the recursion head are as before. *)
    Definition Same (c c' : cache) : Prop :=
      hd c' r x = hd c r x /\ forall b, b ∈ G -> memo c' b x = memo c b x.
    Lemma Same_refl c : Same c c.
    Proof. done. Qed.
    Lemma Same_trans c1 c2 c3 : Same c1 c2 -> Same c2 c3 -> Same c1 c3.
    Proof. intros [H1 H2] [H3 H4]. split; [congruence|]. intros b Hin. rewrite H4, H2; done. Qed.
    Lemma Same_evals c c' : Same c c' -> evals c' = evals c.
    Proof. intros [H _]. unfold evals. by rewrite H. Qed.
    Lemma Same_mo c c' b : Same c c' -> b ∈ G -> mo c' b x = mo c b x.
    Proof. intros [_ H] Hin. apply mo_eq. auto. Qed.

    Lemma inner m e start x' parent st : (m < M)%nat -> typed pr S (lvl f) (Some r) start e ->
      x + 1 <= x' + (if start then 1 else 0) -> GInv (cch st) ->
      pc (eval pr src m e parent x') st (fun res st' =>
        peg g s (pexp_of e) x' (outcome (fst res) (snd res)) /\ (fst res = false -> snd res = x') /\
        GInv (cch st') /\ Same (cch st) (cch st')).
    Proof.
      intros Hm Ht Hx [HV HA HF].
      eapply wp_mono; [by apply (IH m Hm e (lvl f) (x + 1) (Some r) start Ht)|].
      intros res st' (Hp & Hfail & HV' & [F1 F2]). split; [done|]. split; [done|]. split; [split|split].
      - done.
      - congruence.
      - intros r' i H1 H2. destruct (F2 r' i H1) as [E1 E2]. destruct (HF r' i H1 H2). split; congruence.
      - apply F2. apply G_lvl, r_in.
      - intros b Hin. apply F2. by apply G_lvl.
    Qed.

    (** Changing a group memo entry, or the evaluation set. *)
    Lemma GInv_ins c b v : b ∈ G -> GInv c -> GInv (c_ins c b x v).
    Proof.
      intros Hin [[V1 V2 V3 V4] HA HF]. pose proof (G_lvl b Hin) as Hnv. split; [split|done|].
      - intros r' i b' q k Hm Hv. destruct (decide ((r', i) = (b, x))) as [[= -> ->]|Hne]; [done|].
        rewrite memo_ins_ne in Hm by done. by eapply V1.
      - intros r' i h Hh Hv Hns. destruct (decide ((r', i) = (b, x))) as [[= -> ->]|Hne]; [done|].
        rewrite memo_ins_ne by done. by eapply V2.
      - intros a fa bodya ta sda b' i q Ha Hfa Hba Hfs Hv Hq.
        assert (Hne : (b', i) <> (b, x)).
        { intros [= -> ->]. destruct (lr_body_first pr fn _ _ _ [] g _ _ _ _ Hba Hfs) as (tb & Hin' & _).
          pose proof (HS fa bodya Hfa) as HL. rewrite Ha in HL. apply Hnv. unfold Valid in *.
          by rewrite (lo_lvl _ _ _ _ _ HL b Hin'), <-(lo_fn _ _ _ _ _ HL). }
        unfold mo in Hq. rewrite memo_ins_ne in Hq by done.
        destruct (V3 a fa bodya ta sda b' i q Ha Hfa Hba Hfs Hv Hq) as [Hsome ?]. split; [|done].
        destruct (decide ((a, i) = (b, x))) as [[= -> ->]|Hne']; [rewrite memo_ins; eauto|].
        by rewrite memo_ins_ne.
      - apply V4.
      - intros r' i H1 H2. assert ((r', i) <> (b, x)) by (intros [= -> ->]; tauto).
        rewrite memo_ins_ne by done. by apply HF.
    Qed.
    Lemma GInv_hd c h : h_involved h = list_to_set G -> h_eval h ⊆ h_involved h -> GInv c -> GInv (c_hd c r x h).
    Proof.
      intros E1 E2 [[V1 V2 V3 V4] HA HF]. pose proof (G_lvl r r_in) as Hnv. split; [split|done|].
      - apply V1.
      - intros r' i h' Hh Hv Hns. destruct (decide ((r', i) = (r, x))) as [[= -> ->]|Hne]; [done|].
        rewrite hd_hd_ne in Hh by done. by eapply V2.
      - apply V3.
      - unfold c_hd; simpl. rewrite HA. split; [done|]. split; [apply (lo_sat _ _ _ _ _ Hok)|]. split; [done|].
        exists h. split; [apply hd_hd|done].
      - intros r' i H1 H2. assert ((r', i) <> (r, x)).
        { intros [= -> ->]. apply H2. split; [done|]. apply r_in. }
        rewrite hd_hd_ne by done. by apply HF.
    Qed.

    (** Calls of group rules at [x]. *)
    Lemma should_not b st : b ∈ G -> GInv (cch st) ->
      should_go_into_growth_function b x st = Ok ((false, None), st).
    Proof.
      intros Hin HG. destruct (gi_head _ HG) as (h & Hh & Hi & _). pose proof (gi_act _ HG) as HA.
      unfold should_go_into_growth_function, mbind', get_ctx; cbn [rbind].
      unfold get_current_active_lr_position. rewrite HA.
      destruct (check_head (st_ctx st) b x); [done|]. unfold with_ctx, rule_in_involved_set. unfold hd in Hh. rewrite Hh.
      cbn [rbind]. rewrite Hi. rewrite bool_decide_true by (by apply elem_of_list_to_set). cbn [rbind].
      by destruct st as [[? ?] ?].
    Qed.
    Lemma in_eval_eq b st h : GInv (cch st) -> hd (cch st) r x = Some h ->
      with_ctx (fun c => let! b := rule_in_eval_set c (r, x) b in Ok (b, c)) st = Ok (bool_decide (b ∈ h_eval h), st).
    Proof.
      intros HG Hh. unfold with_ctx, rule_in_eval_set. unfold hd in Hh. rewrite Hh. cbn [rbind]. by destruct st.
    Qed.
    Lemma call_in n b (func : parser U) parent st inv : b ∈ G -> GInv (cch st) -> b ∉ evals (cch st) ->
      pc (var_name_kernel_indirect_left_recursion n inv b func parent x) st (fun res st' =>
        cch st' = cch st /\ outcome (fst res) (snd res) = mo (cch st) b x).
    Proof.
      intros Hin HG Hev. destruct (gi_head _ HG) as (h & Hh & _). pose proof (gi_act _ HG) as HA.
      unfold var_name_kernel_indirect_left_recursion. apply wp_bind.
      unfold wp at 1. rewrite should_not by done. cbn [sat fst snd]. apply pc_get. unfold get_current_active_lr_position. rewrite HA.
      apply wp_bind. unfold wp at 1. rewrite (in_eval_eq b st h HG Hh). simpl.
      rewrite bool_decide_false by (unfold evals in Hev; by rewrite Hh in Hev).
      apply pc_get. unfold mo, memo. change (check (st_ctx st) b x) with (memo (cch st) b x). unfold memo.
      destruct (c_memo (cch st) !! (b, x)) as [[[b' e] k]|].
      - apply pc_connect_if. intros st1 E. apply wp_ret. split; [done|]. by destruct b'.
      - apply wp_ret. done.
    Qed.
    Lemma call_eval n b (func : parser U) parent st inv (Q : bool * N -> pstate U -> Prop) : b ∈ G -> GInv (cch st) -> b ∈ evals (cch st) ->
      (forall k st1 h, hd (cch st) r x = Some h ->
         cch st1 = c_hd (cch st) r x (Head (h_start h) (h_rule h) (h_involved h) (h_eval h ∖ {[b]})) ->
         pc (func k x) st1 (fun res st2 =>
           forall st3, cch st3 = c_ins (cch st2) b x (fst res, snd res, k) -> Q res st3)) ->
      pc (var_name_kernel_indirect_left_recursion n inv b func parent x) st Q.
    Proof.
      intros Hin HG Hev K. destruct (gi_head _ HG) as (h & Hh & _). pose proof (gi_act _ HG) as HA.
      unfold var_name_kernel_indirect_left_recursion. apply wp_bind.
      unfold wp at 1. rewrite should_not by done. cbn [sat fst snd]. apply pc_get. unfold get_current_active_lr_position. rewrite HA.
      apply wp_bind. unfold wp at 1. rewrite (in_eval_eq b st h HG Hh). simpl.
      rewrite bool_decide_true by (unfold evals in Hev; by rewrite Hh in Hev).
      apply pc_reserve. intros k st1 E1. apply wp_bind. unfold wp at 1, upd_ctx, with_ctx, remove_from_eval_set.
      rewrite E1. unfold hd in Hh. rewrite Hh. simpl. apply wp_bind.
      eapply wp_mono; [apply (K k _ h Hh); simpl; unfold c_hd, with_heads; simpl; by rewrite E1|].
      intros res st2 HQ. apply pc_update. intros st3 E3. apply pc_memo. intros st4 E4.
      apply pc_connect. intros st5 E5. apply wp_ret. apply HQ. rewrite E5, E4, E3. done.
    Qed.

    (** Running "A, then t" when A's value is already fixed to [cA]. *)
    Definition big (cA : option N) : Prop := forall q, cA = Some q -> x < q.
    Lemma tail_out_big e cA o : tail_out e cA o -> big cA -> big o.
    Proof.
      destruct cA as [q|]; simpl; intros H Hbig; [|by subst].
      intros q' ->. apply grows in H. specialize (Hbig q eq_refl). lia.
    Qed.
    Lemma seq_in e : forall m te parent st cA, (m <= M)%nat -> lr_seq G r f e = Some te ->
      typed pr S (lvl f) (Some r) false te -> GInv (cch st) -> r ∉ evals (cch st) -> mo (cch st) r x = cA -> big cA ->
      pc (eval pr src m e parent x) st (fun res st' =>
        tail_out (pexp_of te) cA (outcome (fst res) (snd res)) /\ (fst res = false -> snd res = x) /\
        GInv (cch st') /\ Same (cch st) (cch st')).
    Proof.
      induction e; intros m te parent st cA Hm He Hty HG Hev Hmo Hbig; simpl in He; try done;
        (destruct m as [|m]; [done|]); cbn [eval].
      - (* ESeq *)
        unfold sequence_kernel. apply wp_bind.
        assert (Hgen : forall te1, lr_seq G r f e1 = Some te1 -> te = ESeq te1 e2 ->
          pc (eval pr src m e1 parent x) st (fun a s0 => pc (let '(lhs_bool, position) := a in
            if lhs_bool then do (rhs_bool, position) <- eval pr src m e2 parent position;
              if rhs_bool then mret (true, position) else mret (false, x) else mret (false, x)) s0
              (fun res st' => tail_out (pexp_of te) cA (outcome (fst res) (snd res)) /\ (fst res = false -> snd res = x) /\
        GInv (cch st') /\ Same (cch st) (cch st')))).
        { intros te1 He1 ->. destruct Hty as [Ht1 Ht2].
          eapply wp_mono; [eapply IHe1; [lia|exact He1|done|done|done|exact Hmo|done]|].
          intros [b q] st1 (Ho & Hfail & HG1 & HS1). simpl in *. destruct b.
          - apply wp_bind. pose proof (tail_out_big _ _ _ Ho Hbig q eq_refl) as Hq.
            eapply wp_mono; [apply (inner m e2 false q); [lia|done|lia|done]|].
            intros [b2 q2] st2 (Ho2 & Hfail2 & HG2 & HS2). simpl in *.
            assert (tail_out (PSeq (pexp_of te1) (pexp_of e2)) cA (outcome b2 q2)).
            { destruct cA as [qa|]; simpl in *; [|done]. by eapply peg_seq_ok. }
            destruct b2; apply wp_ret; (split; [done|]); (split; [done|]); (split; [done|]); by eapply Same_trans.
          - apply wp_ret. split; [|done]. destruct cA as [qa|]; simpl in *; [|done]. by apply peg_seq_fail. }
        destruct e1; try (apply bind_Some in He as (te1 & He1 & [= <-]); by apply (Hgen te1)).
        clear Hgen. destruct (decide _) as [(-> & -> & ->)|]; [|done]. injection He as <-.
        destruct m as [|m]; [done|].
        eapply wp_mono; [cbn [eval]; apply call_in; [apply r_in|done|done]|].
        intros [b q] st1 [E Ho]. simpl in Ho. rewrite Hmo in Ho. destruct b; simpl in Ho.
        + apply wp_bind. specialize (Hbig q (eq_sym Ho)).
          eapply wp_mono; [apply (inner (Datatypes.S m) e2 false q); [lia|done|lia|by rewrite E]|].
          intros [b2 q2] st2 (Ho2 & Hfail2 & HG2 & HS2). rewrite E in HS2. simpl in *.
          rewrite <-Ho. destruct b2; apply wp_ret; (split; [done|]); (split; [done|]); done.
        + apply wp_ret. rewrite <-Ho. split; [done|]. split; [done|]. rewrite E. split; [done|]. apply Same_refl.
      - (* EChoice *)
        apply bind_Some in He as (te1 & He1 & He). apply bind_Some in He as (te2 & He2 & [= <-]).
        destruct Hty as [Ht1 Ht2]. unfold ordered_choice_kernel. apply wp_bind.
        eapply wp_mono; [eapply IHe1; [lia|exact He1|done|done|done|exact Hmo|done]|].
        intros [b q] st1 (Ho & Hfail & HG1 & HS1). simpl in *. destruct b.
        + apply wp_ret. split; [|done]. destruct cA as [qa|]; simpl in *; [|done]. by apply peg_alt_1.
        + apply wp_bind. eapply wp_mono.
          { eapply IHe2; [lia|exact He2|done|done|by rewrite (Same_evals _ _ HS1)| |exact Hbig].
            rewrite (Same_mo _ _ r HS1); [done|apply r_in]. }
          intros [b2 q2] st2 (Ho2 & Hfail2 & HG2 & HS2). simpl in *.
          assert (tail_out (PAlt (pexp_of te1) (pexp_of te2)) cA (outcome b2 q2)).
          { destruct cA as [qa|]; simpl in *; [|done]. by eapply peg_alt_2. }
          destruct b2; apply wp_ret; (split; [done|]); (split; [done|]); (split; [done|]); by eapply Same_trans.
      - (* ESub *)
        unfold subexpression_kernel. apply wp_bind.
        eapply wp_mono; [eapply IHe; [lia|exact He|done|done|done|exact Hmo|done]|].
        intros [b q] st1 (Ho & Hfail & HG1 & HS1). simpl in *. destruct b; apply wp_ret; (split; [done|]); done.
    Qed.

    (** Running the alternatives in that mode. *)
    Definition Frozen (c c' : cache) : Prop :=
      evals c' ⊆ evals c /\ forall b, b ∈ G -> b ∉ evals c -> memo c' b x = memo c b x.
    Lemma Same_Frozen c c' : Same c c' -> Frozen c c'.
    Proof. intros H. split; [by rewrite (Same_evals _ _ H)|]. intros b Hin _. by apply H. Qed.
    Lemma Frozen_trans c1 c2 c3 : Frozen c1 c2 -> Frozen c2 c3 -> Frozen c1 c3.
    Proof.
      intros [A1 B1] [A2 B2]. split; [set_solver|]. intros b Hin Hn. rewrite B2, B1; [done|done|done|done|set_solver].
    Qed.
    Definition J (cA : option N) (c : cache) : Prop :=
      forall b body' tb, b ∈ G -> b <> r -> pr_fn pr (fn b) = Some body' -> lr_seq G r f body' = Some tb ->
        b ∈ evals c \/ tail_out (pexp_of tb) cA (mo c b x).
    Lemma J_same cA c c' : Same c c' -> J cA c -> J cA c'.
    Proof.
      intros HSa HJ b body' tb Hin Hne Hb' Htb. rewrite (Same_evals _ _ HSa), (Same_mo _ _ _ HSa Hin). by eapply HJ.
    Qed.
    Lemma tail_out_alt1 t1 t2 cA q : tail_out t1 cA (Some q) -> tail_out (PAlt t1 t2) cA (Some q).
    Proof. destruct cA; simpl; [|done]. by apply peg_alt_1. Qed.
    Lemma tail_out_alt2 t1 t2 cA o : tail_out t1 cA None -> tail_out t2 cA o -> tail_out (PAlt t1 t2) cA o.
    Proof. destruct cA; simpl; [|done]. by apply peg_alt_2. Qed.

    Lemma evals_hd c h : evals (c_hd c r x h) = h_eval h.
    Proof. unfold evals. by rewrite hd_hd. Qed.
    Lemma evals_ins c b v : evals (c_ins c b x v) = evals c.
    Proof. done. Qed.
    Lemma GInv_rm c h b : GInv c -> hd c r x = Some h ->
      GInv (c_hd c r x (Head (h_start h) (h_rule h) (h_involved h) (h_eval h ∖ {[b]}))).
    Proof.
      intros HG Hh. destruct (gi_head _ HG) as (h' & Hh' & Hi & He). rewrite Hh in Hh'. simplify_eq.
      apply GInv_hd; simpl; [done|set_solver|done].
    Qed.

    Lemma alt_in e : forall m te parent st cA, (m <= M)%nat -> lr_alt pr fn G r f e = Some te ->
      typed pr S (lvl f) (Some r) false te -> GInv (cch st) -> r ∉ evals (cch st) -> mo (cch st) r x = cA -> big cA ->
      pc (eval pr src m e parent x) st (fun res st' =>
        (fst res = false -> snd res = x \/ exists inv b fb, e = ELR inv b fb) /\ GInv (cch st') /\ Frozen (cch st) (cch st') /\
        (J cA (cch st) -> tail_out (pexp_of te) cA (outcome (fst res) (snd res)) /\ J cA (cch st'))).
    Proof.
      assert (Hdef : forall e m te parent st cA, (m <= M)%nat -> lr_seq G r f e = Some te ->
        typed pr S (lvl f) (Some r) false te -> GInv (cch st) -> r ∉ evals (cch st) -> mo (cch st) r x = cA -> big cA ->
        pc (eval pr src m e parent x) st (fun res st' =>
          (fst res = false -> snd res = x \/ exists inv b fb, e = ELR inv b fb) /\ GInv (cch st') /\ Frozen (cch st) (cch st') /\
          (J cA (cch st) -> tail_out (pexp_of te) cA (outcome (fst res) (snd res)) /\ J cA (cch st')))).
      { intros e0 m te parent st cA Hm He Hty HG Hev Hmo Hbig.
        eapply wp_mono; [by eapply seq_in|]. intros res st' (H1 & H2 & H3 & H4). split; [auto|]. split; [done|].
        split; [by apply Same_Frozen|]. intros HJ. split; [done|]. by eapply J_same. }
      induction e; intros m te parent st cA Hm He Hty HG Hev Hmo Hbig; simpl in He;
        try (by eapply Hdef).
      - (* EChoice *)
        apply bind_Some in He as (te1 & He1 & He). apply bind_Some in He as (te2 & He2 & [= <-]).
        destruct Hty as [Ht1 Ht2]. destruct m as [|m]; [done|]. cbn [eval]. unfold ordered_choice_kernel. apply wp_bind.
        eapply wp_mono; [eapply IHe1; [lia|exact He1|done|done|done|exact Hmo|done]|].
        intros [b q] st1 (_ & HG1 & HF1 & HJ1). simpl in *. destruct b.
        + apply wp_ret. split; [done|]. split; [done|]. split; [done|]. intros HJ. destruct (HJ1 HJ) as [Ho ?]. split; [|done].
          by apply tail_out_alt1.
        + apply wp_bind. eapply wp_mono.
          { eapply (IHe2 m te2 parent st1 cA); [lia|exact He2|done|done| | |exact Hbig].
            - destruct HF1 as [HF1 _]. intros Hx. by apply Hev, HF1.
            - rewrite <-Hmo. apply mo_eq. apply HF1; [apply r_in|done]. }
          intros [b2 q2] st2 (_ & HG2 & HF2 & HJ2). simpl in *.
          assert (J cA (cch st) -> tail_out (PAlt (pexp_of te1) (pexp_of te2)) cA (outcome b2 q2) /\ J cA (cch st2)).
          { intros HJ. destruct (HJ1 HJ) as [Ho1 HJ']. destruct (HJ2 HJ') as [Ho2 ?]. split; [|done]. by apply tail_out_alt2. }
          destruct b2; apply wp_ret; (split; [first [done|by left]|]); (split; [done|]); (split; [by eapply Frozen_trans|]); done.
      - (* ELR *)
        destruct (decide _) as [(-> & Hin & Hne & <-)|]; [|done]. apply bind_Some in He as (body' & Hbody & He).
        destruct m as [|m]; [done|]. cbn [eval]. destruct (decide (rule ∈ evals (cch st))) as [Hre|Hre].
        + apply call_eval; [done|done|done|]. intros k st1 h Hh E1. rewrite Hbody.
          assert (HG1 : GInv (cch st1)) by (rewrite E1; by apply GInv_rm).
          assert (Hev1 : evals (cch st1) = evals (cch st) ∖ {[rule]}).
          { rewrite E1, evals_hd. unfold evals. by rewrite Hh. }
          eapply wp_mono; [eapply (seq_in body' m te k st1 cA)|]; [lia|done|done|done|rewrite Hev1; clear -Hev; set_solver|by rewrite E1|done|].
          intros [b q] st2 (Ho & Hfail & HG2 & HS2) st3 E3. simpl in *.
          assert (Hev3 : evals (cch st3) = evals (cch st) ∖ {[rule]}) by (by rewrite E3, evals_ins, (Same_evals _ _ HS2)).
          assert (Hmemo3 : forall b', b' ∈ G -> b' <> rule -> memo (cch st3) b' x = memo (cch st) b' x).
          { intros b' Hb' Hn. rewrite E3, memo_ins_ne by congruence. rewrite (proj2 HS2) by done. by rewrite E1. }
          split; [eauto|]. split; [rewrite E3; by apply GInv_ins|]. split.
          { split; [rewrite Hev3; clear; set_solver|]. intros b' Hb' Hn. apply Hmemo3; [done|]. by intros ->. }
          intros HJ. split; [done|]. intros b' bd tb Hb' Hne' Hbd Htb. rewrite Hev3.
          destruct (decide (b' = rule)) as [->|Hn].
          * right. rewrite E3, mo_ins. rewrite Hbody in Hbd. simplify_eq. done.
          * destruct (HJ b' bd tb Hb' Hne' Hbd Htb) as [Hx|Hx]; [left; clear -Hx Hn; set_solver|]. right.
            by rewrite (mo_eq _ _ _ _ (Hmemo3 b' Hb' Hn)).
        + eapply wp_mono; [by apply call_in|]. intros [b q] st1 [E Ho]. simpl in *. rewrite E. split; [eauto|].
          split; [done|]. split; [apply Same_Frozen, Same_refl|]. intros HJ. split; [|done].
          destruct (HJ rule body' te Hin Hne Hbody He) as [?|Hx]; [done|]. by rewrite Ho.
    Qed.

    Definition step (te sde : pexp) (cA o : option N) : Prop :=
      (exists q', o = Some q' /\ tail_out te cA (Some q')) \/ (tail_out te cA None /\ peg g s sde x o).

    Lemma body_in e : forall m te sde parent st cA, (m <= M)%nat -> lr_body pr fn G r f e = Some (te, sde) ->
      typed pr S (lvl f) (Some r) false te -> typed pr S (lvl f) (Some r) true sde ->
      GInv (cch st) -> r ∉ evals (cch st) -> mo (cch st) r x = cA -> big cA ->
      pc (eval pr src m e parent x) st (fun res st' =>
        (fst res = false -> snd res = x) /\ GInv (cch st') /\ Frozen (cch st) (cch st') /\
        (J cA (cch st) -> step (pexp_of te) (pexp_of sde) cA (outcome (fst res) (snd res)) /\ J cA (cch st'))).
    Proof.
      induction e; intros m te sde parent st cA Hm He Hty Htys HG Hev Hmo Hbig; simpl in He; try done;
        (destruct m as [|m]; [done|]); cbn [eval].
      - unfold ordered_choice_kernel. apply wp_bind.
        destruct (lr_alt pr fn G r f e1) as [te1|] eqn:He1.
        + assert (Ht1 : typed pr S (lvl f) (Some r) false te1).
          { destruct (lr_body pr fn G r f e2) as [[t2 sd2]|]; simplify_eq; [by destruct Hty|done]. }
          eapply wp_mono; [eapply (alt_in e1 m te1 parent st cA); [lia|done|done|done|done|done|done]|].
          intros [b q] st1 (_ & HG1 & HF1 & HJ1). simpl in *. destruct b.
          * apply wp_ret. split; [done|]. split; [done|]. split; [done|]. intros HJ. destruct (HJ1 HJ) as [Ho ?]. split; [|done].
            left. exists q. split; [done|]. destruct (lr_body pr fn G r f e2) as [[t2 sd2]|]; simplify_eq; [|done].
            by apply tail_out_alt1.
          * assert (Hev1 : r ∉ evals (cch st1)) by (destruct HF1 as [HF1 _]; clear -HF1 Hev; set_solver).
            assert (Hmo1 : mo (cch st1) r x = cA).
            { rewrite <-Hmo. apply mo_eq. apply HF1; [apply r_in|done]. }
            apply wp_bind. destruct (lr_body pr fn G r f e2) as [[t2 sd2]|] eqn:He2; simplify_eq.
            -- destruct Hty as [_ Ht2]. eapply wp_mono; [eapply (IHe2 m t2 sde parent st1); [lia|done|done|done|done|done|done|done]|].
               intros [b2 q2] st2 (_ & HG2 & HF2 & HJ2). simpl in *.
               assert (J (mo (cch st) r x) (cch st) -> step (PAlt (pexp_of te1) (pexp_of t2)) (pexp_of sde) (mo (cch st) r x) (outcome b2 q2) /\ J (mo (cch st) r x) (cch st2)).
               { intros HJ. destruct (HJ1 HJ) as [Ho1 HJ']. rewrite <-Hmo1 in *. destruct (HJ2 HJ') as [Ho2 ?]. split; [|done].
                 destruct Ho2 as [(q' & -> & Hq)|[Hn Hp]]; [left; exists q'; split; [done|]; by apply tail_out_alt2|right].
                 split; [|done]. by apply tail_out_alt2. }
               destruct b2; apply wp_ret; (split; [done|]); (split; [done|]); (split; [by eapply Frozen_trans|]); done.
            -- eapply wp_mono; [apply (inner m sde true x); [lia|done|lia|done]|].
               intros [b2 q2] st2 (Hp & Hfail & HG2 & HS2). simpl in *.
               assert (J (mo (cch st) r x) (cch st) -> step (pexp_of te) (pexp_of sde) (mo (cch st) r x) (outcome b2 q2) /\ J (mo (cch st) r x) (cch st2)).
               { intros HJ. destruct (HJ1 HJ) as [Ho1 HJ']. split; [by right|]. by eapply J_same. }
               destruct b2; apply wp_ret; (split; [done|]); (split; [done|]);
                 (split; [eapply Frozen_trans; [done|by apply Same_Frozen]|]); done.
        + apply bind_Some in He as ([t1 sd1] & He & [= <- <-]). destruct Htys as [Hs1 Hs2].
          eapply wp_mono; [eapply (IHe1 m t1 sd1 parent st cA); [lia|done|done|done|done|done|done|done]|].
          intros [b q] st1 (Hfl & HG1 & HF1 & HJ1). simpl in *. destruct b.
          * apply wp_ret. split; [done|]. split; [done|]. split; [done|]. intros HJ. destruct (HJ1 HJ) as [Ho ?]. split; [|done].
            destruct Ho as [?|[Hn Hp]]; [by left|right]. split; [done|]. by apply peg_alt_1.
          * apply wp_bind. eapply wp_mono; [apply (inner m e2 true x); [lia|done|lia|done]|].
            intros [b2 q2] st2 (Hp & Hfail & HG2 & HS2). simpl in *.
            assert (J cA (cch st) -> step (pexp_of t1) (PAlt (pexp_of sd1) (pexp_of e2)) cA (outcome b2 q2) /\ J cA (cch st2)).
            { intros HJ. destruct (HJ1 HJ) as [Ho1 HJ']. split; [|by eapply J_same].
              destruct Ho1 as [(? & ? & ?)|[Hn Hpn]]; [done|]. right. split; [done|]. by apply peg_alt_2. }
            destruct b2; apply wp_ret; (split; [done|]); (split; [done|]);
              (split; [eapply Frozen_trans; [done|by apply Same_Frozen]|]); done.
      - unfold subexpression_kernel. apply wp_bind.
        eapply wp_mono; [eapply (IHe m te sde parent st cA); [lia|done|done|done|done|done|done|done]|].
        intros [b q] st1 (Hfl & HG1 & HF1 & HJ1). simpl in *. destruct b; apply wp_ret; (split; [done|]); done.
    Qed.

    (** The first alternative is a satellite whose memo entry is a success. *)
    Lemma first_in e b : forall m parent st q, first_sat e = Some b -> b ∈ G ->
      GInv (cch st) -> b ∉ evals (cch st) -> mo (cch st) b x = Some q ->
      pc (eval pr src m e parent x) st (fun res st' =>
        outcome (fst res) (snd res) = Some q /\ cch st' = cch st).
    Proof.
      induction e; intros m parent st q He Hin HG Hev Hmo; simpl in He; try done;
        (destruct m as [|m]; [done|]); cbn [eval].
      - unfold ordered_choice_kernel. apply wp_bind. eapply wp_mono; [by eapply IHe1|].
        intros [b' q'] st1 [Ho E]. simpl in Ho. destruct b'; [|done]. apply wp_ret. done.
      - unfold subexpression_kernel. apply wp_bind. eapply wp_mono; [by eapply IHe|].
        intros [b' q'] st1 [Ho E]. simpl in Ho. destruct b'; [|done]. apply wp_ret. done.
      - injection He as ->. eapply wp_mono; [by apply call_in|]. intros [b' q'] st1 [E Ho]. split; [|done]. by rewrite Ho.
    Qed.

    (** One round of the growth loop: the body runs with a full evaluation
        set, so the first call of A re-enters the body once (the "nested" run,
        whose result becomes A's new value). [R] is what is known of that
        result. *)
    Section out.
      Context (fs : option N) (cA cb : option N) (R : option N -> Prop).
      Definition settled (c : cache) : Prop :=
        GInv c /\ mo c r x = cA /\ (forall b, b ∈ G -> b <> r -> fs <> Some b -> b ∈ evals c) /\
        (forall b, fs = Some b -> b ∉ evals c /\ mo c b x = cb).
      Context (HfsG : forall b, fs = Some b -> b ∈ G /\ b <> r).
      Context (Hnest : forall m parent st, (m <= M)%nat -> settled (cch st) -> r ∉ evals (cch st) ->
        pc (eval pr src m body parent x) st (fun res st' =>
          R (outcome (fst res) (snd res)) /\ GInv (cch st') /\ Frozen (cch st) (cch st'))).
      Context (HR : forall o, R o -> big o).

      (** After the nested run A's value is [o']. *)
      Definition done_with (o' : option N) (c : cache) : Prop :=
        R o' /\ mo c r x = o' /\ is_Some (memo c r x) /\ GInv c /\ r ∉ evals c.
      Lemma done_frozen o' c c' : done_with o' c -> Frozen c c' -> GInv c' -> done_with o' c'.
      Proof.
        intros (H1 & H2 & H3 & H4 & H5) [F1 F2] HG. pose proof (F2 r r_in H5) as E.
        split; [done|]. split; [by rewrite <-H2; apply mo_eq|]. split; [by rewrite E|]. split; [done|]. set_solver.
      Qed.

      Lemma call_out n parent st : (n <= M)%nat -> settled (cch st) -> r ∈ evals (cch st) ->
        pc (var_name_kernel_indirect_left_recursion n G r
              (fun key position => match pr_fn pr f with Some body => eval pr src n body key position | None => mpanic PNoFunction end)
              parent x) st (fun res st' => exists o',
          done_with o' (cch st') /\ outcome (fst res) (snd res) = o' /\
          (forall b, fs = Some b -> b ∉ evals (cch st'))).
      Proof.
        intros Hn (HG & Hmo & Hall & Hfs) Hr'. apply call_eval; [apply r_in|done|done|].
        intros k st1 h Hh E1. rewrite Hf.
        assert (HG1 : GInv (cch st1)) by (rewrite E1; by apply GInv_rm).
        assert (Hev1 : evals (cch st1) = evals (cch st) ∖ {[r]}).
        { rewrite E1, evals_hd. unfold evals. by rewrite Hh. }
        eapply wp_mono; [apply Hnest; [lia| |rewrite Hev1; set_solver]|].
        { split; [done|]. rewrite Hev1. split; [by rewrite E1|]. split; [|].
          - intros b Hb1 Hb2 Hb3. specialize (Hall b Hb1 Hb2 Hb3). set_solver.
          - intros b Hb1. destruct (Hfs b Hb1) as [? ?]. split; [set_solver|]. by rewrite E1. }
        intros [b q] st2 (HRo & HG2 & [HF2 HF2']) st3 E3. simpl in *. exists (outcome b q). split; [|split; [done|]].
        - split; [done|]. rewrite E3, mo_ins. split; [done|]. split; [rewrite memo_ins; eauto|].
          split; [apply GInv_ins; [apply r_in|done]|]. rewrite evals_ins. set_solver.
        - intros b0 Hb0. rewrite E3, evals_ins. destruct (Hfs b0 Hb0). set_solver.
      Qed.

      Lemma seq_out e : forall m te parent st, (m <= M)%nat -> lr_seq G r f e = Some te ->
        typed pr S (lvl f) (Some r) false te -> settled (cch st) -> r ∈ evals (cch st) ->
        pc (eval pr src m e parent x) st (fun res st' => exists o',
          done_with o' (cch st') /\ tail_out (pexp_of te) o' (outcome (fst res) (snd res)) /\
          (fst res = false -> snd res = x) /\ (forall b, fs = Some b -> b ∉ evals (cch st'))).
      Proof.
        induction e; intros m te parent st Hm He Hty Hst Hev; simpl in He; try done;
          (destruct m as [|m]; [done|]); cbn [eval].
        - (* ESeq *)
          unfold sequence_kernel. apply wp_bind.
          assert (Hgen : forall te1, lr_seq G r f e1 = Some te1 -> te = ESeq te1 e2 ->
            pc (eval pr src m e1 parent x) st (fun a s0 => pc (let '(lhs_bool, position) := a in
              if lhs_bool then do (rhs_bool, position) <- eval pr src m e2 parent position;
                if rhs_bool then mret (true, position) else mret (false, x) else mret (false, x)) s0
                (fun res st' => exists o', done_with o' (cch st') /\ tail_out (pexp_of te) o' (outcome (fst res) (snd res)) /\
                  (fst res = false -> snd res = x) /\ (forall b, fs = Some b -> b ∉ evals (cch st'))))).
          { intros te1 He1 ->. destruct Hty as [Ht1 Ht2].
            eapply wp_mono; [eapply IHe1; [lia|exact He1|done|done|done]|].
            intros [b q] st1 (o' & Hd & Ho & Hfail & Hfs). simpl in *. destruct b.
            - apply wp_bind. pose proof (tail_out_big _ _ _ Ho (HR o' (proj1 Hd)) q eq_refl) as Hq.
              eapply wp_mono; [apply (inner m e2 false q); [lia|done|lia|apply Hd]|].
              intros [b2 q2] st2 (Ho2 & Hfail2 & HG2 & HS2). simpl in *.
              assert (tail_out (PSeq (pexp_of te1) (pexp_of e2)) o' (outcome b2 q2)).
              { destruct o' as [qa|]; simpl in *; [|done]. by eapply peg_seq_ok. }
              assert (done_with o' (cch st2)) by (eapply done_frozen; [done|by apply Same_Frozen|done]).
              assert (forall b, fs = Some b -> b ∉ evals (cch st2)) by (rewrite (Same_evals _ _ HS2); done).
              destruct b2; apply wp_ret; exists o'; done.
            - apply wp_ret. exists o'. split; [done|]. split; [|done]. destruct o' as [qa|]; simpl in *; [|done]. by apply peg_seq_fail. }
          destruct e1; try (apply bind_Some in He as (te1 & He1 & [= <-]); by apply (Hgen te1)).
          clear Hgen. destruct (decide _) as [(-> & -> & ->)|]; [|done]. injection He as <-.
          destruct m as [|m]; [done|].
          eapply wp_mono; [cbn [eval]; apply call_out; [lia|done|done]|].
          intros [b q] st1 (o' & Hd & Ho & Hfs). simpl in Ho. destruct b; simpl in Ho.
          + apply wp_bind. pose proof (HR o' (proj1 Hd) q (eq_sym Ho)) as Hbig.
            eapply wp_mono; [apply (inner (Datatypes.S m) e2 false q); [lia|done|lia|apply Hd]|].
            intros [b2 q2] st2 (Ho2 & Hfail2 & HG2 & HS2). simpl in *.
            assert (done_with o' (cch st2)) by (eapply done_frozen; [done|by apply Same_Frozen|done]).
            assert (forall b, fs = Some b -> b ∉ evals (cch st2)) by (rewrite (Same_evals _ _ HS2); done).
            destruct b2; apply wp_ret; exists o'; rewrite <-Ho in *; done.
          + apply wp_ret. exists o'. rewrite <-Ho in *. done.
        - (* EChoice *)
          apply bind_Some in He as (te1 & He1 & He). apply bind_Some in He as (te2 & He2 & [= <-]).
          destruct Hty as [Ht1 Ht2]. unfold ordered_choice_kernel. apply wp_bind.
          eapply wp_mono; [eapply IHe1; [lia|exact He1|done|done|done]|].
          intros [b q] st1 (o' & Hd & Ho & Hfail & Hfs). simpl in *. destruct b.
          + apply wp_ret. exists o'. split; [done|]. split; [by apply tail_out_alt1|]. done.
          + apply wp_bind. eapply wp_mono.
            { eapply (seq_in e2 m te2 parent st1 o'); [lia|exact He2|done|apply Hd|apply Hd|apply Hd|apply HR, Hd]. }
            intros [b2 q2] st2 (Ho2 & Hfail2 & HG2 & HS2). simpl in *.
            assert (tail_out (PAlt (pexp_of te1) (pexp_of te2)) o' (outcome b2 q2)) by (by apply tail_out_alt2).
            assert (done_with o' (cch st2)) by (eapply done_frozen; [done|by apply Same_Frozen|done]).
            assert (forall b, fs = Some b -> b ∉ evals (cch st2)) by (rewrite (Same_evals _ _ HS2); done).
            destruct b2; apply wp_ret; exists o'; done.
        - (* ESub *)
          unfold subexpression_kernel. apply wp_bind.
          eapply wp_mono; [eapply IHe; [lia|exact He|done|done|done]|].
          intros [b q] st1 (o' & Hd & Ho & Hfail & Hfs). simpl in *. destruct b; apply wp_ret; exists o'; done.
      Qed.

      (** The whole round. *)
      Definition full (c : cache) : Prop :=
        GInv c /\ mo c r x = cA /\ (forall b, b ∈ G -> b ∈ evals c) /\ (forall b, fs = Some b -> mo c b x = cb).
      Definition rounded (c : cache) : Prop := exists o', done_with o' c /\
        forall b body' tb, fs = Some b -> pr_fn pr (fn b) = Some body' -> lr_seq G r f body' = Some tb ->
          b ∉ evals c /\ tail_out (pexp_of tb) o' (mo c b x).
      Lemma rounded_frozen c c' : rounded c -> Frozen c c' -> GInv c' -> rounded c'.
      Proof.
        intros (o' & Hd & Hb') HF HG. exists o'. split; [by eapply done_frozen|].
        intros b body' tb H1 H2 H3. destruct (Hb' b body' tb H1 H2 H3) as [H4 H5]. destruct (HfsG b H1) as [Hin _].
        split; [destruct HF; set_solver|].
        destruct HF as [_ HF]. by rewrite (mo_eq _ _ _ _ (HF b Hin H4)).
      Qed.

      Lemma alt_out e : forall m te parent st, (m <= M)%nat -> lr_alt pr fn G r f e = Some te -> first_sat e = fs ->
        typed pr S (lvl f) (Some r) false te -> full (cch st) ->
        pc (eval pr src m e parent x) st (fun res st' => rounded (cch st')).
      Proof.
        assert (Hdef : forall e m te parent st, (m <= M)%nat -> lr_seq G r f e = Some te -> first_sat e = fs ->
          typed pr S (lvl f) (Some r) false te -> full (cch st) ->
          pc (eval pr src m e parent x) st (fun res st' => rounded (cch st'))).
        { intros e0 m te parent st Hm He Hfst Hty (HG & Hmo & Hall & Hcb). pose proof (lr_seq_first _ _ _ _ _ He) as Hnone.
          assert (Efs : fs = None) by congruence.
          eapply wp_mono; [eapply seq_out; [done|done|done| |by apply Hall, r_in]|].
          - split; [done|]. split; [done|]. split; [auto|]. intros b Hb1. congruence.
          - intros res st' (o' & Hd & _). exists o'. split; [done|]. intros b body' tb Hb1. congruence. }
        induction e; intros m te parent st Hm He Hfst Hty Hfull; simpl in He, Hfst; try (by eapply Hdef).
        - (* EChoice *)
          apply bind_Some in He as (te1 & He1 & He). apply bind_Some in He as (te2 & He2 & [= <-]).
          destruct Hty as [Ht1 Ht2]. destruct m as [|m]; [done|]. cbn [eval]. unfold ordered_choice_kernel. apply wp_bind.
          eapply wp_mono; [eapply IHe1; [lia|exact He1|done|done|done]|].
          intros [b q] st1 Hrd. destruct b; [by apply wp_ret|]. apply wp_bind.
          destruct Hrd as (o' & Hd & Hb'). eapply wp_mono.
          { eapply (alt_in e2 m te2 parent st1 o'); [lia|exact He2|done|apply Hd|apply Hd|apply Hd|apply HR, Hd]. }
          intros [b2 q2] st2 (_ & HG2 & HF2 & _).
          assert (rounded (cch st2)) by (eapply rounded_frozen; [by exists o'|done|done]).
          destruct b2; by apply wp_ret.
        - (* ELR *)
          destruct (decide _) as [(-> & Hin & Hne & <-)|]; [|done]. apply bind_Some in He as (body' & Hbody & He).
          destruct m as [|m]; [done|]. cbn [eval]. destruct Hfull as (HG & Hmo & Hall & Hcb).
          apply call_eval; [done|done|by apply Hall|]. intros k st1 h Hh E1. rewrite Hbody.
          assert (HG1 : GInv (cch st1)) by (rewrite E1; by apply GInv_rm).
          assert (Hev1 : evals (cch st1) = evals (cch st) ∖ {[rule]}).
          { rewrite E1, evals_hd. unfold evals. by rewrite Hh. }
          eapply wp_mono; [eapply (seq_out body' m te k st1); [lia|done|done| |]|].
          + split; [done|]. rewrite Hev1. split; [by rewrite E1|]. split.
            * intros b Hb1 Hb2 Hb3. specialize (Hall b Hb1). assert (b <> rule) by congruence. set_solver.
            * intros b Hb1. assert (b = rule) as -> by congruence. split; [set_solver|]. rewrite E1. by apply Hcb.
          + rewrite Hev1. pose proof (Hall r r_in). set_solver.
          + intros [b q] st2 (o' & Hd & Ho & Hfail & Hfs) st3 E3. simpl in *. exists o'. split.
            * destruct Hd as (D1 & D2 & D3 & D4 & D5). split; [done|].
              assert (Em : memo (cch st3) r x = memo (cch st2) r x) by (rewrite E3; apply memo_ins_ne; congruence).
              split; [rewrite <-D2; by apply mo_eq|]. split; [by rewrite Em|]. rewrite E3. split; [by apply GInv_ins|].
              by rewrite evals_ins.
            * intros b0 body0 tb0 Hb0 Hbd0 Htb0. assert (b0 = rule) as -> by congruence.
              rewrite Hbody in Hbd0. simplify_eq. rewrite E3, mo_ins. split; [|done]. rewrite evals_ins. by apply Hfs.
      Qed.

      Lemma body_out e : forall m te sde parent st, (m <= M)%nat -> lr_body pr fn G r f e = Some (te, sde) -> first_sat e = fs ->
        typed pr S (lvl f) (Some r) false te -> typed pr S (lvl f) (Some r) true sde -> full (cch st) ->
        pc (eval pr src m e parent x) st (fun res st' => rounded (cch st')).
      Proof.
        induction e; intros m te sde parent st Hm He Hfst Hty Htys Hfull; simpl in He, Hfst; try done;
          (destruct m as [|m]; [done|]); cbn [eval].
        - unfold ordered_choice_kernel. apply wp_bind.
          destruct (lr_alt pr fn G r f e1) as [te1|] eqn:He1.
          + assert (Ht1 : typed pr S (lvl f) (Some r) false te1).
            { destruct (lr_body pr fn G r f e2) as [[t2 sd2]|]; simplify_eq; [by destruct Hty|done]. }
            eapply wp_mono; [eapply (alt_out e1 m te1 parent st); [lia|done|done|done|done]|].
            intros [b q] st1 Hrd. destruct b; [by apply wp_ret|]. apply wp_bind.
            pose proof Hrd as (o' & Hd & Hb').
            destruct (lr_body pr fn G r f e2) as [[t2 sd2]|] eqn:He2; simplify_eq.
            * destruct Hty as [_ Ht2]. eapply wp_mono.
              { eapply (body_in e2 m t2 sde parent st1 o'); [lia|exact He2|done|done|apply Hd|apply Hd|apply Hd|apply HR, Hd]. }
              intros [b2 q2] st2 (_ & HG2 & HF2 & _).
              assert (rounded (cch st2)) by (by eapply rounded_frozen). destruct b2; by apply wp_ret.
            * eapply wp_mono; [apply (inner m sde true x); [lia|done|lia|apply Hd]|].
              intros [b2 q2] st2 (Hp & Hfail & HG2 & HS2).
              assert (rounded (cch st2)) by (eapply rounded_frozen; [done|by apply Same_Frozen|done]). destruct b2; by apply wp_ret.
          + apply bind_Some in He as ([t1 sd1] & He & [= <- <-]). destruct Htys as [Hs1 Hs2].
            eapply wp_mono; [eapply (IHe1 m t1 sd1 parent st); [lia|done|done|done|done|done]|].
            intros [b q] st1 Hrd. destruct b; [by apply wp_ret|]. apply wp_bind.
            pose proof Hrd as (o' & Hd & Hb').
            eapply wp_mono; [apply (inner m e2 true x); [lia|done|lia|apply Hd]|].
            intros [b2 q2] st2 (Hp & Hfail & HG2 & HS2).
            assert (rounded (cch st2)) by (eapply rounded_frozen; [done|by apply Same_Frozen|done]). destruct b2; by apply wp_ret.
        - unfold subexpression_kernel. apply wp_bind.
          eapply wp_mono; [eapply (IHe m te sde parent st); [lia|done|done|done|done|done]|].
          intros [b q] st1 Hrd. destruct b; by apply wp_ret.
      Qed.
    End out.

    (** ** The growth loop *)
    Notation T := (pexp_of t).
    Notation SD := (pexp_of sd).
    Notation cpt := (chainpt SD T x).

    Lemma chain_le q0 q : rtc (fun a b => peg g s T a (Some b)) q0 q -> q0 <= q.
    Proof. induction 1 as [|a b c H _ IHr]; [lia|]. apply grows in H. lia. Qed.
    Lemma cpt_big q : cpt q -> x < q.
    Proof.
      intros (q0 & H1 & H2%chain_le). apply consumes in H1; [lia|]. apply nul_sd.
    Qed.
    Lemma cpt_step q q' : cpt q -> peg g s T q (Some q') -> cpt q'.
    Proof. intros (q0 & H1 & H2) H. exists q0. split; [done|]. eapply rtc_r; done. Qed.
    Lemma cpt_seed q0 : peg g s SD x (Some q0) -> cpt q0.
    Proof. intros H. exists q0. split; [done|]. apply rtc_refl. Qed.
    Lemma first_info b : first_sat body = Some b -> exists tb, first_tail pr fn G r f s g b tb t.
    Proof. intros H. by eapply lr_body_first. Qed.

    Definition before (last : bool * N) (c : cache) : Prop :=
      (last = (false, x) /\ (forall q, mo c r x = Some q -> cpt q /\ peg g s T q None) /\
        (forall b q, first_sat body = Some b -> mo c b x = Some q -> cpt q)) \/
      (exists q, last = (true, q) /\ mo c r x = Some q /\ cpt q /\
        (forall b tb, first_sat body = Some b -> first_tail pr fn G r f s g b tb t -> tail_out (pexp_of tb) (Some q) (mo c b x))).

    (** What a round's new value [o] is like. *)
    Definition after (last : bool * N) (o : option N) : Prop :=
      (forall q, o = Some q -> cpt q) /\
      (o = None \/ (exists q, o = Some q /\ q <= snd last) ->
         (last = (false, x) -> peg g s SD x None) /\ (fst last = true -> peg g s T (snd last) None)).

    Lemma before_big last c : before last c -> big (mo c r x).
    Proof.
      intros [(_ & H & _)|(q & _ & E & H & _)] q' Hq'.
      - by apply cpt_big, H.
      - rewrite E in Hq'. simplify_eq. by apply cpt_big.
    Qed.

    Lemma nest last c : before last c -> forall m parent st, (m <= M)%nat ->
      settled (first_sat body) (mo c r x) (match first_sat body with Some b => mo c b x | None => None end) (cch st) ->
      r ∉ evals (cch st) ->
      pc (eval pr src m body parent x) st (fun res st' =>
        after last (outcome (fst res) (snd res)) /\ GInv (cch st') /\ Frozen (cch st) (cch st')).
    Proof.
      intros Hbef m parent st Hm (HG & Hmo & Hall & Hfs) Hev.
      set (cA := mo c r x) in *.
      assert (Hbig : big cA) by (by eapply before_big).
      assert (Hgood : J cA (cch st) ->
        pc (eval pr src m body parent x) st (fun res st' =>
          after last (outcome (fst res) (snd res)) /\ GInv (cch st') /\ Frozen (cch st) (cch st'))).
      { intros HJ. eapply wp_mono; [eapply (body_in body m t sd parent st cA); [done|done|apply typed_t|apply typed_sd|done|done|done|done]|].
        intros res st' (_ & HG' & HF' & HJ'). split; [|done]. destruct (HJ' HJ) as [Hst _]. clear HJ' HJ.
        destruct Hbef as [(-> & Hb1 & Hb2)|(ql & -> & Hq & Hc & _)]; subst cA.
        - assert (Hp : peg g s SD x (outcome (fst res) (snd res))).
          { destruct Hst as [(q' & E & Ht)|[_ ?]]; [|done]. exfalso.
            destruct (mo c r x) as [q|] eqn:Eq; simpl in Ht; [|done].
            destruct (Hb1 q eq_refl) as [_ Hn]. pose proof (peg_det _ _ _ _ _ _ Ht Hn). done. }
          split; [intros q Hq; rewrite Hq in Hp; by apply cpt_seed|]. simpl. intros [E|(q & E & Hle)]; (split; [|done]); intros _.
          + by rewrite E in Hp.
          + rewrite E in Hp. apply cpt_seed, cpt_big in Hp. lia.
        - rewrite Hq in Hst. destruct Hst as [(q' & E & Ht)|[Hn Hp]]; simpl in *.
          + split; [intros q0 Hq0; rewrite E in Hq0; simplify_eq; by eapply cpt_step|].
            rewrite E. intros [?|(q & ? & Hle)]; simplify_eq. apply consumes in Ht; [exfalso; simpl in Hle; clear -Ht Hle; lia|apply nul_t].
          + split; [intros q0 Hq0; rewrite Hq0 in Hp; by apply cpt_seed|]. intros _. split; [done|]. done. }
      destruct (first_sat body) as [b|] eqn:Hfst.
      - destruct (first_info b Hfst) as (tb & Htb). pose proof Htb as (Hin & Hne & (body' & Hbody' & Hseq) & T1 & T2).
        destruct (Hfs b eq_refl) as [Hb1 Hb2].
        assert (HJ0 : tail_out (pexp_of tb) cA (mo c b x) -> J cA (cch st)).
        { intros Ho b0 bd tb0 Hin0 Hne0 Hbd Htb0. destruct (decide (b0 = b)) as [->|Hnb].
          - right. rewrite Hb2. rewrite Hbody' in Hbd. simplify_eq. done.
          - left. apply Hall; congruence. }
        destruct Hbef as [(-> & Hb3 & Hb4)|(ql & -> & Hq & Hc & Hex)].
        + destruct (mo c b x) as [q'|] eqn:Eb.
          * eapply wp_mono; [eapply (first_in body b m parent st q'); done|].
            intros res st' [Ho E]. rewrite E. split; [|split; [done|apply Same_Frozen, Same_refl]].
            specialize (Hb4 b q' Hfst Eb). rewrite Ho. split; [intros q0 [= <-]; done|].
            intros [?|(q & [= <-] & Hle)]; [done|]. simpl in Hle. apply cpt_big in Hb4. lia.
          * apply Hgood, HJ0. subst cA. destruct (mo c r x) as [q|] eqn:Eq; simpl; [|done].
            apply T2. by apply Hb3.
        + apply Hgood, HJ0. subst cA. rewrite Hq. by apply (Hex b tb).
      - apply Hgood. intros b0 bd tb0 Hin0 Hne0 Hbd Htb0. left. by apply Hall.
    Qed.

    Lemma round_ok last parent st m : (m <= M)%nat -> before last (cch st) -> GInv (cch st) ->
      (forall b, b ∈ G -> b ∈ evals (cch st)) ->
      pc (eval pr src m body parent x) st (fun res st' => exists b' q' k,
        memo (cch st') r x = Some (b', q', k) /\ after last (outcome b' q') /\ GInv (cch st') /\
        (forall b tb, first_sat body = Some b -> first_tail pr fn G r f s g b tb t -> tail_out (pexp_of tb) (outcome b' q') (mo (cch st') b x))).
    Proof.
      intros Hm Hbef HG Hall.
      eapply wp_mono.
      { eapply (body_out (first_sat body) (mo (cch st) r x) (match first_sat body with Some b => mo (cch st) b x | None => None end)
                  (after last)); [|exact (nest last _ Hbef)|..].
        - intros b Hfst. destruct (first_info b Hfst) as (tb & Hin & Hne & _). done.
        - intros o [Ho _] q ->. by apply cpt_big, Ho.
        - exact Hm.
        - exact Hb.
        - done.
        - apply typed_t.
        - apply typed_sd.
        - split; [done|]. split; [done|]. split; [done|]. by intros b ->. }
      intros res st' (o' & (D1 & D2 & [[[b' q'] k] D3] & D4 & D5) & Hrest).
      exists b', q', k. split; [done|].
      assert (Eo : o' = outcome b' q'). { rewrite <-D2. unfold mo. rewrite D3. by destruct b'. }
      rewrite <-Eo. split; [done|]. split; [done|]. intros b tb Hfst (Hin & Hne & (body' & Hb1 & Hb2) & _).
      by destruct (Hrest b body' tb Hfst Hb1 Hb2).
    Qed.

    Definition grown_res (res : bool * N) : Prop :=
      (res = (false, x) /\ peg g s SD x None) \/ (exists q, res = (true, q) /\ cpt q /\ peg g s T q None).
    Definition finished (prev : option (N * N)) (res : bool * N) (c' : cache) : Prop :=
      grown_res res /\ exists c'' k, GInv c'' /\ c' = c_ins (c_act c'' prev) r x (fst res, snd res, k) /\
        (forall b q, first_sat body = Some b -> mo c'' b x = Some q -> cpt q).

    Lemma loop_ok fuel : forall m parent prev last lk ck st, (m <= M)%nat -> before last (cch st) -> GInv (cch st) ->
      pc (growth_loop fuel r parent x
            (fun key position => eval pr src m body key position) prev last lk ck) st
         (fun res st' => finished prev res (cch st')).
    Proof.
      induction fuel as [|fuel IHl]; intros m parent prev last lk ck st Hm Hbef HG; [done|].
      cbn [growth_loop]. destruct (gi_head _ HG) as (h & Hh & Hi & He).
      apply (pc_reinit _ _ _ h); [done|]. intros st1 E1.
      assert (HG1 : GInv (cch st1)) by (rewrite E1; by apply GInv_hd).
      assert (Hall : forall b, b ∈ G -> b ∈ evals (cch st1)).
      { intros b Hin. rewrite E1, evals_hd. simpl. rewrite Hi. by apply elem_of_list_to_set. }
      assert (Hbef1 : before last (cch st1)) by (by rewrite E1).
      apply wp_bind. eapply wp_mono; [by apply round_ok|].
      intros res st2 (b' & q' & k & Hm2 & Haft & HG2 & Hfs2). apply pc_get.
      change (check (st_ctx st2) r x) with (memo (cch st2) r x). rewrite Hm2. cbn [fst snd].
      apply pc_update. intros st3 E3.
      assert (Hfs3 : forall b q, first_sat body = Some b -> mo (cch st3) b x = Some q -> cpt q).
      { intros b q Hfst Hq. destruct (first_info b Hfst) as (tb & Htb). pose proof (Hfs2 b tb Hfst Htb) as Ho.
        rewrite <-E3, Hq in Ho. destruct Haft as [Haft _]. destruct (outcome b' q') as [qo|] eqn:Eo; simpl in Ho; [|done].
        eapply cpt_step; [by apply Haft|]. by apply Htb. }
      destruct (negb b' || (q' <=? snd last)) eqn:Estop.
      - apply pc_connect. intros st4 E4. apply pc_active. intros st5 E5. apply pc_memo. intros st6 E6. apply wp_ret.
        assert (Hstop : outcome b' q' = None \/ (exists q, outcome b' q' = Some q /\ q <= snd last)).
        { destruct b'; simpl in *; [|by left]. right. exists q'. split; [done|]. by apply N.leb_le. }
        destruct Haft as [_ Haft]. destruct (Haft Hstop) as [Hs1 Hs2]. split.
        + destruct Hbef as [(-> & _)|(ql & -> & _ & Hc & _)]; [left; auto|]. right. exists ql. auto.
        + exists (cch st3), lk. split; [by rewrite E3|]. split; [|done]. by rewrite E6, E5, E4.
      - apply orb_false_iff in Estop as [Eb Hgt]. apply negb_false_iff in Eb. subst b'. apply N.leb_gt in Hgt.
        apply pc_reserve. intros k4 st4 E4. apply IHl; [done| |by rewrite E4, E3].
        right. exists q'. split; [done|]. rewrite E4, E3. destruct Haft as [Haft _].
        split; [unfold mo; by rewrite Hm2|]. split; [by apply Haft|]. done.
    Qed.

    (** ** A complete growth, seen from outside *)
    Section entry.
      Context (n : nat) (P : N) (A : option N).
      Context (Hsub : forall r' i, V' r' i -> Valid n P r' i) (Hval : Valid n P r x) (HV0 : VInv n P A c0).

      Lemma same_rule f' body' : st_lr S f' = Some r -> pr_fn pr f' = Some body' -> f' = f.
      Proof.
        intros H1 H2. pose proof (HS f' body' H2) as HL. rewrite H1 in HL.
        rewrite <-(lo_fn _ _ _ _ _ HL). apply (lo_fn _ _ _ _ _ Hok).
      Qed.
      Lemma g_f : g f = Some (PSeq SD (PStar T)).
      Proof.
        destruct (lr_parts f r body Hf Hr) as (t' & sd' & E & E'). rewrite Hb in E. by simplify_eq.
      Qed.
      Lemma answer_grown b q : grown_res (b, q) -> answer r x b q.
      Proof.
        assert (Efn : fn r = f) by apply (lo_fn _ _ _ _ _ Hok).
        intros [[[= -> ->] Hn]|(q' & [= -> ->] & (q0 & H1 & H2) & Hn)]; (split; [|done]); rewrite Efn;
          (eapply peg_ref; [apply g_f|]); simpl.
        - by apply peg_seq_fail.
        - eapply peg_seq_ok; [done|]. by apply peg_star_chain.
      Qed.
      Lemma grown_answer q : answer r x true q -> cpt q /\ peg g s T q None.
      Proof.
        assert (Efn : fn r = f) by apply (lo_fn _ _ _ _ _ Hok).
        intros [Hp _]. rewrite Efn in Hp. simpl in Hp. apply peg_ref_inv in Hp as (bd & Hg & Hp).
        rewrite g_f in Hg. simplify_eq. inversion Hp; subst.
        match goal with H : peg _ _ (PStar _) _ _ |- _ => apply peg_star_rtc in H as [? ?] end.
        split; [|done]. eexists; done.
      Qed.

      Lemma GInv_start c : c = c_hd (c_act c0 (Some (r, x))) r x (Head x r (list_to_set G) (list_to_set G)) ->
        GInv c /\ before (false, x) c.
      Proof.
        intros ->. pose proof (G_lvl r r_in) as Hnv. destruct (VInv_narrow _ _ _ _ _ _ Hsub HV0) as [V1 V2 V3 V4].
        split; [split; [split|..]|].
        - apply V1.
        - intros r' i h Hh Hv. apply V2 with h; [|done]. rewrite hd_hd_ne in Hh; [done|]. intros [= -> ->]. done.
        - apply V3.
        - simpl. split; [done|]. split; [apply (lo_sat _ _ _ _ _ Hok)|]. split; [done|].
          eexists. split; [apply hd_hd|]. done.
        - done.
        - intros r' i H1 H2. split; [done|]. rewrite hd_hd_ne; [done|]. intros [= -> ->]. apply H2. split; [done|apply r_in].
        - left. split; [done|]. destruct HV0 as [W1 W2 W3 W4]. split.
          + intros q Hq. apply grown_answer. change (mo c0 r x = Some q) in Hq. unfold mo in Hq.
            destruct (memo c0 r x) as [[[[] q'] k]|] eqn:Em in Hq; simplify_eq.
            eapply W1; [exact Em|done|apply (lo_sat _ _ _ _ _ Hok)].
          + intros b q Hfst Hq. by eapply (W3 r f body t sd b x q).
      Qed.

      Lemma growth_done res c' : finished (c_active c0) res c' ->
        peg g s (PRef (Some r) f) x (outcome (fst res) (snd res)) /\ (fst res = false -> snd res = x) /\
        VInv n P A c' /\ Fr n P c0 c'.
      Proof.
        assert (Efn : fn r = f) by apply (lo_fn _ _ _ _ _ Hok).
        intros (Hres & c'' & k & HG & -> & Hst). destruct res as [b q]. cbn [fst snd] in *.
        pose proof (answer_grown b q Hres) as Hans.
        split; [rewrite <-Efn; apply Hans|]. split; [apply Hans|].
        destruct HG as [[V1 V2 V3 V4] HA HF]. destruct HV0 as [W1 W2 W3 W4].
        assert (Hsat : forall b, b ∈ G -> b <> r -> st_sat S b = Some r) by apply (lo_sats _ _ _ _ _ Hok).
        assert (Hout : forall r' i, ~ V' r' i -> (r', i) <> (r, x) -> st_sat S r' <> Some r ->
                 memo c'' r' i = memo c0 r' i /\ hd c'' r' i = hd c0 r' i).
        { intros r' i H1 H2 H3. apply HF; [done|]. intros [-> Hin]. apply H3, Hsat; [done|congruence]. }
        split; [split|split].
        - intros r' i b' q' k' Hm Hv Hns.
          destruct (decide ((r', i) = (r, x))) as [[= -> ->]|Hne].
          { rewrite memo_ins in Hm. by simplify_eq. }
          rewrite memo_ins_ne in Hm by done. change (memo c'' r' i = Some (b', q', k')) in Hm.
          destruct (Valid_dec (lvl f) (x + 1) r' i) as [D|D]; [by eapply V1|].
          destruct (Hout r' i D Hne) as [E _]; [congruence|]. rewrite E in Hm. by eapply W1.
        - intros r' i h Hh Hv Hns. change (hd c'' r' i = Some h) in Hh.
          destruct (decide ((r', i) = (r, x))) as [[= -> ->]|Hne]; [rewrite memo_ins; eauto|].
          rewrite memo_ins_ne by done. change (is_Some (memo c'' r' i)).
          destruct (Valid_dec (lvl f) (x + 1) r' i) as [D|D]; [by eapply V2|].
          destruct (Hout r' i D Hne) as [E E']; [congruence|]. rewrite E. rewrite E' in Hh. by eapply W2.
        - intros a fa bodya ta sda b' i q' Ha Hfa Hba Hfs Hv Hq.
          pose proof (HS fa bodya Hfa) as HL. rewrite Ha in HL.
          destruct (lr_body_first pr fn _ _ _ [] g _ _ _ _ Hba Hfs) as (tb & Hin' & Hne' & _).
          pose proof (lo_sats _ _ _ _ _ HL b' Hin' Hne') as Hsb.
          assert (Hbr : b' <> r). { intros ->. rewrite (lo_sat _ _ _ _ _ Hok) in Hsb. done. }
          assert (Hq' : mo c'' b' i = Some q').
          { unfold mo in *. rewrite memo_ins_ne in Hq by congruence. done. }
          destruct (decide ((a, i) = (r, x))) as [[= -> ->]|Hne].
          + rewrite memo_ins. split; [eauto|]. pose proof (same_rule _ _ Ha Hfa) as ->. rewrite Hf in Hfa. injection Hfa as <-.
            rewrite Hb in Hba. injection Hba as <- <-. by eapply Hst.
          + rewrite memo_ins_ne by done. change (is_Some (memo c'' a i) /\ chainpt (pexp_of sda) (pexp_of ta) i q').
            destruct (Valid_dec (lvl f) (x + 1) a i) as [D|D]; [by eapply V3|].
            assert (Db : ~ V' b' i).
            { unfold Valid in *. by rewrite (lo_lvl _ _ _ _ _ HL b' Hin'), <-(lo_fn _ _ _ _ _ HL). }
            destruct (Hout a i D Hne) as [E _]; [by rewrite (lo_sat _ _ _ _ _ HL)|]. rewrite E.
            destruct (decide (a = r)) as [->|Har].
            * pose proof (same_rule _ _ Ha Hfa) as ->. eapply W3; [done|done|done|done|done|].
              rewrite <-Hq'. symmetry. apply mo_eq. apply HF; [done|]. intros [-> ?]. done.
            * eapply W3; [done|done|done|done|done|]. rewrite <-Hq'. symmetry. apply mo_eq.
              destruct (Hout b' i Db) as [E' _]; [congruence|congruence|]. done.
        - simpl. destruct (c_active c0) as [[a j]|]; [|done]. destruct W4 as (? & ? & ? & h & Hh & ?).
          split_and!; try done. exists h. split; [|done]. change (hd c'' a j = Some h).
          destruct (Hout a j) as [_ E]; [auto|by intros [= -> ->]|congruence|]. by rewrite E.
        - done.
        - intros r' i D. assert (Hne : (r', i) <> (r, x)) by (by intros [= -> ->]).
          rewrite memo_ins_ne by done. change (memo c'' r' i = memo c0 r' i /\ hd c'' r' i = hd c0 r' i).
          apply HF; [auto|]. intros [-> Hin]. apply D. unfold Valid in *.
          rewrite (lo_lvl _ _ _ _ _ Hok r' Hin). by rewrite <-Efn.
      Qed.
    End entry.
  End growth.

  (** ** Every closure *)
  Lemma sub_valid n P f x start : (start = true -> (lvl f < n)%nat) -> P <= x + (if start : bool then 1 else 0) ->
    forall r' i, Valid (Datatypes.S (lvl f)) (x + 1) r' i -> Valid n P r' i.
  Proof.
    intros Hl Hx r' i [H|[H1 H2]]; unfold Valid.
    - left. destruct start; lia.
    - destruct start; [|left; lia]. specialize (Hl eq_refl). destruct (N.le_gt_cases P i); [by left|right; lia].
  Qed.
  Lemma sub_valid' n P f x start : (start = true -> (lvl f < n)%nat) -> P <= x + (if start : bool then 1 else 0) ->
    forall r' i, Valid (lvl f) (x + 1) r' i -> Valid n P r' i.
  Proof.
    intros Hl Hx r' i H. eapply sub_valid; [done|done|]. destruct H as [H|[H1 H2]]; [by left|right; lia].
  Qed.
  Lemma call_valid n P r x start : (start = true -> (lvl (fn r) < n)%nat) -> P <= x + (if start : bool then 1 else 0) ->
    Valid n P r x.
  Proof.
    intros Hl Hx. eapply sub_valid; [done|done|]. right. lia.
  Qed.

  Lemma g_plain f body : pr_fn pr f = Some body -> st_lr S f = None -> g f = Some (pexp_of body).
  Proof. intros H1 H2. unfold lr_grammar. rewrite H1. simpl. by rewrite H2. Qed.

  Section step.
    Context (m : nat).
    Context (IH : forall m', (m' <= m)%nat -> forall e n P A start, typed pr S n A start e ->
                    runs (pexp_of e) n P A start (eval pr src m' e)).

    Lemma inline_lr n P A start f : typed pr S n A start (EInline f) ->
      runs (PRef None f) n P A start (fun key position =>
        match pr_fn pr f with Some body => eval pr src m body key position | None => mpanic PNoFunction end).
    Proof.
      intros (Hlr & [body Hf] & Hl & HA) x parent st Hx HV. rewrite Hf.
      pose proof (HS f body Hf) as HT. rewrite Hlr in HT. destruct HT as (T1 & T2 & _).
      assert (Hty : typed pr S (Datatypes.S (lvl f)) A true body) by (destruct A as [a|]; [by apply T2|done]).
      pose proof (sub_valid n P f x start Hl Hx) as Hsub.
      eapply wp_mono; [apply (IH m (le_n _) body _ (x + 1) A true Hty); [lia|by eapply VInv_narrow]|].
      intros res st' (Hp & Hfail & HV' & HF'). destruct (VInv_widen _ _ _ _ _ _ _ Hsub HV HV' HF').
      split; [|done]. eapply peg_ref; [by apply g_plain|done].
    Qed.

    Lemma VInv_answer n P A c r i b q k : VInv n P A c -> Valid n P r i -> st_sat S r = None -> answer r i b q ->
      VInv n P A (c_ins c r i (b, q, k)) /\ Fr n P c (c_ins c r i (b, q, k)).
    Proof.
      intros [V1 V2 V3 V4] Hv Hns Hans. split; [split|split].
      - intros r' i' b' q' k' Hm Hv' Hns'. destruct (decide ((r', i') = (r, i))) as [[= -> ->]|Hne].
        + rewrite memo_ins in Hm. by simplify_eq.
        + rewrite memo_ins_ne in Hm by done. by eapply V1.
      - intros r' i' h Hh Hv' Hns'. destruct (decide ((r', i') = (r, i))) as [[= -> ->]|Hne]; [rewrite memo_ins; eauto|].
        rewrite memo_ins_ne by done. by eapply V2.
      - intros a fa bodya ta sda b' i' q' Ha Hfa Hba Hfs Hv' Hq.
        pose proof (HS fa bodya Hfa) as HL. rewrite Ha in HL.
        destruct (lr_body_first pr fn _ _ _ [] g _ _ _ _ Hba Hfs) as (tb & Hin' & Hne' & _).
        pose proof (lo_sats _ _ _ _ _ HL b' Hin' Hne') as Hsb.
        assert (b' <> r) by congruence. unfold mo in Hq. rewrite memo_ins_ne in Hq by congruence.
        destruct (V3 _ _ _ _ _ _ _ _ Ha Hfa Hba Hfs Hv' Hq) as [? ?]. split; [|done].
        destruct (decide ((a, i') = (r, i))) as [[= -> ->]|Hne]; [rewrite memo_ins; eauto|]. by rewrite memo_ins_ne.
      - done.
      - done.
      - intros r' i' D. split; [|done]. rewrite memo_ins_ne; [done|]. by intros [= -> ->].
    Qed.

    Lemma var_lr n P A start r f : typed pr S n A start (EVar r f) ->
      runs (PRef (Some r) f) n P A start (var_name_kernel r (fun key position =>
        match pr_fn pr f with Some body => eval pr src m body key position | None => mpanic PNoFunction end)).
    Proof.
      intros (Hfn & Hlr & Hns & Hfs & Hl & HA) x parent st Hx HV. unfold var_name_kernel. apply pc_get.
      assert (Hval : Valid n P r x) by (eapply call_valid; [by rewrite Hfn|done]).
      change (check (st_ctx st) r x) with (memo (cch st) r x).
      destruct (memo (cch st) r x) as [[[b q] k]|] eqn:Em.
      - unfold memoized_behaviour. apply pc_connect. intros st1 E1. apply wp_ret. destruct HV as [V1 V2 V3 V4].
        destruct (V1 _ _ _ _ _ Em Hval Hns) as [Hp Hq]. rewrite Hfn in Hp. split; [done|]. split; [done|]. rewrite E1.
        split; [done|apply Fr_refl].
      - unfold default_behaviour. apply pc_reserve. intros k st1 E1. apply wp_bind.
        eapply wp_mono; [apply (inline_lr n P A start f); [done|done|by rewrite E1]|].
        intros [b q] st2 (Hp & Hfail & HV2 & HF2). cbn [fst snd] in *. apply pc_memo. intros st3 E3.
        apply pc_update. intros st4 E4. apply pc_connect. intros st5 E5. apply wp_ret. cbn [fst snd].
        assert (Hp' : peg g s (PRef (Some r) f) x (outcome b q)).
        { apply peg_ref_inv in Hp as (bd & ? & ?). by eapply peg_ref. }
        destruct (VInv_answer n P A (cch st2) r x b q k HV2 Hval Hns) as [HV3 HF3]; [split; [by rewrite Hfn|done]|].
        split; [done|]. split; [done|]. rewrite E5, E4, E3. split; [done|]. rewrite E1 in HF2. by eapply Fr_trans.
    Qed.

    Lemma grow_lr n P A start inv r f x parent st fuel body t sd :
      typed pr S n A start (ELR inv r f) -> P <= x + (if start : bool then 1 else 0) -> VInv n P A (cch st) ->
      pr_fn pr f = Some body -> lr_body pr fn (grp r) r f body = Some (t, sd) ->
      forall st1, cch st1 = c_act (cch st) (Some (r, x)) ->
      pc (growth_function fuel inv r (fun key position => eval pr src m body key position) parent x (c_active (cch st))) st1
        (Post (PRef (Some r) f) n P A x (cch st)).
    Proof.
      intros (Hfn & Hlr & -> & _ & Hl & HA) Hx HV Hf Hb st1 E1. unfold growth_function.
      apply pc_reserve. intros lk st2 E2. apply pc_update. intros st3 E3. apply pc_reserve. intros ck st4 E4.
      apply pc_set_head. intros st5 E5.
      pose proof (sub_valid' n P f x start Hl Hx) as Hsub.
      assert (Hval : Valid n P r x) by (eapply call_valid; [by rewrite Hfn|done]).
      assert (IH' : forall m', (m' < m)%nat -> forall e n P A start, typed pr S n A start e ->
                    runs (pexp_of e) n P A start (eval pr src m' e)) by (intros m' Hm'; apply IH; lia).
      edestruct (GInv_start r f body t sd x (cch st) Hf Hlr Hb) as [HG Hbef]; [exact IH'|exact Hsub|exact Hval|exact HV| |].
      2: { eapply wp_mono; [eapply loop_ok; [exact Hf|exact Hlr|exact Hb|exact IH'|apply le_n|exact Hbef|exact HG]|].
        intros res st' Hfin. eapply growth_done; [exact Hf|exact Hlr|exact Hb|exact IH'|exact Hsub|exact Hval|exact HV|exact Hfin]. }
      by rewrite E5, E4, E3, E2, E1.
    Qed.

    Lemma call_lr n P A start inv r f fuel : typed pr S n A start (ELR inv r f) ->
      runs (PRef (Some r) f) n P A start (var_name_kernel_indirect_left_recursion fuel inv r (fun key position =>
        match pr_fn pr f with Some body => eval pr src m body key position | None => mpanic PNoFunction end)).
    Proof.
      intros Hty x parent st Hx HV. pose proof Hty as (Hfn & Hlr & Hinv & [body Hf] & Hl & HA).
      destruct (lr_parts f r body Hf Hlr) as (t & sd & Hb & _).
      assert (Hval : Valid n P r x) by (eapply call_valid; [by rewrite Hfn|done]).
      assert (Hns : st_sat S r = None).
      { pose proof (HS f body Hf) as HL. rewrite Hlr in HL. apply (lo_sat _ _ _ _ _ HL). }
      rewrite Hf. unfold var_name_kernel_indirect_left_recursion, should_go_into_growth_function.
      apply wp_bind. apply pc_get. unfold get_current_active_lr_position.
      pose proof (grow_lr n P A start inv r f x parent st fuel body t sd Hty Hx HV Hf Hb) as Hgrow.
      destruct (c_active (cch st)) as [[a j]|] eqn:EA; cycle 1.
      { apply pc_active. intros st1 E1. apply wp_ret. cbn [fst snd]. by apply Hgrow. }
      pose proof HV as [V1 V2 V3 V4]. rewrite EA in V4. destruct V4 as (-> & Hsa & Hnv & h & Hh & Hi & He).
      assert (Hnh : r ∉ h_involved h) by (rewrite Hi; by rewrite elem_of_list_to_set).
      change (check_head (st_ctx st) r x) with (hd (cch st) r x).
      destruct (hd (cch st) r x) as [h'|] eqn:Eh.
      - apply wp_ret. cbn [fst snd]. apply pc_get. unfold get_current_active_lr_position. rewrite EA.
        apply wp_bind. unfold wp at 1, with_ctx, rule_in_eval_set. unfold hd in Hh. rewrite Hh. cbn [rbind].
        rewrite bool_decide_false by (intros Hin; by apply Hnh, He). cbn [sat fst snd].
        apply pc_get. cbn [st_ctx]. change (check (st_ctx st) r x) with (memo (cch st) r x).
        destruct (V2 _ _ _ Eh Hval Hns) as [[[b q] k] Em]. rewrite Em.
        apply pc_connect_if. intros st1 E1. apply wp_ret.
        destruct (V1 _ _ _ _ _ Em Hval Hns) as [Hp Hq]. rewrite Hfn in Hp. split; [done|]. split; [done|].
        cbn [st_ctx] in E1. rewrite E1. split; [done|apply Fr_refl].
      - apply wp_bind. unfold wp at 1, with_ctx, rule_in_involved_set. unfold hd in Hh. rewrite Hh. cbn [rbind].
        rewrite bool_decide_false by done. cbn [sat fst snd].
        apply pc_active. intros st1 E1. apply wp_ret. cbn [fst snd]. by apply Hgrow.
    Qed.
  End step.

  Lemma leaf_lr e n P A start (f : parser U) :
    (forall x parent st, exists b q, f parent x st = Ok ((b, q), st) /\ peg g s e x (outcome b q) /\ (b = false -> q = x)) ->
    runs e n P A start f.
  Proof.
    intros H x parent st Hx HV. destruct (H x parent st) as (b & q & E & Hp & Hq). unfold wp. rewrite E. simpl.
    split; [done|]. split; [done|]. split; [done|apply Fr_refl].
  Qed.

  Theorem eval_lr m : forall e n P A start, typed pr S n A start e -> runs (pexp_of e) n P A start (eval pr src m e).
  Proof.
    induction m as [m IHm] using (well_founded_induction lt_wf). intros e n P A start Hty.
    destruct m as [|m]; [by intros x parent st _ _|].
    assert (IH : forall m', (m' <= m)%nat -> forall e n P A start, typed pr S n A start e ->
                    runs (pexp_of e) n P A start (eval pr src m' e)) by (intros m' Hm'; apply IHm; lia).
    assert (IH0 := IH m (le_n _)). cbn [eval]. destruct e; cbn [pexp_of]; simpl in Hty.
    - apply leaf_lr. intros x parent st. rewrite terminal_eq by done. case_decide; eexists _, _; (split; [done|]); (split; [|done]); simpl.
      + by constructor.
      + by constructor.
    - apply leaf_lr. intros x parent st. unfold string_terminal_kernel. rewrite string_loop_eq by done.
      case_decide; eexists _, _; (split; [done|]); (split; [|done]); simpl; by constructor.
    - apply leaf_lr. intros x parent st. rewrite range_eq by done.
      destruct (s !! N.to_nat x) as [v|] eqn:E.
      + destruct ((start0 <=? v) && (v <=? end_)) eqn:E2; eexists _, _; (split; [done|]); (split; [|done]); simpl.
        * apply andb_true_iff in E2 as [?%N.leb_le ?%N.leb_le]. by econstructor.
        * constructor. intros v' Hv [??]. simplify_eq. apply andb_false_iff in E2 as [?%N.leb_gt|?%N.leb_gt]; lia.
      + eexists _, _. split; [done|]. split; [|done]. constructor. congruence.
    - destruct Hty. apply seq_lr; by apply IH0.
    - destruct Hty. apply choice_lr; by apply IH0.
    - apply and_lr; by apply IH0.
    - apply not_lr; by apply IH0.
    - apply plus_lr; by apply IH0.
    - apply loop_lr; by apply IH0.
    - apply opt_lr; by apply IH0.
    - apply sub_lr; by apply IH0.
    - by apply (var_lr m IH).
    - by apply (inline_lr m IH).
    - by apply (call_lr m IH).
    - done.
  Qed.

  (** An empty cache is fine. *)
  Lemma VInv_init A : VInv 0 0 A cache_new.
  Proof. split; simpl; done. Qed.
End LR.
