(** How many nodes a left-recursive parser creates: an amortised count.

    The potential of a cache is what the parser may still spend on filling memo
    entries and on heads: [w] per missing entry, [W] per head not yet made, and
    one per pending involved rule of an existing head. *)
From Verif Require Import ProofSafe ProofFuel SpecTerm SpecKeys Checks ProofLR ProofTerm.
Local Open Scope N_scope.

(** [Pn]: panics allowed; [Bd]: nodes available. *)
Definition backed (Pn : panic -> Prop) (Bd : N) : Prop :=
  (forall p, p <> PKeyOverflow -> Pn p) /\ (Bd <= u32_modulus \/ Pn PKeyOverflow).
Notation used st := (p_len (cx_pub (st_ctx st))).

Lemma wp_both {S A} Pp (m : M S A) st (Q Q' : A -> S -> Prop) :
  wp (fun _ => True) m st Q -> wp Pp m st Q' -> wp Pp m st (fun a s => Q a s /\ Q' a s).
Proof. unfold wp. destruct (m st); simpl; auto. Qed.

Section prims.
  Context {U : Type} (Pn : panic -> Prop) (Bd : N) (HPn : backed Pn Bd).
  Notation kc := (wp Pn).
  Implicit Types st : pstate U.
  Lemma kc_reserve {B} st r (K : N -> M (pstate U) B) Q : used st < Bd ->
    (forall k st1, cch st1 = cch st -> used st1 = used st + 1 -> kc (K k) st1 Q) ->
    kc (mbind' (with_ctx (fun c => reserve_publisher_entry c r)) K) st Q.
  Proof.
    intros Hu H. unfold wp, mbind', with_ctx, reserve_publisher_entry, add_node.
    destruct (N.ltb_spec (used st) u32_modulus); simpl; [by apply H|].
    destruct HPn as [_ [?|?]]; [lia|done].
  Qed.
  Lemma kc_pub {B} st f (K : unit -> M (pstate U) B) Q :
    (forall c c', f c = Ok c' -> cx_cache c' = cx_cache c /\ p_len (cx_pub c') = p_len (cx_pub c)) ->
    (forall c, f c <> Panic PKeyOverflow) ->
    (forall st1, cch st1 = cch st -> used st1 = used st -> kc (K tt) st1 Q) ->
    kc (mbind' (upd_ctx f) K) st Q.
  Proof.
    intros Hf Hn H. unfold wp, mbind', upd_ctx, with_ctx.
    destruct (f (st_ctx st)) as [c'| |] eqn:E; simpl; try done.
    - destruct (Hf _ _ E) as [E1 E2]. by apply H.
    - apply HPn. intros ->. by eapply Hn.
  Qed.
  Lemma kc_connect {B} st p k (K : unit -> M (pstate U) B) Q :
    (forall st1, cch st1 = cch st -> used st1 = used st -> kc (K tt) st1 Q) ->
    kc (mbind' (upd_ctx (fun c => ctx_connect c p k)) K) st Q.
  Proof.
    apply kc_pub; unfold ctx_connect, connect, get_node.
    - intros c c' (p' & H & [= <-])%rbind_Ok_inv. destruct (_ =? _); [done|]. simpl in *.
      destruct (p_nodes _ !! p); simpl in H; by simplify_eq.
    - intros c. destruct (_ =? _); [done|]. by destruct (p_nodes _ !! p).
  Qed.
  Lemma kc_connect_if {B} st p k (K : unit -> M (pstate U) B) Q :
    (forall st1, cch st1 = cch st -> used st1 = used st -> kc (K tt) st1 Q) ->
    kc (mbind' (upd_ctx (fun c => ctx_connect_if_not_connected c p k)) K) st Q.
  Proof.
    apply kc_pub; unfold ctx_connect_if_not_connected, connect_if_not_connected, get_node.
    - intros c c' (p' & H & [= <-])%rbind_Ok_inv. destruct (p_nodes _ !! p); simpl in H; [|done].
      destruct (existsb _ _); by simplify_eq.
    - intros c. destruct (p_nodes _ !! p); simpl; [|done]. by destruct (existsb _ _).
  Qed.
  Lemma kc_update {B} st k b i q (K : unit -> M (pstate U) B) Q :
    (forall st1, cch st1 = cch st -> used st1 = used st -> kc (K tt) st1 Q) ->
    kc (mbind' (upd_ctx (fun c => update_publisher_entry c k b i q)) K) st Q.
  Proof.
    apply kc_pub; unfold update_publisher_entry, set_node_result, set_node_start_position, set_node_end_position, get_node.
    - intros c c'. destruct (p_nodes _ !! k); [|done]. simpl. rewrite !lookup_insert. simpl. rewrite !lookup_insert. simpl. by intros [= <-].
    - intros c. destruct (p_nodes _ !! k); [|done]. simpl. rewrite !lookup_insert. simpl. by rewrite !lookup_insert.
  Qed.
  Lemma kc_memo {B} st r b i q k (K : unit -> M (pstate U) B) Q :
    (forall st1, cch st1 = c_ins (cch st) r i (b, q, k) -> used st1 = used st -> kc (K tt) st1 Q) ->
    kc (mbind' (upd_ctx (fun c => Ok (create_cache_entry c r b i q k))) K) st Q.
  Proof. intros H. unfold wp, mbind', upd_ctx, with_ctx. simpl. by apply H. Qed.
  Lemma kc_active {B} st a (K : unit -> M (pstate U) B) Q :
    (forall st1, cch st1 = c_act (cch st) a -> used st1 = used st -> kc (K tt) st1 Q) ->
    kc (mbind' (upd_ctx (fun c => Ok (set_current_active_lr_position c a))) K) st Q.
  Proof. intros H. unfold wp, mbind', upd_ctx, with_ctx. simpl. by apply H. Qed.
  Lemma kc_set_head {B} st i r inv (K : unit -> M (pstate U) B) Q :
    (forall st1, cch st1 = c_hd (cch st) r i (Head i r inv inv) -> used st1 = used st -> kc (K tt) st1 Q) ->
    kc (mbind' (upd_ctx (fun c => Ok (set_head c i r inv))) K) st Q.
  Proof. intros H. unfold wp, mbind', upd_ctx, with_ctx. simpl. by apply H. Qed.
  Lemma kc_reinit {B} st i r h (K : unit -> M (pstate U) B) Q : c_heads (cch st) !! (r, i) = Some h ->
    (forall st1, cch st1 = c_hd (cch st) r i (Head (h_start h) (h_rule h) (h_involved h) (h_involved h)) -> used st1 = used st -> kc (K tt) st1 Q) ->
    kc (mbind' (upd_ctx (fun c => reinitialize_eval_set c r i)) K) st Q.
  Proof.
    intros Hh H. unfold wp, mbind', upd_ctx, with_ctx, reinitialize_eval_set. rewrite Hh. simpl. by apply H.
  Qed.
  Lemma kc_get {B} st (K : context -> M (pstate U) B) Q :
    kc (K (st_ctx st)) st Q -> kc (mbind' get_ctx K) st Q.
  Proof. done. Qed.
End prims.

(** ** Sums over a list without repetitions *)
Section sums.
  Context {A : Type} `{EqDecision A}.
  Fixpoint lsum (f : A -> N) (l : list A) : N := match l with [] => 0 | a :: l => f a + lsum f l end.
  Lemma lsum_ext (f g : A -> N) l : (forall a, a ∈ l -> f a = g a) -> lsum f l = lsum g l.
  Proof.
    induction l as [|a l IH]; intros H; [done|]. simpl. rewrite H by (by left). f_equal. apply IH. intros b Hb. apply H. by right.
  Qed.
  Lemma lsum_upd (f g : A -> N) l x : NoDup l -> x ∈ l -> (forall a, a <> x -> f a = g a) ->
    lsum f l + g x = lsum g l + f x.
  Proof.
    intros Hnd Hx H. induction l as [|a l IH]; [by apply elem_of_nil in Hx|]. apply list.NoDup_cons in Hnd as [Hn Hnd].
    simpl. apply elem_of_cons in Hx as [<-|Hx].
    - rewrite (lsum_ext f g l); [lia|]. intros b Hb. apply H. by intros ->.
    - specialize (IH Hnd Hx). rewrite (H a); [lia|]. by intros ->.
  Qed.
  Lemma lsum_const (f : A -> N) c l : (forall a, a ∈ l -> f a = c) -> lsum f l = N.of_nat (length l) * c.
  Proof.
    induction l as [|a l IH]; intros H; [done|]. cbn [lsum length]. rewrite H by (by left). rewrite IH; [|intros b Hb; apply H; by right].
    rewrite Nat2N.inj_succ, N.mul_succ_l. lia.
  Qed.
End sums.

Lemma size_list_to_set_le (l : list N) : (size (list_to_set l : gset N) <= length l)%nat.
Proof.
  induction l as [|a l IH]; [done|]. cbn [list_to_set length]. rewrite size_union_alt, size_singleton.
  assert (size (list_to_set l ∖ {[a]} : gset N) <= size (list_to_set l : gset N))%nat by (apply subseteq_size; set_solver). lia.
Qed.

Section keys.
  Context {U : Type} (pr : program U) (s : list N) (fn : N -> N) (nul : N -> bool) (lvl rk : N -> nat).
  Context (Hs : N.of_nat (length s) < u32_modulus) (Pn : panic -> Prop) (Bd : N) (HPn : backed Pn Bd).
  Notation kc := (wp Pn).
  Context (Hpr : program_wf pr fn) (Hwf : well_founded_program pr nul lvl) (Hnh : no_hooks pr).
  Notation L := (N.of_nat (length s)).
  Notation src := (source_new s).
  Context (V R : gset N) (I C : N).
  Context (Hrk : ranked_program pr nul rk) (HB : key_budget pr L V R I C).
  Notation W := (growth_keys L I).
  Definition w : N := 1 + C * W.
  Context (PR : gset (N * N)) (HPR : forall r i, r ∈ R -> i <= L -> (r, i) ∈ PR).
  Notation tm := (tame s fn nul).

  Definition unfilled (Z : gset (N * N)) (c : cache) : gset (N * N) := filter (fun p => c_memo c !! p = None) Z.
  Definition hpot (c : cache) (p : N * N) : N :=
    match c_heads c !! p with None => W | Some h => N.of_nat (size (h_eval h)) end.
  Definition pot (Z : gset (N * N)) (c : cache) : N := w * N.of_nat (size (unfilled Z c)) + lsum (hpot c) (elements PR).
  Definition small (c : cache) : Prop := forall p h, c_heads c !! p = Some h -> p ∈ PR /\ N.of_nat (size (h_involved h)) <= I.

  Lemma pot_act Z c a : pot Z (c_act c a) = pot Z c.
  Proof. done. Qed.
  Lemma pot_ins Z c r i v : pot Z (c_ins c r i v) <= pot Z c.
  Proof.
    unfold pot. change (hpot (c_ins c r i v)) with (hpot c). apply N.add_le_mono_r, N.mul_le_mono_l.
    enough (size (unfilled Z (c_ins c r i v)) <= size (unfilled Z c))%nat by lia.
    apply subseteq_size. intros p. unfold unfilled. rewrite !elem_of_filter. simpl. intros [H ?]. split; [|done].
    by apply lookup_insert_None in H as [? _].
  Qed.
  Lemma pot_sub Z Z' c : Z' ⊆ Z -> pot Z' c <= pot Z c.
  Proof.
    intros H. unfold pot. apply N.add_le_mono_r, N.mul_le_mono_l.
    enough (size (unfilled Z' c) <= size (unfilled Z c))%nat by lia.
    apply subseteq_size. intros p. unfold unfilled. rewrite !elem_of_filter. intros [? ?]. split; [done|]. by apply H.
  Qed.
  (** Leaving out one missing entry, and putting it back filled. *)
  Lemma pot_open Z c r i : (r, i) ∈ Z -> memo c r i = None -> w + pot (Z ∖ {[(r, i)]}) c <= pot Z c.
  Proof.
    intros Hin Hm. unfold pot.
    assert (S (size (unfilled (Z ∖ {[(r, i)]}) c)) <= size (unfilled Z c))%nat.
    { apply subset_size. split.
      - intros p. unfold unfilled. rewrite !elem_of_filter. set_solver.
      - intros H. assert (Hi : (r, i) ∈ unfilled Z c) by (by apply elem_of_filter).
        apply H, elem_of_filter in Hi as [_ Hi]. set_solver. }
    rewrite N.add_assoc. apply N.add_le_mono_r.
    transitivity (w * (1 + N.of_nat (size (unfilled (Z ∖ {[(r, i)]}) c)))); [lia|]. apply N.mul_le_mono_l. lia.
  Qed.
  Lemma pot_close Z c r i v : pot Z (c_ins c r i v) <= pot (Z ∖ {[(r, i)]}) c.
  Proof.
    unfold pot. change (hpot (c_ins c r i v)) with (hpot c). apply N.add_le_mono_r, N.mul_le_mono_l.
    enough (size (unfilled Z (c_ins c r i v)) <= size (unfilled (Z ∖ {[(r, i)]}) c))%nat by lia.
    apply subseteq_size. intros p. unfold unfilled. rewrite !elem_of_filter. simpl. intros [H ?].
    apply lookup_insert_None in H as [? ?]. set_solver.
  Qed.
  Lemma pot_hd Z c r i h : (r, i) ∈ PR -> pot Z (c_hd c r i h) + hpot c (r, i) = pot Z c + N.of_nat (size (h_eval h)).
  Proof.
    intros Hin. unfold pot. change (unfilled Z (c_hd c r i h)) with (unfilled Z c).
    assert (E := lsum_upd (hpot (c_hd c r i h)) (hpot c) (elements PR) (r, i) (NoDup_elements _) ltac:(by apply elem_of_elements)).
    assert (E0 : hpot (c_hd c r i h) (r, i) = N.of_nat (size (h_eval h))) by (unfold hpot, c_hd; simpl; by rewrite lookup_insert).
    rewrite E0 in E. rewrite <-!N.add_assoc. f_equal. apply E. intros a Ha. unfold hpot, c_hd. simpl. by rewrite lookup_insert_ne.
  Qed.

  Lemma small_ins c r i v : small c -> small (c_ins c r i v).
  Proof. done. Qed.
  Lemma small_act c a : small c -> small (c_act c a).
  Proof. done. Qed.
  Lemma small_hd c r i h : small c -> (r, i) ∈ PR -> N.of_nat (size (h_involved h)) <= I -> small (c_hd c r i h).
  Proof.
    intros H Hin Hh p h' Hp. unfold c_hd in Hp. simpl in Hp. destruct (decide (p = (r, i))) as [->|Hne].
    - rewrite lookup_insert in Hp. by simplify_eq.
    - rewrite lookup_insert_ne in Hp by done. by eapply H.
  Qed.

  (** A call of left-recursive rules is charged only outside growth. *)
  Definition charge (k : N) (c : cache) : N := match c_active c with None => k * W | Some _ => 0 end.
  Lemma charge_hpost k c c' : hpost c c' -> charge k c' = charge k c.
  Proof. intros [E _]. unfold charge. by rewrite E. Qed.
  Lemma charge_add k k' c : charge (k + k') c = charge k c + charge k' c.
  Proof. unfold charge. destruct (c_active c); lia. Qed.
  Lemma charge_le k k' c : k <= k' -> charge k c <= charge k' c.
  Proof. intros H. unfold charge. destruct (c_active c); [lia|]. by apply N.mul_le_mono_r. Qed.

  (** [cheap Z k Q f]: from a position satisfying [Q], [f] stays within what it
      is charged for. *)
  Definition cpost (Z : gset (N * N)) (k : N) (st st' : pstate U) : Prop :=
    small (cch st') /\ used st' + pot Z (cch st') <= used st + pot Z (cch st) + charge k (cch st).
  Definition cheap (Z : gset (N * N)) (k : N) (Q : N -> Prop) (f : parser U) : Prop := forall p x st,
    x <= L -> Q x -> tm (cch st) -> small (cch st) ->
    used st + pot Z (cch st) + charge k (cch st) <= Bd ->
    kc (f p x) st (fun _ st' => cpost Z k st st').
  Notation keeps := (keeps s fn nul).
  Notation tpost := (tpost s fn nul).

  Lemma cheap_run Z k Q nu f p x st : keeps nu f -> cheap Z k Q f -> x <= L -> Q x -> tm (cch st) -> small (cch st) ->
    used st + pot Z (cch st) + charge k (cch st) <= Bd ->
    kc (f p x) st (fun r st' => tpost nu x (cch st) r st' /\ cpost Z k st st').
  Proof. intros H1 H2 Hx HQ HT HS Hb. apply wp_both; [by apply H1|by apply H2]. Qed.

  Lemma cpost_refl Z k st : small (cch st) -> cpost Z k st st.
  Proof. intros H. split; [done|]. lia. Qed.

  Lemma cheap_seq Z k1 k2 (Q1 Q2 : N -> Prop) n1 n2 f1 f2 : keeps n1 f1 -> keeps n2 f2 -> cheap Z k1 Q1 f1 -> cheap Z k2 Q2 f2 ->
    (forall x q, Q1 x -> span_ok s n1 x q -> Q2 q) -> cheap Z (k1 + k2) Q1 (sequence_kernel f1 f2).
  Proof.
    intros K1 K2 H1 H2 HQ p x st Hx Hq HT HS Hb. rewrite charge_add in Hb. unfold sequence_kernel. apply wp_bind.
    eapply wp_mono; [eapply (cheap_run _ _ _ _ _ _ _ _ K1 H1); try done; lia|].
    intros [b q] st1 [(Hh1 & Ht1 & _ & Hq1) [S1 B1]]. cbn [fst snd] in *. pose proof (charge_hpost k2 _ _ Hh1) as Ec. destruct b.
    - pose proof (Hq1 eq_refl) as Hsp. destruct Hsp as [[? ?] ?]. apply wp_bind.
      eapply wp_mono; [eapply (cheap_run _ _ _ _ _ _ _ _ K2 H2); try done; [by eapply HQ|lia]|].
      intros [b2 q2] st2 [_ [S2 B2]]. unfold cpost. rewrite charge_add.
      destruct b2; apply wp_ret; (split; [done|]); lia.
    - apply wp_ret. unfold cpost. rewrite charge_add. split; [done|]. lia.
  Qed.
  Lemma cheap_choice Z k1 k2 (Q1 : N -> Prop) n1 n2 f1 f2 : keeps n1 f1 -> keeps n2 f2 -> cheap Z k1 Q1 f1 -> cheap Z k2 Q1 f2 ->
    cheap Z (k1 + k2) Q1 (ordered_choice_kernel f1 f2).
  Proof.
    intros K1 K2 H1 H2 p x st Hx Hq HT HS Hb. rewrite charge_add in Hb. unfold ordered_choice_kernel. apply wp_bind.
    eapply wp_mono; [eapply (cheap_run _ _ _ _ _ _ _ _ K1 H1); try done; lia|].
    intros [b q] st1 [(Hh1 & Ht1 & _ & Hq1) [S1 B1]]. cbn [fst snd] in *. pose proof (charge_hpost k2 _ _ Hh1) as Ec. destruct b.
    - apply wp_ret. unfold cpost. rewrite charge_add. split; [done|]. lia.
    - apply wp_bind. eapply wp_mono; [eapply (cheap_run _ _ _ _ _ _ _ _ K2 H2); try done; lia|].
      intros [b2 q2] st2 [_ [S2 B2]]. unfold cpost. rewrite charge_add.
      destruct b2; apply wp_ret; (split; [done|]); lia.
  Qed.
  Lemma cheap_one Z k Q f (g : parser U) : cheap Z k Q f ->
    (forall p x st, exists F : bool * N -> bool * N, g p x st = mbind' (f p x) (fun r => mret (F r)) st) -> cheap Z k Q g.
  Proof.
    intros H HF p x st Hx Hq HT HS Hb. destruct (HF p x st) as [F E].
    assert (G : kc (mbind' (f p x) (fun r => mret (F r))) st (fun _ st' => cpost Z k st st')); [|unfold wp in *; by rewrite E].
    apply wp_bind. eapply wp_mono; [by apply H|]. intros r st1 HP. by apply wp_ret.
  Qed.
  Lemma cheap_loop Z k (Q : N -> Prop) f n : keeps false f -> cheap Z k Q f -> (forall x q, Q x -> x < q -> Q q) ->
    forall p x st, x <= L -> Q x -> tm (cch st) -> small (cch st) ->
    used st + pot Z (cch st) + charge (k * (L - x + 1)) (cch st) <= Bd ->
    kc (repeat_loop n f p x) st (fun _ st' => cpost Z (k * (L - x + 1)) st st').
  Proof.
    intros HK H HQ. induction n as [|n IH]; intros p x st Hx Hq HT HS Hb; [done|]. cbn [repeat_loop]. apply wp_bind.
    assert (Hk : charge k (cch st) <= charge (k * (L - x + 1)) (cch st)).
    { apply charge_le. rewrite <-(N.mul_1_r k) at 1. apply N.mul_le_mono_l. lia. }
    eapply wp_mono; [eapply (cheap_run _ _ _ _ _ _ _ _ HK H); try done; lia|].
    intros [b q] st1 [(Hh1 & Ht1 & _ & Hq1) [S1 B1]]. cbn [fst snd negb] in *. destruct b; cbn [negb].
    - destruct (Hq1 eq_refl) as [[? ?] Hne]. assert (x < q) by (destruct (N.eq_dec q x) as [E|]; [specialize (Hne E); done|lia]).
      assert (E : charge (k * (L - q + 1)) (cch st1) + charge k (cch st) <= charge (k * (L - x + 1)) (cch st)).
      { rewrite (charge_hpost _ _ _ Hh1), <-charge_add. apply charge_le. rewrite <-(N.mul_1_r k) at 2. rewrite <-N.mul_add_distr_l. apply N.mul_le_mono_l. lia. }
      eapply wp_mono; [apply IH; [lia|by eapply HQ|done|done|lia]|].
      intros r st2 [S2 B2]. split; [done|]. lia.
    - apply wp_ret. split; [done|]. lia.
  Qed.
  Lemma cheap_star Z k (Q : N -> Prop) f n : keeps false f -> cheap Z k Q f -> (forall x q, Q x -> x < q -> Q q) ->
    cheap Z (k * (L + 1)) Q (zero_or_more_kernel n f).
  Proof.
    intros HK H HQ p x st Hx Hq HT HS Hb.
    assert (E : charge (k * (L - x + 1)) (cch st) <= charge (k * (L + 1)) (cch st)) by (apply charge_le, N.mul_le_mono_l; lia).
    eapply wp_mono; [eapply (cheap_loop Z k Q f n HK H HQ); try done; lia|]. intros r st' [S1 B1]. split; [done|]. lia.
  Qed.
  Lemma cheap_plus Z k (Q : N -> Prop) f n : keeps false f -> cheap Z k Q f -> (forall x q, Q x -> x < q -> Q q) ->
    cheap Z (k * (L + 1)) Q (one_or_more_kernel n f).
  Proof.
    intros HK H HQ p x st Hx Hq HT HS Hb.
    assert (E : forall c y, charge (k * (y + 1)) c = charge k c + charge (k * y) c).
    { intros c y. rewrite <-charge_add. f_equal. lia. }
    rewrite (E _ L) in Hb. unfold one_or_more_kernel. apply wp_bind.
    eapply wp_mono; [eapply (cheap_run _ _ _ _ _ _ _ _ HK H); try done; lia|].
    intros [b q] st1 [(Hh1 & Ht1 & _ & Hq1) [S1 B1]]. cbn [fst snd] in *. destruct b; cbn [negb].
    - destruct (Hq1 eq_refl) as [[? ?] Hne]. assert (x < q) by (destruct (N.eq_dec q x) as [E'|]; [specialize (Hne E'); done|lia]).
      assert (E1 : charge (k * (L - q + 1)) (cch st1) <= charge (k * L) (cch st)).
      { rewrite (charge_hpost _ _ _ Hh1). apply charge_le, N.mul_le_mono_l. lia. }
      eapply wp_mono; [eapply (cheap_loop Z k Q f n HK H HQ); [done|by eapply HQ|done|done|lia]|].
      intros r st2 [S2 B2]. split; [done|]. rewrite E. lia.
    - apply wp_ret. split; [done|]. rewrite E. lia.
  Qed.
  Lemma cheap_leaf Z k Q (f : parser U) : (forall p x st, x <= L -> exists r, f p x st = Ok (r, st)) -> cheap Z k Q f.
  Proof. intros H p x st Hx _ _ HS _. destruct (H p x st Hx) as [r E]. unfold wp. rewrite E. simpl. by apply cpost_refl. Qed.
  Lemma cheap_pos Z k (Q Q' : N -> Prop) f : (forall x, Q' x -> Q x) -> cheap Z k Q f -> cheap Z k Q' f.
  Proof. intros HQ H p x st Hx Hq. apply H; auto. Qed.

  (** Memoised calls. *)
  Lemma cheap_var Z k r f x : x <= L -> (r, x) ∈ Z -> k <= C -> keeps (nul (fn r)) f ->
    cheap (Z ∖ {[(r, x)]}) k (eq x) f -> cheap Z 0 (eq x) (var_name_kernel r f).
  Proof.
    intros Hx Hin Hk HK H p x' st _ <- HT HS Hb. unfold var_name_kernel. apply kc_get.
    change (check (st_ctx st) r x) with (memo (cch st) r x).
    destruct (memo (cch st) r x) as [[[b q] k']|] eqn:Em.
    - unfold memoized_behaviour. apply (kc_connect _ _ HPn). intros st1 E1 E2. apply wp_ret. split; [by rewrite E1|]. rewrite E1, E2. lia.
    - pose proof (pot_open Z (cch st) r x Hin Em) as Hpo. unfold w in Hpo.
      assert (Hch : charge k (cch st) <= C * W).
      { unfold charge. destruct (c_active (cch st)); [lia|]. by apply N.mul_le_mono_r. }
      unfold default_behaviour. apply (kc_reserve _ _ HPn); [lia|]. intros k' st1 E1 E2. apply wp_bind.
      eapply wp_mono; [eapply (cheap_run _ _ _ _ _ _ _ _ HK H); [done|done|by rewrite E1|by rewrite E1|rewrite E1, E2; lia]|].
      intros [b q] st2 [_ [S2 B2]]. rewrite E1, E2 in B2.
      apply kc_memo. intros st3 E3 U3. apply (kc_update _ _ HPn). intros st4 E4 U4. apply (kc_connect _ _ HPn). intros st5 E5 U5. apply wp_ret.
      unfold cpost. rewrite E5, E4, E3, U5, U4, U3. split; [done|].
      pose proof (pot_close Z (cch st2) r x (fst (b, q), snd (b, q), k')). lia.
  Qed.

  (** Growth: nothing is charged there. *)
  Definition free (Z : gset (N * N)) (x : N) (f : parser U) : Prop := forall p st,
    is_Some (c_active (cch st)) -> tm (cch st) -> small (cch st) -> used st + pot Z (cch st) <= Bd ->
    kc (f p x) st (fun _ st' => small (cch st') /\ used st' + pot Z (cch st') <= used st + pot Z (cch st)).
  Lemma cheap_free Z k x f : x <= L -> cheap Z k (eq x) f -> free Z x f.
  Proof.
    intros Hx H p st [a Ha] HT HS Hb. assert (Hc : charge k (cch st) = 0) by (unfold charge; by rewrite Ha).
    eapply wp_mono; [apply H; try done; lia|]. intros r st' [S' B']. split; [done|]. lia.
  Qed.
  Lemma cheap_growth_loop Z r f n x c0 : tm c0 -> x <= L -> (r, x) ∈ PR -> keeps (nul (fn r)) f -> free Z x f ->
    forall p last lk ck st, GS s fn nul c0 (c_active c0) r x (cch st) -> small (cch st) ->
    (fst last = false -> snd last = x) -> (fst last = true -> span_ok s (nul (fn r)) x (snd last)) ->
    used st + pot Z (cch st) + (L - snd last + 1) * (1 + I) <= Bd ->
    kc (growth_loop n r p x f (c_active c0) last lk ck) st
      (fun _ st' => small (cch st') /\ used st' + pot Z (cch st') <= used st + pot Z (cch st) + (L - snd last + 1) * (1 + I)).
  Proof.
    intros HT0 Hx HinP HK H. induction n as [|n IH]; intros p last lk ck st HG HS Hl1 Hl2 Hb; [done|].
    assert (Hlast : snd last <= L) by (destruct (fst last); [destruct (Hl2 eq_refl) as [[? ?] _]; lia|rewrite Hl1 by done; lia]).
    assert (HI : I <= (L - snd last + 1) * (1 + I)).
    { transitivity (1 * (1 + I)); [lia|]. apply N.mul_le_mono_r. lia. }
    cbn [growth_loop]. pose proof HG as (HT & HA & HP). destruct (tm_act _ _ _ _ HT r x HA) as [h Eh].
    apply (kc_reinit _ _ _ _ h); [done|]. intros st1 E1 U1.
    destruct (HS (r, x) h Eh) as [_ Hsz].
    assert (HG1 : GS s fn nul c0 (c_active c0) r x (cch st1)) by (rewrite E1; by apply GS_reinit).
    assert (HS1 : small (cch st1)) by (rewrite E1; by apply small_hd).
    assert (HA1 : c_active (cch st1) = Some (r, x)) by (by apply HG1).
    assert (HP1 : pot Z (cch st1) <= pot Z (cch st) + I).
    { pose proof (pot_hd Z (cch st) r x (Head (h_start h) (h_rule h) (h_involved h) (h_involved h)) HinP) as E. rewrite <-E1 in E. simpl in E. lia. }
    apply wp_bind. eapply wp_mono; [apply wp_both; [apply HK; [done|apply HG1]|apply H; [rewrite HA1; eauto|apply HG1|done|lia]]|].
    intros res st2 [(Hh2 & Ht2 & Hq1 & Hq2) [S2 B2]]. apply kc_get.
    pose proof (GS_body _ _ _ _ _ _ _ _ _ HG1 Ht2 Hh2) as HG2.
    assert (Hres : let '(ck', res') := match check (st_ctx st2) r x with Some (b, e, k) => (k, (b, e)) | None => (ck, res) end in
      (fst res' = false -> snd res' = x) /\ (fst res' = true -> span_ok s (nul (fn r)) x (snd res'))).
    { change (check (st_ctx st2) r x) with (memo (cch st2) r x).
      destruct (memo (cch st2) r x) as [[[b q] k]|] eqn:Em; [|done]. by eapply (tm_memo _ _ _ _ Ht2). }
    destruct (match check (st_ctx st2) r x with Some (b, e, k) => (k, (b, e)) | None => (ck, res) end) as [ck' res'].
    destruct Hres as [Hr1 Hr2].
    apply (kc_update _ _ HPn). intros st3 E3 U3. destruct (negb (fst res') || (snd res' <=? snd last)) eqn:Estop.
    - apply (kc_connect _ _ HPn). intros st4 E4 U4. apply kc_active. intros st5 E5 U5. apply kc_memo. intros st6 E6 U6. apply wp_ret.
      rewrite E6, E5, E4, E3, U6, U5, U4, U3. split; [done|].
      match goal with |- context [pot Z (c_ins ?a ?b ?c ?d)] => pose proof (pot_ins Z a b c d) as Hi end. rewrite pot_act in Hi. lia.
    - apply orb_false_iff in Estop as [Eb Hgt]. apply negb_false_iff in Eb. apply N.leb_gt in Hgt.
      destruct (Hr2 Eb) as [[? ?] ?].
      assert (Hstep : (1 + I) + (L - snd res' + 1) * (1 + I) <= (L - snd last + 1) * (1 + I)).
      { transitivity ((1 + (L - snd res' + 1)) * (1 + I)); [lia|]. apply N.mul_le_mono_r. lia. }
      remember ((L - snd res' + 1) * (1 + I)) as rest eqn:Erest. remember ((L - snd last + 1) * (1 + I)) as all eqn:Eall.
      apply (kc_reserve _ _ HPn); [rewrite U3; lia|]. intros ck2 st4 E4 U4.
      eapply wp_mono; [apply IH; [by rewrite E4, E3|by rewrite E4, E3|done|done|rewrite <-Erest, E4, E3, U4, U3; lia]|].
      intros r' st' [S' B']. rewrite <-Erest, E4, E3, U4, U3 in B'. split; [done|]. lia.
  Qed.

  (** The left-recursion entry, split by what it decides to do. *)
  Lemma kc_lr_cases r inv f n p x st (Q : bool * N -> pstate U -> Prop) :
    tm (cch st) ->
    (forall st1, (is_Some (c_active (cch st)) -> hd (cch st) r x = None) ->
       cch st1 = c_act (cch st) (Some (r, x)) -> used st1 = used st ->
       kc (growth_function n inv r f p x (c_active (cch st))) st1 Q) ->
    (forall a j h, c_active (cch st) = Some (a, j) -> hd (cch st) a j = Some h -> r ∈ h_eval h -> used st < Bd /\
       forall k st1, cch st1 = c_hd (cch st) a j (Head (h_start h) (h_rule h) (h_involved h) (h_eval h ∖ {[r]})) -> used st1 = used st + 1 ->
       kc (f k x) st1 (fun res st2 => forall st3, cch st3 = c_ins (cch st2) r x (fst res, snd res, k) -> used st3 = used st2 -> Q res st3)) ->
    (forall b q st1, cch st1 = cch st -> used st1 = used st -> Q (b, q) st1) ->
    kc (var_name_kernel_indirect_left_recursion n inv r f p x) st Q.
  Proof.
    intros HT Hgrow Heval Hmemo.
    unfold var_name_kernel_indirect_left_recursion, should_go_into_growth_function.
    apply wp_bind. apply kc_get. unfold get_current_active_lr_position.
    assert (Hno : is_Some (c_active (cch st)) -> kc (do c <- get_ctx;
      match get_current_active_lr_position c with
      | Some active_lr_position =>
          do is_in_eval_set <- with_ctx (fun c0 => let! b := rule_in_eval_set c0 active_lr_position r in Ok (b, c0));
          (if is_in_eval_set then
            do current_key <- with_ctx (fun c0 => reserve_publisher_entry c0 r);
            do _ <- upd_ctx (fun c0 => remove_from_eval_set c0 active_lr_position r);
            do result <- f current_key x;
            do _ <- upd_ctx (fun c0 => update_publisher_entry c0 current_key (fst result) x (snd result));
            do _ <- upd_ctx (fun c0 => Ok (create_cache_entry c0 r (fst result) x (snd result) current_key));
            do _ <- upd_ctx (fun c0 => ctx_connect c0 p current_key); mret result
          else
            do c0 <- get_ctx;
            match check c0 r x with
            | Some (b, e, k) => do _ <- upd_ctx (fun c1 => ctx_connect_if_not_connected c1 p k); mret (b, e)
            | None => mret (false, x)
            end)
      | None => mpanic PExpectActive
      end) st Q).
    { intros [[a j] HA]. apply kc_get. unfold get_current_active_lr_position. rewrite HA.
      apply wp_bind. unfold wp at 1, with_ctx, rule_in_eval_set.
      destruct (c_heads (cch st) !! (a, j)) as [h|] eqn:Eh; [|by apply HPn]. cbn [rbind sat fst snd].
      replace (PState (st_ctx st) (st_user st)) with st by (by destruct st).
      destruct (bool_decide (r ∈ h_eval h)) eqn:Ed.
      - apply bool_decide_eq_true in Ed. destruct (Heval a j h HA Eh Ed) as [Hu Hev].
        apply (kc_reserve _ _ HPn); [done|]. intros k st1 E1 U1. apply wp_bind. unfold wp at 1, upd_ctx, with_ctx, remove_from_eval_set.
        rewrite E1, Eh. cbn [rbind sat fst snd].
        match goal with |- wp _ _ ?S1 _ => set (st2 := S1) end.
        assert (E2 : cch st2 = c_hd (cch st) a j (Head (h_start h) (h_rule h) (h_involved h) (h_eval h ∖ {[r]}))).
        { subst st2. simpl. unfold c_hd. by rewrite E1. }
        assert (U2 : used st2 = used st + 1) by done.
        clearbody st2. apply wp_bind. eapply wp_mono; [by apply (Hev k st2)|]. intros res st3 HP3.
        apply (kc_update _ _ HPn). intros st4 E4 U4. apply kc_memo. intros st5 E5 U5. apply (kc_connect _ _ HPn). intros st6 E6 U6. apply wp_ret.
        apply HP3; [by rewrite E6, E5, E4|by rewrite U6, U5, U4].
      - apply kc_get. destruct (check _ r x) as [[[b q] k]|] eqn:Em.
        + apply (kc_connect_if _ _ HPn). intros st1 E U1. apply wp_ret. by apply Hmemo.
        + apply wp_ret. by apply Hmemo. }
    destruct (c_active (cch st)) as [[a j]|] eqn:HA.
    - change (check_head (st_ctx st) r x) with (hd (cch st) r x). destruct (hd (cch st) r x) as [h'|] eqn:Eh.
      + apply wp_ret. cbn [fst snd]. apply Hno. eauto.
      + apply wp_bind. unfold wp at 1, with_ctx, rule_in_involved_set.
        destruct (c_heads (cch st) !! (a, j)) as [h|] eqn:Eh'; [|by apply HPn]. cbn [rbind sat fst snd].
        replace (PState (st_ctx st) (st_user st)) with st by (by destruct st).
        destruct (bool_decide (r ∈ h_involved h)).
        * apply wp_ret. cbn [fst snd]. apply Hno. eauto.
        * apply kc_active. intros st1 E1 U1. apply wp_ret. cbn [fst snd]. by apply Hgrow.
    - apply kc_active. intros st1 E1 U1. apply wp_ret. cbn [fst snd]. apply Hgrow; [|done|done]. by intros [? ?].
  Qed.

  Lemma cheap_lr Z r inv f n x : x <= L -> r ∈ R -> N.of_nat (length inv) <= I -> keeps (nul (fn r)) f -> free Z x f ->
    cheap Z 1 (eq x) (var_name_kernel_indirect_left_recursion n inv r f).
  Proof.
    intros Hx Hr Hinv HK H p x' st _ <- HT HS Hb. pose proof (HPR r x Hr Hx) as HinP.
    apply kc_lr_cases; [done|..].
    - intros st1 Hn E1 U1.
      set (h0 := Head x r (convert_vec_to_btree_set inv) (convert_vec_to_btree_set inv)).
      assert (Hsz : N.of_nat (size (convert_vec_to_btree_set inv)) <= I).
      { unfold convert_vec_to_btree_set. pose proof (size_list_to_set_le inv). lia. }
      pose proof (pot_hd Z (c_act (cch st) (Some (r, x))) r x h0 HinP) as Ep. rewrite pot_act in Ep. simpl in Ep.
      change (hpot (c_act (cch st) (Some (r, x))) (r, x)) with (hpot (cch st) (r, x)) in Ep.
      assert (Hgo : pot Z (c_hd (c_act (cch st) (Some (r, x))) r x h0) + W <= pot Z (cch st) + charge 1 (cch st) + I).
      { unfold charge. destruct (c_active (cch st)) as [[a j]|] eqn:HA; [|lia].
        specialize (Hn ltac:(eauto)). unfold hpot in Ep. unfold hd in Hn. rewrite Hn in Ep. lia. }
      assert (HW : (L - x + 1) * (1 + I) + 2 + I <= W).
      { unfold growth_keys. assert ((L - x + 1) * (1 + I) <= (L + 1) * (1 + I)) by (apply N.mul_le_mono_r; lia). lia. }
      remember ((L - x + 1) * (1 + I)) as all eqn:Eall.
      unfold growth_function. apply (kc_reserve _ _ HPn); [lia|]. intros k2 st2 E2 U2. apply (kc_update _ _ HPn). intros st3 E3 U3.
      apply (kc_reserve _ _ HPn); [lia|]. intros k4 st4 E4 U4. apply kc_set_head. intros st5 E5 U5.
      assert (E : cch st5 = c_hd (c_act (cch st) (Some (r, x))) r x h0) by (by rewrite E5, E4, E3, E2, E1).
      assert (Hu : used st5 = used st + 2) by lia.
      eapply wp_mono; [apply (cheap_growth_loop Z r f n x (cch st)); [done|done|done|done|done|rewrite E; by apply GS_start| |done|done|]|].
      + rewrite E. by apply small_hd.
      + cbn [snd]. rewrite <-Eall, E, Hu. lia.
      + cbn [snd]. intros res st' [S' B']. rewrite <-Eall, E, Hu in B'. split; [done|]. lia.
    - intros a j h HA Hh Hin. assert (Hc : charge 1 (cch st) = 0) by (unfold charge; by rewrite HA).
      destruct (HS (a, j) h Hh) as [HinA HszA].
      pose proof (pot_hd Z (cch st) a j (Head (h_start h) (h_rule h) (h_involved h) (h_eval h ∖ {[r]})) HinA) as Ep. simpl in Ep.
      assert (Hhp : hpot (cch st) (a, j) = N.of_nat (size (h_eval h))) by (unfold hpot; unfold hd in Hh; by rewrite Hh).
      assert (Hdec : (size (h_eval h ∖ {[r]}) < size (h_eval h))%nat) by (apply subset_size; set_solver).
      split; [lia|]. intros k st1 E1 U1.
      rewrite <-E1 in Ep.
      eapply wp_mono; [apply H; [rewrite E1; simpl; rewrite HA; eauto|rewrite E1; by apply tame_hd|rewrite E1; by apply small_hd|lia]|].
      intros res st2 [S2 B2] st3 E3 U3. unfold cpost. rewrite E3, U3. split; [done|].
      match goal with |- context [pot Z (c_ins ?a ?b ?c ?d)] => pose proof (pot_ins Z a b c d) as Hi end. lia.
    - intros b q st1 E1 U1. split; [by rewrite E1|]. rewrite E1, U1. lia.
  Qed.

  (** ** All expressions *)
  Definition covers (x0 : N) (n : nat) (Z : gset (N * N)) : Prop := forall r i, r ∈ V -> i <= L ->
    (x0 < i \/ (i = x0 /\ (rk (fn r) < n)%nat)) -> (r, i) ∈ Z.
  Definition from (x0 : N) (start : bool) (x : N) : Prop := x0 <= x /\ (start = false -> x0 < x).
  Lemma covers_le x0 n Z x m : covers x0 n Z -> x0 < x \/ (x = x0 /\ (m <= n)%nat) -> covers x m Z.
  Proof. intros H Hx r i Hr Hi Hc. apply H; [done|done|]. lia. Qed.

  Lemma eval_cheap m : forall e n start x0 Z k, expr_wf pr fn e -> ranked nul rk n start e ->
    (forall r, r ∈ var_labels e -> r ∈ V) -> (forall r, r ∈ lr_labels e -> r ∈ R) ->
    (forall inv, inv ∈ involved_sets e -> N.of_nat (length inv) <= I) ->
    lr_calls pr L e k -> covers x0 n Z -> cheap Z k (from x0 start) (eval pr src m e).
  Proof using All.
    pose proof (no_hooks_veto pr Hnh) as Hhk.
    induction m as [|m IH]; intros e n start x0 Z k Hwe Hre HV HRl HI Hk Hcov; [by intros p x st|].
    pose proof (keeps_eval pr s fn nul lvl Hs Hpr Hwf Hhk m) as HKE.
    assert (Hcall : forall f body n' Z' k' x, pr_fn pr f = Some body -> covers x n' Z' -> (rk f <= n')%nat -> lr_calls pr L body k' ->
      cheap Z' k' (eq x) (eval pr src m body)).
    { intros f body n' Z' k' x Hf Hcv Hle Hk'. eapply (cheap_pos _ _ (from x true)); [intros y <-; split; [lia|done]|].
      eapply (IH body (rk f) true x); [by eapply Hpr|by apply (Hrk f)|intros r; by eapply (kb_var _ _ _ _ _ _ HB)|intros r; by eapply (kb_lr _ _ _ _ _ _ HB)
        |intros inv; by eapply (kb_inv _ _ _ _ _ _ HB)|done|]. intros r i Hr Hi Hc. apply Hcv; [done|done|]. lia. }
    assert (Hkc : forall f body, pr_fn pr f = Some body -> keeps (nul f) (eval pr src m body)).
    { intros f body Hf. eapply keeps_weak; [by apply (Hwf f body Hf)|]. apply HKE. by eapply Hpr. }
    (* at a single position *)
    assert (Hpt : forall k (g : parser U), (forall x, x <= L -> from x0 start x -> cheap Z k (eq x) g) -> cheap Z k (from x0 start) g).
    { intros k' g Hg p x st Hx Hq. apply (Hg x); done. }
    destruct e; cbn [eval]; simpl in Hwe, Hre, HV, HRl, HI.
    - apply cheap_leaf. intros p x st Hx. rewrite terminal_eq by done. eauto.
    - apply cheap_leaf. intros p x st Hx. unfold string_terminal_kernel. rewrite string_loop_eq by done. eauto.
    - apply cheap_leaf. intros p x st Hx. rewrite range_eq by done. eauto.
    - inversion Hk; subst. destruct Hwe, Hre. eapply (cheap_seq _ _ _ _ (from x0 (start && nullable nul (pexp_of e1)))); [by apply HKE|by apply HKE| | |].
      + eapply IH; try done; intros ? ?; [apply HV|apply HRl|apply HI]; apply elem_of_app; by left.
      + eapply IH; try done; intros ? ?; [apply HV|apply HRl|apply HI]; apply elem_of_app; by right.
      + intros x q [Hx1 Hx2] [Hsp Hnu]. split; [lia|]. intros E. apply andb_false_iff in E as [->|E]; [specialize (Hx2 eq_refl); lia|].
        assert (q <> x) by (intros ->; rewrite Hnu in E by done; done). lia.
    - inversion Hk; subst. destruct Hwe, Hre. eapply cheap_choice; [by apply HKE|by apply HKE| |].
      + eapply IH; try done; intros ? ?; [apply HV|apply HRl|apply HI]; apply elem_of_app; by left.
      + eapply IH; try done; intros ? ?; [apply HV|apply HRl|apply HI]; apply elem_of_app; by right.
    - inversion Hk; subst. eapply cheap_one; [by eapply IH|]. intros p x st. exists (fun r => if negb (fst r) then (false, x) else (true, x)).
      unfold and_predicate_kernel, mbind'. destruct (eval pr src m e p x st) as [[[[] ?] ?]| |]; done.
    - inversion Hk; subst. eapply cheap_one; [by eapply IH|]. intros p x st. exists (fun r => if negb (fst r) then (true, x) else (false, x)).
      unfold not_predicate_kernel, mbind'. destruct (eval pr src m e p x st) as [[[[] ?] ?]| |]; done.
    - inversion Hk; subst. destruct Hre as [Hn Hre]. apply cheap_plus; [rewrite <-Hn; by apply HKE|by eapply IH|].
      intros x q [? ?] ?. split; lia.
    - inversion Hk; subst. destruct Hre as [Hn Hre]. apply cheap_star; [rewrite <-Hn; by apply HKE|by eapply IH|].
      intros x q [? ?] ?. split; lia.
    - inversion Hk; subst. eapply cheap_one; [by eapply IH|]. intros p x st. exists (fun r => if negb (fst r) then (true, x) else (true, snd r)).
      unfold optional_kernel, mbind'. destruct (eval pr src m e p x st) as [[[[] ?] ?]| |]; done.
    - inversion Hk; subst. eapply cheap_one; [by eapply IH|]. intros p x st. exists (fun r => if negb (fst r) then (false, x) else (true, snd r)).
      unfold subexpression_kernel, mbind'. destruct (eval pr src m e p x st) as [[[[] ?] ?]| |]; done.
    - (* EVar *)
      inversion Hk; subst. destruct Hwe as [Hfn [body Hb]]. rewrite Hb. destruct (kb_calls _ _ _ _ _ _ HB f body Hb) as (k' & Hk' & Hle).
      apply Hpt. intros x Hx [Hx1 Hx2].
      assert (Hlv : x0 < x \/ (x = x0 /\ (rk f < n)%nat)) by (destruct start; [destruct (N.eq_dec x x0); [right; auto|left; lia]|left; auto]).
      subst f. eapply (cheap_var _ k'); [done| |done|by apply Hkc|].
      + apply Hcov; [apply HV; by left|done|lia].
      + eapply (Hcall (fn rule) body (rk (fn rule))); [done| |lia|done]. intros r i Hr Hi Hc. apply elem_of_difference. split.
        * apply Hcov; [done|done|]. lia.
        * intros [= -> ->]%elem_of_singleton. lia.
    - (* EInline *)
      inversion Hk; subst. match goal with H : pr_fn pr f = Some _ |- _ => rewrite H; rename H into Hb end.
      apply Hpt. intros x Hx [Hx1 Hx2].
      assert (Hlv : x0 < x \/ (x = x0 /\ (rk f <= n)%nat)) by (destruct start; [destruct (N.eq_dec x x0); [right; auto|left; lia]|left; auto]).
      eapply (Hcall f body (rk f)); [done|by eapply covers_le|lia|done].
    - (* ELR *)
      inversion Hk; subst. destruct Hwe as [Hfn [body Hb]]. rewrite Hb. destruct (kb_calls _ _ _ _ _ _ HB f body Hb) as (k' & Hk' & Hle).
      apply Hpt. intros x Hx [Hx1 Hx2].
      assert (Hlv : x0 < x \/ (x = x0 /\ (rk f <= n)%nat)) by (destruct start; [destruct (N.eq_dec x x0); [right; auto|left; lia]|left; auto]).
      subst f. eapply cheap_lr; [done|apply HRl; by left|apply HI; by left|by apply Hkc|].
      eapply cheap_free; [done|]. eapply (Hcall (fn rule) body (rk (fn rule))); [done|by eapply covers_le|lia|done].
    - inversion Hk; subst. rewrite Hnh. by eapply IH.
  Qed.
End keys.

(** ** The whole run *)
Definition grid (X : gset N) (L : N) : gset (N * N) :=
  list_to_set (flat_map (fun r => map (fun i => (r, N.of_nat i)) (seq 0 (N.to_nat (L + 1)))) (elements X)).
Lemma elem_of_grid X L r i : (r, i) ∈ grid X L <-> r ∈ X /\ i <= L.
Proof.
  unfold grid. rewrite elem_of_list_to_set, elem_of_list_In, in_flat_map. split.
  - intros (r' & Hr & Hi). apply in_map_iff in Hi as (j & [= -> <-] & Hj). apply in_seq in Hj.
    split; [|lia]. by apply elem_of_elements, elem_of_list_In.
  - intros [Hr Hi]. exists r. split; [by apply elem_of_list_In, elem_of_elements|].
    apply in_map_iff. exists (N.to_nat i). split; [by rewrite N2Nat.id|]. apply in_seq. lia.
Qed.
Lemma grid_size X L : N.of_nat (size (grid X L)) <= N.of_nat (size X) * (L + 1).
Proof.
  assert (H : forall l : list (N * N), (size (list_to_set l : gset (N * N)) <= length l)%nat).
  { induction l as [|a l IH]; [done|]. cbn [list_to_set length]. rewrite size_union_alt, size_singleton.
    assert (size (list_to_set l ∖ {[a]} : gset (N * N)) <= size (list_to_set l : gset (N * N)))%nat by (apply subseteq_size; set_solver). lia. }
  unfold grid. specialize (H (flat_map (fun r => map (fun i => (r, N.of_nat i)) (seq 0 (N.to_nat (L + 1)))) (elements X))).
  change (size X) with (length (elements X)).
  assert (E : length (flat_map (fun r => map (fun i => (r, N.of_nat i)) (seq 0 (N.to_nat (L + 1)))) (elements X)) =
    (length (elements X) * N.to_nat (L + 1))%nat).
  { clear H. induction (elements X) as [|a l IH]; [done|]. cbn [flat_map length]. rewrite app_length, map_length, seq_length, IH. lia. }
  rewrite E in H. lia.
Qed.

Section whole_run.
  Context {U : Type} (pr : program U) (s : list N) (fn : N -> N) (nul : N -> bool) (lvl rk : N -> nat).
  Context (Hs : N.of_nat (length s) < u32_modulus).
  Context (Hpr : program_wf pr fn) (Hwf : well_founded_program pr nul lvl) (Hnh : no_hooks pr).
  Notation L := (N.of_nat (length s)).
  Context (V R : gset N) (I C E : N) (entry : expr) (n : nat).
  Context (Hrk : ranked_program pr nul rk) (HB : key_budget pr L V R I C).
  Context (He : expr_wf pr fn entry) (Hre : ranked nul rk n true entry) (HV : forall r, r ∈ var_labels entry -> r ∈ V)
    (HR : forall r, r ∈ lr_labels entry -> r ∈ R) (HI : forall inv, inv ∈ involved_sets entry -> N.of_nat (length inv) <= I)
    (HE : lr_calls pr L entry E).

  Lemma run_keys Pn Bd u0 fuel : backed Pn Bd -> key_bound L (size V) (size R) I C E <= Bd ->
    wp Pn (eval pr (source_new s) fuel entry 0 0) (PState (context_new (pr_grammar pr)) u0)
      (fun _ st => used st <= key_bound L (size V) (size R) I C E).
  Proof using All.
    intros HPn Hbd.
    pose proof (eval_cheap pr s fn nul lvl rk Hs Pn Bd HPn Hpr Hwf Hnh V R I C Hrk HB (grid R L)
      ltac:(intros r i Hr Hi; by apply elem_of_grid) fuel entry n true 0 (grid V L) E He Hre HV HR HI HE) as H.
    assert (Hpot : pot s I C (grid R L) (grid V L) cache_new <= N.of_nat (size V) * (L + 1) * (1 + C * growth_keys L I) + N.of_nat (size R) * (L + 1) * growth_keys L I).
    { unfold pot. rewrite (lsum_const _ (growth_keys L I)) by (intros a _; done).
      assert (N.of_nat (size (unfilled (grid V L) cache_new)) <= N.of_nat (size V) * (L + 1)) as H1.
      { etrans; [|apply grid_size]. enough (size (unfilled (grid V L) cache_new) <= size (grid V L))%nat by lia.
        apply subseteq_size. intros p. unfold unfilled. rewrite elem_of_filter. tauto. }
      pose proof (grid_size R L) as H2. change (size (grid R L)) with (length (elements (grid R L))) in H2.
      apply N.add_le_mono; [|by apply N.mul_le_mono_r].
      rewrite N.mul_comm. by apply N.mul_le_mono_r. }
    eapply wp_mono; [apply H; [|lia|split; [lia|done]|apply tame_init|done|]|].
    - intros r i Hr Hi _. by apply elem_of_grid.
    - simpl. unfold charge. simpl. unfold key_bound in Hbd. lia.
    - intros r st' [_ B']. simpl in B'. unfold charge in B'. simpl in B'. unfold key_bound. lia.
  Qed.
End whole_run.
