(** Theorems C01 - C09: combinators and source accessors. *)
From Verif Require Import ProofSafe ProofFuel SpecKernel SpecSession Programs.

(** ** C01 *)
Section C01.
  Context {U : Type} (pr : program U) (fn : N -> N) (s : list N) (u0 : U).
  Context (Hs : N.of_nat (length s) < u32_modulus).
  Context (Hpr : program_wf pr fn).
  Context (Pp : panic -> Prop) (HPp : Pp PKeyOverflow).
  Let D := memo_claim pr s fn.
  Let L := N.of_nat (length s).
  Context (Hhooks : hooks_behave L D Pp pr (source_new s)).

  Lemma session_usable st : session pr (expr_wf pr fn) s u0 st -> usable L D root_open st.
  Proof using HPp Hhooks Hpr Hs.
    induction 1 as [|st fuel e pos r st' _ IH He Hpos Hev].
    - apply usable_init; done.
    - pose proof (eval_safe pr s fn Hs Pp HPp Hpr Hhooks fuel e He root_open st 0 pos IH eq_refl Hpos) as H.
      rewrite Hev in H. destruct r as [b q]. by destruct H as (_ & _ & ? & _).
  Qed.

  Theorem C01_positions_gen st fuel e pos b q st' :
    session pr (expr_wf pr fn) s u0 st -> expr_wf pr fn e -> pos <= N.of_nat (length s) ->
    eval pr (source_new s) fuel e 0 pos st = Ok ((b, q), st') ->
    (b = false -> q = pos) /\ (b = true -> pos <= q <= N.of_nat (length s)).
  Proof using HPp Hhooks Hpr Hs.
    intros Hst He Hpos Hev.
    pose proof (eval_safe pr s fn Hs Pp HPp Hpr Hhooks fuel e He root_open st 0 pos (session_usable st Hst) eq_refl Hpos) as H.
    rewrite Hev in H. destruct H as (H1 & H2 & _). split; [done|]. intros ->. by destruct H2.
  Qed.
End C01.

Lemma no_hooks_behave {U} (pr : program U) L D Pp src : no_hooks pr -> hooks_behave L D Pp pr src.
Proof. intros H h Q f Hf. by rewrite H. Qed.

(** Every expression of every hook-free program, left-recursive rules
    included, in every reachable context. *)
Theorem C01_positions {U} (pr : program U) fn s u0 st fuel e pos b q st' :
  N.of_nat (length s) < u32_modulus -> program_wf pr fn -> no_hooks pr ->
  session pr (expr_wf pr fn) s u0 st -> expr_wf pr fn e -> pos <= N.of_nat (length s) ->
  eval pr (source_new s) fuel e 0 pos st = Ok ((b, q), st') ->
  (b = false -> q = pos) /\ (b = true -> pos <= q <= N.of_nat (length s)).
Proof.
  intros Hs Hpr Hh. apply (C01_positions_gen pr fn s u0 Hs Hpr key_overflow eq_refl).
  by apply no_hooks_behave.
Qed.

(** The same inside a parse: any expression, called under any rule in progress
    in any state in which the parser can find itself. *)
Theorem C01_positions_nested {U} (pr : program U) fn s fuel e :
  N.of_nat (length s) < u32_modulus -> program_wf pr fn -> no_hooks pr -> expr_wf pr fn e ->
  forall (O : N -> Prop) (st : pstate U) parent pos b q st',
  usable (N.of_nat (length s)) (memo_claim pr s fn) O st -> O parent -> pos <= N.of_nat (length s) ->
  eval pr (source_new s) fuel e parent pos st = Ok ((b, q), st') ->
  (b = false -> q = pos) /\ (b = true -> pos <= q <= N.of_nat (length s)).
Proof.
  intros Hs Hpr Hh He O st parent pos b q st' HU HO Hpos Hev.
  pose proof (eval_safe pr s fn Hs key_overflow eq_refl Hpr (no_hooks_behave pr _ _ _ _ Hh) fuel e He O st parent pos HU HO Hpos) as H.
  rewrite Hev in H. destruct H as (H1 & H2 & _). split; [done|]. intros ->. by destruct H2.
Qed.

(** ** C02 *)
Section kernels.
  Context {U : Type} (f g : parser U) (k p : N) (st : pstate U).

  Theorem C02_and_predicate b q st' :
    and_predicate_kernel f k p st = Ok ((b, q), st') <->
    exists q0, f k p st = Ok ((b, q0), st') /\ q = p.
  Proof.
    unfold and_predicate_kernel, mbind'. destruct (f k p st) as [[[b0 q0] st0]| |]; simpl.
    - destruct b0; simpl; split.
      + intros [= <- <- <-]. eauto.
      + intros (? & [= <- <- <-] & ->). done.
      + intros [= <- <- <-]. eauto.
      + intros (? & [= <- <- <-] & ->). done.
    - split; [done|]. by intros (? & ? & ?).
    - split; [done|]. by intros (? & ? & ?).
  Qed.

  Theorem C02_not_predicate b q st' :
    not_predicate_kernel f k p st = Ok ((b, q), st') <->
    exists q0, f k p st = Ok ((negb b, q0), st') /\ q = p.
  Proof.
    unfold not_predicate_kernel, mbind'. destruct (f k p st) as [[[b0 q0] st0]| |]; simpl.
    - destruct b0; simpl; split.
      + intros [= <- <- <-]. eauto.
      + intros (? & [= E <- <-] & ->). by destruct b.
      + intros [= <- <- <-]. eauto.
      + intros (? & [= E <- <-] & ->). by destruct b.
    - split; [done|]. by intros (? & ? & ?).
    - split; [done|]. by intros (? & ? & ?).
  Qed.

  (** Predicates panic exactly when the operand does. *)
  Theorem C02_predicates_panic x :
    (and_predicate_kernel f k p st = Panic x <-> f k p st = Panic x) /\
    (not_predicate_kernel f k p st = Panic x <-> f k p st = Panic x).
  Proof.
    unfold and_predicate_kernel, not_predicate_kernel, mbind'.
    destruct (f k p st) as [[[b0 q0] st0]| |]; simpl; [|done|done].
    by destruct b0.
  Qed.

  (** ** C03 *)
  Lemma repeat_loop_spec fuel : forall p st b q st',
    repeat_loop fuel f k p st = Ok ((b, q), st') ->
    b = true /\ exists n st1 q0, chain f k p st n q st1 /\ f k q st1 = Ok ((false, q0), st').
  Proof.
    induction fuel as [|fuel IH]; intros p' st0 b q st' H; [done|].
    cbn [repeat_loop] in H. apply mbind_Ok_inv in H as ([b1 q1] & st1 & H1 & H2). destruct b1; simpl in H2.
    - destruct (IH _ _ _ _ _ H2) as (-> & n & st2 & q0 & Hc & Hf). split; [done|].
      exists (S n), st2, q0. split; [|done]. by econstructor.
    - unfold mret in H2. simplify_eq. split; [done|]. exists 0%nat, st0, q1. split; [constructor|done].
  Qed.
  Lemma repeat_loop_complete n : forall p st q st1 q0 st',
    chain f k p st n q st1 -> f k q st1 = Ok ((false, q0), st') ->
    forall fuel, (n < fuel)%nat -> repeat_loop fuel f k p st = Ok ((true, q), st').
  Proof.
    induction n as [|n IH]; intros p' st0 q st1 q0 st' Hc Hf fuel Hfu;
      (destruct fuel as [|fuel]; [lia|]); cbn [repeat_loop]; unfold mbind'; inversion Hc; subst.
    - rewrite Hf. done.
    - rewrite H0. simpl. eapply IH; [done|done|lia].
  Qed.

  (** [e*] answers [(b,q)] iff it answers success after some number [n] of
      chained successes of [e], the last of which stops at [q], where [e]
      fails. (The fuel is only the model's bound on iterations.) *)
  Theorem C03_zero_or_more b q st' :
    (exists fuel, zero_or_more_kernel fuel f k p st = Ok ((b, q), st')) <->
    b = true /\ exists n st1 q0, chain f k p st n q st1 /\ f k q st1 = Ok ((false, q0), st').
  Proof.
    unfold zero_or_more_kernel. split.
    - intros [fuel H]. by eapply repeat_loop_spec.
    - intros (-> & n & st1 & q0 & Hc & Hf). exists (S n). eapply repeat_loop_complete; [done|done|lia].
  Qed.

  Theorem C03_one_or_more b q st' :
    (exists fuel, one_or_more_kernel fuel f k p st = Ok ((b, q), st')) <->
    (b = false /\ q = p /\ exists q0, f k p st = Ok ((false, q0), st')) \/
    (b = true /\ exists n st1 q0, chain f k p st (S n) q st1 /\ f k q st1 = Ok ((false, q0), st')).
  Proof.
    unfold one_or_more_kernel, mbind'. split.
    - intros [fuel H]. destruct (f k p st) as [[[b1 q1] st1]| |] eqn:E; simpl in H; [|done|done].
      destruct b1; simpl in H.
      + apply repeat_loop_spec in H as (-> & n & st2 & q0 & Hc & Hf). right. split; [done|].
        exists n, st2, q0. split; [|done]. by econstructor.
      + unfold mret in H. simplify_eq. left. eauto.
    - intros [(-> & -> & q0 & E)|(-> & n & st1 & q0 & Hc & Hf)].
      + exists 0%nat. by rewrite E.
      + exists (S n). inversion Hc; subst. rewrite H0. cbn [rbind negb].
        eapply repeat_loop_complete; [done|done|lia].
  Qed.

  Theorem C03_optional b q st' :
    optional_kernel f k p st = Ok ((b, q), st') <->
    b = true /\ exists b0 q0, f k p st = Ok ((b0, q0), st') /\ q = (if b0 then q0 else p).
  Proof.
    unfold optional_kernel, mbind'. destruct (f k p st) as [[[b0 q0] st0]| |]; simpl.
    - split.
      + intros H. destruct b0; unfold mret in H; simpl in H; simplify_eq; split; eauto.
      + intros (-> & b1 & q1 & [= <- <- <-] & ->). by destruct b0.
    - split; [done|]. by intros (_ & ? & ? & ? & ?).
    - split; [done|]. by intros (_ & ? & ? & ? & ?).
  Qed.

  (** ** C04 *)
  Theorem C04_ordered_choice b q st' :
    ordered_choice_kernel f g k p st = Ok ((b, q), st') <->
    (b = true /\ f k p st = Ok ((true, q), st')) \/
    (exists q1 st1, f k p st = Ok ((false, q1), st1) /\
       ((b = true /\ g k p st1 = Ok ((true, q), st')) \/
        (b = false /\ q = p /\ exists q2, g k p st1 = Ok ((false, q2), st')))).
  Proof.
    unfold ordered_choice_kernel, mbind'. destruct (f k p st) as [[[b1 q1] st1]| |]; simpl.
    - destruct b1; simpl.
      + split; [unfold mret; intros; simplify_eq; by left|]. intros [(-> & [= -> ->])|(? & ? & ? & ?)]; done.
      + destruct (g k p st1) as [[[b2 q2] st2]| |] eqn:Eg; simpl.
        * split.
          -- intros H. right. exists q1, st1. split; [done|]. destruct b2; unfold mret in H; simplify_eq; [left; done|right; split; [done|]; split; [done|]; by exists q2].
          -- intros [(_ & ?)|(? & ? & [= <- <-] & H)]; [done|]. rewrite Eg in H.
             destruct H as [(-> & [= -> -> ->])|(-> & -> & ? & [= -> -> ->])]; done.
        * split; [done|]. intros [(_ & ?)|(? & ? & [= <- <-] & H)]; [done|]. rewrite Eg in H.
          destruct H as [(-> & ?)|(-> & -> & ? & ?)]; done.
        * split; [done|]. intros [(_ & ?)|(? & ? & [= <- <-] & H)]; [done|]. rewrite Eg in H.
          destruct H as [(-> & ?)|(-> & -> & ? & ?)]; done.
    - split; [done|]. intros [(_ & ?)|(? & ? & ? & _)]; done.
    - split; [done|]. intros [(_ & ?)|(? & ? & ? & _)]; done.
  Qed.

  (** When the first alternative succeeds the second one is irrelevant. *)
  Theorem C04_second_not_run g' r st' :
    f k p st = Ok ((true, r), st') -> ordered_choice_kernel f g' k p st = Ok ((true, r), st').
  Proof. intros H. unfold ordered_choice_kernel, mbind'. by rewrite H. Qed.

  (** ** C05 *)
  Theorem C05_sequence b q st' :
    sequence_kernel f g k p st = Ok ((b, q), st') <->
    (b = false /\ q = p /\ exists q1, f k p st = Ok ((false, q1), st')) \/
    (exists q1 st1, f k p st = Ok ((true, q1), st1) /\
       ((b = true /\ g k q1 st1 = Ok ((true, q), st')) \/
        (b = false /\ q = p /\ exists q2, g k q1 st1 = Ok ((false, q2), st')))).
  Proof.
    unfold sequence_kernel, mbind'. destruct (f k p st) as [[[b1 q1] st1]| |]; simpl.
    - destruct b1; simpl.
      + destruct (g k q1 st1) as [[[b2 q2] st2]| |] eqn:Eg; simpl.
        * split.
          -- intros H. right. exists q1, st1. split; [done|]. destruct b2; unfold mret in H; simplify_eq; [left; done|right; split; [done|]; split; [done|]; by exists q2].
          -- intros [(_ & _ & ? & ?)|(? & ? & [= <- <-] & H)]; [done|]. rewrite Eg in H.
             destruct H as [(-> & [= -> -> ->])|(-> & -> & ? & [= -> -> ->])]; done.
        * split; [done|]. intros [(_ & _ & ? & ?)|(? & ? & [= <- <-] & H)]; [done|]. rewrite Eg in H.
          destruct H as [(-> & ?)|(-> & -> & ? & ?)]; done.
        * split; [done|]. intros [(_ & _ & ? & ?)|(? & ? & [= <- <-] & H)]; [done|]. rewrite Eg in H.
          destruct H as [(-> & ?)|(-> & -> & ? & ?)]; done.
      + split; [unfold mret; intros; simplify_eq; left; split; [done|]; split; [done|]; by exists q1|].
        intros [(-> & -> & ? & [= -> ->])|(? & ? & ? & ?)]; done.
    - split; [done|]. intros [(_ & _ & ? & ?)|(? & ? & ? & _)]; done.
    - split; [done|]. intros [(_ & _ & ? & ?)|(? & ? & ? & _)]; done.
  Qed.

  Theorem C05_second_not_run g' q1 st' :
    f k p st = Ok ((false, q1), st') -> sequence_kernel f g' k p st = Ok ((false, p), st').
  Proof. intros H. unfold sequence_kernel, mbind'. by rewrite H. Qed.
End kernels.

(** ** C06 *)
Theorem C06_string_literal {U} (s data : list N) (k p : N) (st : pstate U) :
  N.of_nat (length s) < u32_modulus ->
  exists b q, string_terminal_kernel (source_new s) data k p st = Ok ((b, q), st) /\
    (b = true <-> take (length data) (drop (N.to_nat p) s) = data) /\
    q = (if b then p + N.of_nat (length data) else p).
Proof.
  intros Hs. unfold string_terminal_kernel. rewrite string_loop_eq by done.
  destruct (decide (occurs_at s p data)) as [H|H]; eexists _, _; split; try done.
Qed.

(** ** C07 *)
Theorem C07_terminal {U} (s : list N) (c k p : N) (st : pstate U) :
  N.of_nat (length s) < u32_modulus ->
  exists b q, terminal_kernel (source_new s) c k p st = Ok ((b, q), st) /\
    (b = true <-> s !! N.to_nat p = Some c) /\ q = (if b then p + 1 else p).
Proof.
  intros Hs. rewrite terminal_eq by done. case_decide; eexists _, _; split; try done.
Qed.

Theorem C07_range {U} (s : list N) (lo hi k p : N) (st : pstate U) :
  N.of_nat (length s) < u32_modulus ->
  exists b q, ordered_choice_match_range_kernel (source_new s) lo hi k p st = Ok ((b, q), st) /\
    (b = true <-> exists x, s !! N.to_nat p = Some x /\ lo <= x <= hi) /\ q = (if b then p + 1 else p).
Proof.
  intros Hs. rewrite range_eq by done. destruct (s !! N.to_nat p) as [v|].
  - destruct ((lo <=? v) && (v <=? hi)) eqn:E; eexists _, _; (split; [done|]); (split; [|done]).
    + apply andb_true_iff in E as [?%N.leb_le ?%N.leb_le]. split; eauto.
    + split; [done|]. intros (x & [= <-] & ? & ?). apply andb_false_iff in E as [?%N.leb_gt|?%N.leb_gt]; lia.
  - eexists _, _. split; [done|]. split; [|done]. split; [done|]. intros (x & ? & ?). done.
Qed.

(** ** C08 *)
Theorem C08_get_char s i : N.of_nat (length s) < u32_modulus ->
  get_char (source_new s) i = Ok (s !! N.to_nat i).
Proof. apply get_char_spec. Qed.

Theorem C08_get_len s : N.of_nat (length s) < u32_modulus -> get_len (source_new s) = N.of_nat (length s).
Proof. intros H. unfold get_len, source_new, as_u32; simpl. by apply N.mod_small. Qed.

(** The sub-list [s[a..b)]. *)
Definition sublist (s : list N) (a b : N) : list N := take (N.to_nat (b - a)) (drop (N.to_nat a) s).

Theorem C08_get_string s a b : N.of_nat (length s) < u32_modulus ->
  (N.of_nat (length s) < a \/ N.of_nat (length s) < b -> get_string (source_new s) a b = Ok None) /\
  (a <= N.of_nat (length s) -> b <= N.of_nat (length s) ->
     a <= b /\ is_char_boundary s a = true /\ is_char_boundary s b = true ->
     get_string (source_new s) a b = Ok (Some (sublist s a b))) /\
  (a <= N.of_nat (length s) -> b <= N.of_nat (length s) ->
     ~ (a <= b /\ is_char_boundary s a = true /\ is_char_boundary s b = true) ->
     get_string (source_new s) a b = Panic PStrSlice).
Proof.
  intros Hs. unfold get_string, source_new, as_u32; simpl. rewrite N.mod_small by done.
  split; [|split].
  - intros H. replace (_ || _) with true; [done|]. symmetry. apply orb_true_iff. rewrite !N.ltb_lt. lia.
  - intros Ha Hb (Hab & B1 & B2). rewrite (proj2 (N.ltb_ge _ a)), (proj2 (N.ltb_ge _ b)) by lia. simpl.
    unfold slice_str. rewrite B1, B2, (proj2 (N.leb_le a b)), (proj2 (N.leb_le b _)) by lia. done.
  - intros Ha Hb H. rewrite (proj2 (N.ltb_ge _ a)), (proj2 (N.ltb_ge _ b)) by lia. simpl.
    unfold slice_str. rewrite (proj2 (N.leb_le b _)) by lia.
    destruct (N.leb_spec a b); [|done]. simpl.
    destruct (is_char_boundary s a) eqn:E1; [|done]. destruct (is_char_boundary s b) eqn:E2; [|done].
    exfalso. by apply H.
Qed.

Theorem C08_get_multiple_chars s i n l : N.of_nat (length s) < u32_modulus ->
  get_multiple_chars (source_new s) i n = Ok (Some l) ->
  i + n < N.of_nat (length s) /\ l = sublist s i (i + n).
Proof.
  intros Hs. unfold get_multiple_chars, source_new, as_u32; simpl. rewrite N.mod_small by done.
  destruct (u32_modulus <=? i + n); [done|]. destruct (N.ltb_spec (i + n) (N.of_nat (length s))) as [H|H]; [|done].
  unfold slice_bytes. rewrite (proj2 (N.leb_le i (i + n))), (proj2 (N.leb_le (i + n) _)) by lia. simpl.
  intros [= <-]. split; [done|]. done.
Qed.

(** When it is refused. *)
Theorem C08_get_multiple_chars_none s i n : N.of_nat (length s) < u32_modulus -> i + n < u32_modulus ->
  get_multiple_chars (source_new s) i n = Ok None <-> N.of_nat (length s) <= i + n.
Proof.
  intros Hs Hn. unfold get_multiple_chars, source_new, as_u32; simpl. rewrite N.mod_small by done.
  rewrite (proj2 (N.leb_gt _ _)) by done.
  destruct (N.ltb_spec (i + n) (N.of_nat (length s))) as [H|H]; [|done].
  unfold slice_bytes. rewrite (proj2 (N.leb_le i (i + n))), (proj2 (N.leb_le (i + n) _)) by lia. simpl.
  split; [done|lia].
Qed.

(** ** C09 (the property is false of the code) *)
Definition C09_property : Prop :=
  forall s i n, N.of_nat (length s) < u32_modulus -> i + n <= N.of_nat (length s) ->
    get_multiple_chars (source_new s) i n = Ok (Some (sublist s i (i + n))).
Theorem C09_refuted : ~ C09_property.
Proof. intros H. specialize (H (bytes "ab") 0 2 eq_refl). vm_compute in H. discriminate H. done. Qed.
(** It fails on every non-empty suffix request: exactly the requests that end
    at the end of the source. *)
Theorem C09_fails_exactly_at_end s i n : N.of_nat (length s) < u32_modulus -> i + n <= N.of_nat (length s) ->
  get_multiple_chars (source_new s) i n = Ok (Some (sublist s i (i + n))) <-> i + n <> N.of_nat (length s).
Proof.
  intros Hs Hle. split.
  - intros H. apply C08_get_multiple_chars in H; [lia|done].
  - intros Hne. unfold get_multiple_chars, source_new, as_u32; simpl. rewrite N.mod_small by done.
    rewrite (proj2 (N.leb_gt _ _)) by lia. rewrite (proj2 (N.ltb_lt _ _)) by lia.
    unfold slice_bytes. rewrite (proj2 (N.leb_le i (i + n))), (proj2 (N.leb_le (i + n) _)) by lia. done.
Qed.
