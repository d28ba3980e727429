(** Soundness of the reader. *)
From stdpp Require Import base list option numbers.
From Coq Require Import NArith Lia.
From Verif Require Import SpecPeg DslReader.
Local Open Scope N_scope.

Lemma take_plus_app_aux {A} n m (l : list A) : take (n + m) l = take n l ++ take m (drop n l).
Proof. revert l. induction n as [|n IH]; intros [|x l]; simpl; try done; [by destruct m|]. by rewrite IH. Qed.

Section sound.
  Context (s : list N).
  (** The unread text [l] starts at offset [i]. *)
  Definition rest_at (i : N) (l : list N) : Prop := exists pre, s = pre ++ l /\ i = N.of_nat (length pre).
  Lemma rest_app i a l : rest_at i (a ++ l) -> text s i (i + N.of_nat (length a)) a /\ rest_at (i + N.of_nat (length a)) l.
  Proof.
    intros (pre & -> & ->). split.
    - split; [done|]. unfold occurs_at. rewrite Nat2N.id, drop_app. apply take_app.
    - exists (pre ++ a). rewrite <- app_assoc, app_length. split; [done|lia].
  Qed.
  Lemma rest_cons i c l : rest_at i (c :: l) -> text s i (i + 1) [c] /\ rest_at (i + 1) l.
  Proof. apply (rest_app i [c] l). Qed.
  Lemma text_app i j k a b : text s i j a -> text s j k b -> text s i k (a ++ b).
  Proof.
    intros [-> Ha] [-> Hb]. split; [rewrite app_length; lia|]. unfold occurs_at in *.
    rewrite app_length, take_plus_app_aux. rewrite N2Nat.inj_add, Nat2N.id, <- drop_drop in Hb. by rewrite Ha, Hb.
  Qed.
  Lemma expect_sound i c l r : expect c l = Some r -> rest_at i l -> text s i (i + 1) [c] /\ rest_at (i + 1) r.
  Proof.
    destruct l as [|x l]; simpl; [done|]. destruct (N.eqb_spec x c) as [->|]; [|done]. intros [= <-]. apply rest_cons.
  Qed.
  Lemma expects_sound k : forall i l r, expects k l = Some r -> rest_at i l -> text s i (i + N.of_nat (length k)) k /\ rest_at (i + N.of_nat (length k)) r.
  Proof.
    intros i l r H Hl. assert (l = k ++ r) as ->; [|by apply rest_app]. clear i Hl. revert l H.
    induction k as [|c k IH]; simpl; intros l H; [by injection H|]. destruct l as [|x l]; simpl in H; [done|].
    destruct (N.eqb_spec x c) as [->|]; [|done]. by rewrite (IH _ H).
  Qed.
  Lemma span_sound p l a b : span p l = (a, b) -> l = a ++ b /\ Forall (fun c => p c = true) a.
  Proof.
    revert a b. induction l as [|c l IH]; simpl; intros a b H; [injection H as <- <-; done|].
    destruct (p c) eqn:E; [|injection H as <- <-; done]. destruct (span p l) as [x y]. injection H as <- <-.
    destruct (IH _ _ eq_refl) as [-> H]. split; [done|]. by constructor.
  Qed.
  Lemma skip_sound i l : rest_at i l -> exists j, blank s i j /\ rest_at j (skip l).
  Proof.
    intros H. unfold skip. destruct (span is_blank l) as [a b] eqn:E. apply span_sound in E as [-> Ha]. apply rest_app in H as [H1 H2].
    eexists. split; [|exact H2]. exists a. split; [done|]. eapply list.Forall_impl; [exact Ha|]. intros c. unfold is_blank.
    rewrite !orb_true_iff, !N.eqb_eq. intuition.
  Qed.
  Lemma blank_nil i : i <= N.of_nat (length s) -> blank s i i.
  Proof.
    intros Hi. exists []. split; [|done]. split; [simpl; lia|]. done.
  Qed.
  Lemma rest_le i l : rest_at i l -> i <= N.of_nat (length s).
  Proof. intros (pre & -> & ->). rewrite app_length. lia. Qed.
  Lemma rest_blank i l : rest_at i l -> blank s i i.
  Proof. intros H. by eapply blank_nil, rest_le. Qed.
  Lemma is_letter_ok c : is_letter c = true -> letter c.
  Proof. unfold is_letter, letter. rewrite orb_true_iff, !andb_true_iff, !N.leb_le. tauto. Qed.
  Lemma name_sound i l n r : read_name l = Some (n, r) -> rest_at i l ->
    valid_name n /\ text s i (i + N.of_nat (length n)) n /\ rest_at (i + N.of_nat (length n)) r.
  Proof.
    destruct l as [|c l]; simpl; [done|]. destruct (is_letter c) eqn:Ec; [|done]. destruct (span _ l) as [a b] eqn:E.
    intros [= <- <-] H. apply span_sound in E as [-> Ha]. split; [|by apply (rest_app i (c :: a))].
    exists c, a. split; [done|]. split; [by apply is_letter_ok|]. eapply list.Forall_impl; [exact Ha|]. intros x. simpl.
    rewrite orb_true_iff, N.eqb_eq. intros [?%is_letter_ok|?]; auto.
  Qed.
  Lemma quoted_sound i l c r : read_quoted l = Some (c, r) -> rest_at i l -> exists j, quoted s i j c /\ rest_at j r.
  Proof.
    intros H Hl. destruct l as [|x l]; simpl in H; [done|]. destruct (N.eqb_spec x 39) as [->|]; simpl in H; [|done].
    destruct l as [|d [|y l]]; [done| |].
    - destruct (N.eqb_spec d 39) as [->|]; [|done]. injection H as <- <-. apply (rest_app i [39; 39] []) in Hl as [H1 H2].
      eexists. split; [|exact H2]. by apply q_empty.
    - destruct (N.eqb_spec y 39) as [->|]; simpl in H.
      + destruct (N.leb_spec d 255).
        * injection H as <- <-. apply (rest_app i [39; d; 39]) in Hl as [H1 H2]. eexists. split; [|exact H2]. by apply q_char.
        * destruct (N.eqb_spec d 39); [lia|]. destruct l as [|z l]; [done|]. destruct (N.eqb_spec d 92); [lia|]. done.
      + destruct (N.eqb_spec d 39) as [->|].
        { injection H as <- <-. apply (rest_app i [39; 39]) in Hl as [H1 H2]. eexists. split; [|exact H2]. by apply q_empty. }
        destruct l as [|z l]; [done|]. destruct (N.eqb_spec d 92) as [->|]; simpl in H; [|done].
        destruct (_ || _) eqn:E; simpl in H; [|done]. destruct (N.eqb_spec z 39) as [->|]; [|done]. injection H as <- <-.
        apply (rest_app i [39; 92; y; 39]) in Hl as [H1 H2]. eexists. split; [|exact H2]. apply q_escape; [done|].
        rewrite !orb_true_iff, !N.eqb_eq in E. tauto.
  Qed.
  Lemma is_digit_ok c : is_digit c = true -> digit c.
  Proof. unfold is_digit, digit. rewrite andb_true_iff, !N.leb_le. tauto. Qed.
  Lemma is_hex_ok c : is_hex c = true -> hex_char c.
  Proof. unfold is_hex, hex_char. rewrite orb_true_iff. intros [H%is_digit_ok|H]; [by left|]. rewrite andb_true_iff, !N.leb_le in H. tauto. Qed.
  Lemma hex_sound i l ds r : read_hex l = Some (ds, r) -> rest_at i l -> exists j, hexnum s i j ds /\ rest_at j r.
  Proof.
    unfold read_hex. intros H Hl. destruct (expect 48 l) as [l1|] eqn:E1; simpl in H; [|done].
    destruct (expect 120 l1) as [l2|] eqn:E2; simpl in H; [|done]. destruct (span is_hex l2) as [a b] eqn:E3.
    apply (expect_sound i) in E1 as [T1 R1]; [|done]. eapply expect_sound in E2 as [T2 R2]; [|exact R1].
    apply span_sound in E3 as [-> Ha]. apply rest_app in R2 as [T3 R3]. destruct a as [|d a]; [done|]. injection H as <- <-.
    eexists. split; [|exact R3]. split; [|split; [done|]].
    - eapply (text_app _ _ _ [48]); [exact T1|]. eapply (text_app _ _ _ [120]); [exact T2|exact T3].
    - eapply list.Forall_impl; [exact Ha|]. apply is_hex_ok.
  Qed.
  Lemma int_sound i l ds r : read_int l = Some (ds, r) -> rest_at i l -> exists j, integer s i j ds /\ rest_at j r.
  Proof.
    destruct l as [|c l]; simpl; [done|]. destruct (_ && _) eqn:Ec; [|done]. destruct (span _ l) as [a b] eqn:E.
    intros [= <- <-] H. apply span_sound in E as [-> Ha]. apply (rest_app i (c :: a)) in H as [H1 H2]. eexists. split; [|exact H2].
    split; [done|]. exists c, a. split; [done|]. rewrite andb_true_iff, !N.leb_le in Ec. split; [done|].
    eapply list.Forall_impl; [exact Ha|]. apply is_digit_ok.
  Qed.
  Lemma bound_sound i l b r : read_bound l = Some (b, r) -> rest_at i l -> exists j, bound_text s i j b /\ rest_at j r.
  Proof.
    unfold read_bound. intros H Hl. destruct (read_quoted l) as [[c r1]|] eqn:E1.
    { injection H as <- <-. eapply quoted_sound in E1 as (j & ? & ?); [|done]. exists j. split; [by apply bt_quoted|done]. }
    destruct (read_hex l) as [[ds r1]|] eqn:E2.
    { injection H as <- <-. eapply hex_sound in E2 as (j & ? & ?); [|done]. exists j. split; [by apply bt_hex|done]. }
    destruct (read_int l) as [[ds r1]|] eqn:E3; simpl in H; [|done].
    injection H as <- <-. eapply int_sound in E3 as (j & ? & ?); [|done]. exists j. split; [by apply bt_int|done].
  Qed.
  Lemma string_sound i l a r : read_string l = Some (a, r) -> rest_at i l -> exists j, text s i j (a ++ [34]) /\ string_body a /\ rest_at j r.
  Proof.
    unfold read_string. intros H Hl. destruct (span _ l) as [x y] eqn:E1. apply span_sound in E1 as [-> Ha].
    destruct (expect 34 y) as [r1|] eqn:E2; cbn [mbind option_bind] in H; [|done]. destruct (Nat.leb_spec 2 (length x)); [|done]. injection H as <- <-.
    apply rest_app in Hl as [T R]. eapply expect_sound in E2 as [T2 R2]; [|exact R].
    eexists. split; [eapply text_app; [exact T|exact T2]|]. split; [|exact R2]. split; [done|].
    eapply list.Forall_impl; [exact Ha|]. simpl. intros c. rewrite andb_true_iff, negb_true_iff, N.eqb_neq, N.leb_le. done.
  Qed.

  Ltac step H :=
    match type of H with
    | (match ?x with _ => _ end) = _ => let E := fresh "E" in destruct x eqn:E; try discriminate H
    end.
  Lemma reader_sound fuel :
    (forall i l e r, read_rhs fuel l = Some (e, r) -> rest_at i l -> exists j, rhs_text s i j e /\ rest_at j r) /\
    (forall sep i l es r, read_items fuel sep l = Some (es, r) -> rest_at i l -> exists j, items_text s sep i j es /\ rest_at j r) /\
    (forall i l e r, read_atom fuel l = Some (e, r) -> rest_at i l -> exists j, atom_text s i j e /\ rest_at j r) /\
    (forall i l e r, read_nucleus fuel l = Some (e, r) -> rest_at i l -> exists j, nucleus_text s i j e /\ rest_at j r).
  Proof.
    induction fuel as [|fuel (IH1 & IH2 & IH3 & IH4)]; [by repeat split|]. split_and!.
    - intros i l e r H Hl. cbn [read_rhs] in H. apply skip_sound in Hl as (k & Hk & Hl).
      destruct (read_atom fuel (skip l)) as [[e1 r1]|] eqn:E1; simpl in H; [|done]. eapply IH3 in E1 as (j & Ha & Hr); [|exact Hl].
      assert (H1 : exists j, rhs_text s i j e1 /\ rest_at j r1). { exists j. split; [by eapply rt_one|done]. }
      assert (Hpair : forall sep r' es r'', r1 = sep :: r' -> read_items fuel sep (skip r') = Some (es, r'') ->
        exists m, items_text s sep k m (e1 :: es) /\ es <> [] /\ rest_at m r'').
      { intros sep r' es r'' -> E. pose proof (rest_blank _ _ Hr) as Hbl. apply rest_cons in Hr as [T Hr]. apply skip_sound in Hr as (q & Hq & Hr).
        eapply IH2 in E as (m & Hm & Hrm); [|exact Hr]. exists m. split; [|split; [by inversion Hm|done]]. by eapply it_cons. }
      destruct r1 as [|c r']; [by injection H as <- <-|].
      destruct (N.eqb_spec c 44) as [->|].
      { destruct (read_items fuel 44 (skip r')) as [[es r'']|] eqn:E; simpl in H; [|done]. injection H as <- <-.
        destruct (Hpair _ _ _ _ eq_refl E) as (m & Hm & Hne & Hrm). exists m. split; [|done]. eapply rt_seq; [exact Hk|exact Hm|].
        destruct es; [done|simpl; lia]. }
      destruct (N.eqb_spec c 47) as [->|]; [|by injection H as <- <-].
      destruct (read_items fuel 47 (skip r')) as [[es r'']|] eqn:E; simpl in H; [|done]. injection H as <- <-.
      destruct (Hpair _ _ _ _ eq_refl E) as (m & Hm & Hne & Hrm). exists m. split; [|done]. eapply rt_alt; [exact Hk|exact Hm|].
      destruct es; [done|simpl; lia].
    - intros sep i l es r H Hl. cbn [read_items] in H.
      destruct (read_atom fuel l) as [[e1 r1]|] eqn:E1; simpl in H; [|done]. eapply IH3 in E1 as (j & Ha & Hr); [|exact Hl].
      assert (H1 : exists j, items_text s sep i j [e1] /\ rest_at j r1). { exists j. split; [by eapply it_one|done]. }
      destruct r1 as [|c r']; [by injection H as <- <-|]. destruct (N.eqb_spec c sep) as [->|]; [|by injection H as <- <-].
      destruct (read_items fuel sep (skip r')) as [[es' r'']|] eqn:E; simpl in H; [|done]. injection H as <- <-.
      pose proof (rest_blank _ _ Hr) as Hbl. apply rest_cons in Hr as [T Hr]. apply skip_sound in Hr as (q & Hq & Hr).
      eapply IH2 in E as (m & Hm & Hrm); [|exact Hr]. exists m. split; [|done]. by eapply it_cons.
    - intros i l e r H Hl. cbn [read_atom] in H. destruct l as [|c l]; [done|].
      destruct (N.eqb_spec c 38) as [->|].
      { apply rest_cons in Hl as [T Hl]. destruct (read_nucleus fuel l) as [[e1 r1]|] eqn:E; simpl in H; [|done]. injection H as <- <-.
        eapply IH4 in E as (j & Hj & Hr); [|exact Hl]. apply skip_sound in Hr as (k & Hk & Hr). exists k. split; [by eapply at_and|done]. }
      destruct (N.eqb_spec c 33) as [->|].
      { apply rest_cons in Hl as [T Hl]. destruct (read_nucleus fuel l) as [[e1 r1]|] eqn:E; simpl in H; [|done]. injection H as <- <-.
        eapply IH4 in E as (j & Hj & Hr); [|exact Hl]. apply skip_sound in Hr as (k & Hk & Hr). exists k. split; [by eapply at_not|done]. }
      destruct (read_nucleus fuel (c :: l)) as [[e1 r1]|] eqn:E; simpl in H; [|done].
      eapply IH4 in E as (j & Hj & Hr); [|exact Hl]. apply skip_sound in Hr as (k & Hk & Hr).
      assert (H1 : exists j, atom_text s i j e1 /\ rest_at j (skip r1)). { exists k. split; [by eapply at_plain|done]. }
      destruct (skip r1) as [|d r']; [by injection H as <- <-|].
      destruct (N.eqb_spec d 43) as [->|].
      { injection H as <- <-. apply rest_cons in Hr as [T Hr]. apply skip_sound in Hr as (m & Hm & Hr). exists m. split; [by eapply at_plus|done]. }
      destruct (N.eqb_spec d 42) as [->|].
      { injection H as <- <-. apply rest_cons in Hr as [T Hr]. apply skip_sound in Hr as (m & Hm & Hr). exists m. split; [by eapply at_star|done]. }
      destruct (N.eqb_spec d 63) as [->|]; [|by injection H as <- <-].
      injection H as <- <-. apply rest_cons in Hr as [T Hr]. apply skip_sound in Hr as (m & Hm & Hr). exists m. split; [by eapply at_opt|done].
    - intros i l e r H Hl. cbn [read_nucleus] in H. destruct l as [|c l]; [done|]. pose proof (rest_blank _ _ Hl) as Hbl.
      destruct (N.eqb_spec c 91) as [->|].
      { apply rest_cons in Hl as [T Hl]. apply skip_sound in Hl as (k & Hk & Hl).
        destruct (read_bound (skip l)) as [[a r1]|] eqn:E1; simpl in H; [|done]. eapply bound_sound in E1 as (k1 & B1 & R1); [|done].
        destruct (expect 46 r1) as [r2|] eqn:E2; simpl in H; [|done]. eapply expect_sound in E2 as (T2 & R2); [|done].
        destruct (expect 46 r2) as [r3|] eqn:E3; simpl in H; [|done]. eapply expect_sound in E3 as (T3 & R3); [|done].
        destruct (read_bound r3) as [[b r4]|] eqn:E4; simpl in H; [|done]. eapply bound_sound in E4 as (k4 & B4 & R4); [|done].
        apply skip_sound in R4 as (k5 & Hk5 & R5).
        destruct (expect 93 (skip r4)) as [r6|] eqn:E6; simpl in H; [|done]. eapply expect_sound in E6 as (T6 & R6); [|done].
        injection H as <- <-. apply skip_sound in R6 as (k7 & Hk7 & R7). exists k7. split; [|done].
        eapply nt_range; try done. eapply (text_app _ _ _ [46] [46]); [exact T2|exact T3]. }
      destruct (N.eqb_spec c 40) as [->|].
      { apply rest_cons in Hl as [T Hl]. destruct (read_rhs fuel l) as [[e1 r1]|] eqn:E1; simpl in H; [|done].
        eapply IH1 in E1 as (j & Hj & R1); [|done]. destruct (expect 41 r1) as [r2|] eqn:E2; simpl in H; [|done].
        eapply expect_sound in E2 as (T2 & R2); [|done]. injection H as <- <-. apply skip_sound in R2 as (k & Hk & R). exists k.
        split; [by eapply nt_group|done]. }
      destruct (N.eqb_spec c 34) as [->|].
      { apply rest_cons in Hl as [T Hl]. destruct (read_string l) as [[a r1]|] eqn:E1; simpl in H; [|done].
        eapply string_sound in E1 as (j & Hj & Hb & R1); [|done]. injection H as <- <-. apply skip_sound in R1 as (k & Hk & R). exists k.
        split; [|done]. eapply nt_string; [|exact Hb|exact Hk]. by eapply (text_app _ _ _ [34]). }
      destruct (N.eqb_spec c 60) as [->|].
      { apply rest_cons in Hl as [T Hl]. destruct (read_name l) as [[a r1]|] eqn:E1; simpl in H; [|done].
        eapply name_sound in E1 as (V & T1 & R1); [|done]. destruct (expect 62 r1) as [r2|] eqn:E2; simpl in H; [|done].
        eapply expect_sound in E2 as (T2 & R2); [|done]. injection H as <- <-. apply skip_sound in R2 as (k & Hk & R). exists k.
        split; [|done]. eapply nt_ref; [|exact V|exact Hk]. eapply (text_app _ _ _ [60]); [exact T|]. eapply text_app; [exact T1|exact T2]. }
      destruct (N.eqb_spec c 39) as [->|].
      { destruct (read_quoted _) as [[q r1]|] eqn:E1; [|done]. cbn [mbind option_bind] in H. eapply quoted_sound in E1 as (j & Q & R1); [|exact Hl].
        injection H as <- <-. apply skip_sound in R1 as (k & Hk & R). exists k. split; [by eapply nt_quoted|done]. }
      destruct (N.eqb_spec c 48) as [->|].
      { destruct (read_hex _) as [[q r1]|] eqn:E1; [|done]. cbn [mbind option_bind] in H. eapply hex_sound in E1 as (j & Q & R1); [|exact Hl].
        injection H as <- <-. apply skip_sound in R1 as (k & Hk & R). exists k. split; [by eapply nt_hex|done]. }
      destruct (is_letter c) eqn:Ec.
      { destruct (read_name _) as [[a r1]|] eqn:E1; [|done]. cbn [mbind option_bind] in H. eapply name_sound in E1 as (V & T1 & R1); [|exact Hl].
        destruct (expect 40 r1) as [r2|] eqn:E2; simpl in H; [|done]. eapply expect_sound in E2 as (T2 & R2); [|done].
        destruct (read_rhs fuel r2) as [[e1 r3]|] eqn:E3; simpl in H; [|done]. eapply IH1 in E3 as (j & Hj & R3); [|done].
        destruct (expect 41 r3) as [r4|] eqn:E4; simpl in H; [|done]. eapply expect_sound in E4 as (T4 & R4); [|done].
        injection H as <- <-. apply skip_sound in R4 as (k & Hk & R). exists k. split; [|done]. by eapply nt_hook. }
      destruct (read_int _) as [[q r1]|] eqn:E1; [|done]. cbn [mbind option_bind] in H. eapply int_sound in E1 as (j & Q & R1); [|exact Hl].
      injection H as <- <-. apply skip_sound in R1 as (k & Hk & R). exists k. split; [by eapply nt_int|done].
  Qed.
  Lemma comments_sound fuel : forall i l cs r, read_comments fuel l = Some (cs, r) -> rest_at i l -> exists j, comments_text s i j cs /\ rest_at j r.
  Proof.
    induction fuel as [|fuel IH]; intros i l cs r H Hl; [done|]. cbn [read_comments] in H. pose proof Hl as Hl'.
    apply skip_sound in Hl as (k & Hk & Hl). destruct (expect 35 (skip l)) as [r1|] eqn:E1.
    2:{ injection H as <- <-. exists i. split; [constructor|done]. }
    eapply expect_sound in E1 as (T1 & R1); [|done]. destruct (span _ r1) as [a r2] eqn:E2. apply span_sound in E2 as [-> Ha].
    apply rest_app in R1 as [T2 R2]. destruct (expect 35 r2) as [r3|] eqn:E3; simpl in H; [|done]. eapply expect_sound in E3 as (T3 & R3); [|done].
    apply skip_sound in R3 as (m & Hm & R3). destruct (read_comments fuel (skip r3)) as [[cs' r4]|] eqn:E4; simpl in H; [|done].
    injection H as <- <-. eapply IH in E4 as (j & Hj & R4); [|done]. exists j. split; [|done]. eapply ct_cons; [|exact Hj].
    eexists _, _. split; [exact Hk|]. split; [eapply (text_app _ _ _ [35]); [exact T1|eapply text_app; [exact T2|exact T3]]|]. split; [|exact Hm].
    eapply list.Forall_impl; [exact Ha|]. simpl. intros c. rewrite andb_true_iff, negb_true_iff, N.eqb_neq, N.leb_le. done.
  Qed.
  Lemma rule_sound fuel i l ru r : read_rule fuel l = Some (ru, r) -> rest_at i l -> exists j, rule_text s i j ru /\ rest_at j r.
  Proof.
    unfold read_rule. intros H Hl. destruct (expect 60 l) as [r1|] eqn:E1; cbn [mbind option_bind] in H; [|done]. eapply expect_sound in E1 as (T1 & R1); [|done].
    destruct (read_name r1) as [[n r2]|] eqn:E2; cbn [mbind option_bind] in H; [|done]. eapply name_sound in E2 as (V & T2 & R2); [|done].
    destruct (expect 62 r2) as [r3|] eqn:E3; cbn [mbind option_bind] in H; [|done]. eapply expect_sound in E3 as (T3 & R3); [|done].
    set (kw := match expects keyword_inline (skip r3) with Some r' => (true, skip r') | None => (false, r3) end) in H.
    assert (exists b, rest_at b (snd kw) /\ (if fst kw : bool then exists x y, blank s (i + 1 + N.of_nat (length n) + 1) x /\ text s x y keyword_inline /\ blank s y b else b = i + 1 + N.of_nat (length n) + 1)) as (b & Rb & Hb).
    { subst kw. destruct (expects keyword_inline (skip r3)) as [r4|] eqn:E4; [|by eexists].
      pose proof R3 as R3'. apply skip_sound in R3' as (x & Hx & Rx). eapply expects_sound in E4 as (T4 & R4); [|exact Rx].
      apply skip_sound in R4 as (b & Hb & Rb). exists b. split; [done|]. cbn [fst]. exists x. eexists. split; [exact Hx|]. split; [exact T4|exact Hb]. }
    clearbody kw. destruct kw as [il r4]. cbn [fst snd] in *. cbv beta iota in H. apply skip_sound in Rb as (c & Hc & Rc).
    destruct (expect 61 (skip r4)) as [r5|] eqn:E5; cbn [mbind option_bind] in H; [|done]. eapply expect_sound in E5 as (T5 & R5); [|done].
    apply skip_sound in R5 as (d & Hd & Rd). destruct (read_rhs fuel (skip r5)) as [[e r6]|] eqn:E6; cbn [mbind option_bind] in H; [|done].
    eapply reader_sound in E6 as (x & Hx & Rx); [|done]. apply skip_sound in Rx as (f & Hf & Rf).
    destruct (expect 59 (skip r6)) as [r7|] eqn:E7; cbn [mbind option_bind] in H; [|done]. eapply expect_sound in E7 as (T7 & R7); [|done].
    apply skip_sound in R7 as (g & Hg & Rg). destruct (read_comments fuel (skip r7)) as [[cs r8]|] eqn:E8; cbn [mbind option_bind] in H; [|done].
    injection H as <- <-. eapply comments_sound in E8 as (j & Hj & Rj); [|done]. exists j. split; [|done].
    eexists _, b, c, d, x, f, g. split_and!; try done.
    eapply (text_app _ _ _ [60]); [exact T1|]. eapply text_app; [exact T2|exact T3].
  Qed.
  Lemma rest_end i : rest_at i [] -> i = N.of_nat (length s).
  Proof. intros (pre & -> & ->). by rewrite app_nil_r. Qed.
  Lemma rule_list_sound fuel : forall i l rs, read_rule_list fuel l = Some rs -> rest_at i l ->
    exists j, rules_text s i j rs /\ blank s j (N.of_nat (length s)).
  Proof.
    induction fuel as [|fuel IH]; intros i l rs H Hl; [done|]. cbn [read_rule_list] in H. destruct l as [|c l].
    { injection H as <-. exists i. split; [constructor|]. pose proof (rest_blank _ _ Hl) as Hb. by rewrite (rest_end _ Hl) in Hb |- *. }
    destruct (read_rule (S fuel) (c :: l)) as [[r l1]|] eqn:E.
    - eapply rule_sound in E as (j & Hj & Rj); [|done]. destruct (read_rule_list fuel l1) as [rs'|] eqn:E1; simpl in H; [|done].
      injection H as <-. eapply IH in E1 as (k & Hk & Hb); [|done]. exists k. split; [by eapply ru_cons|done].
    - apply skip_sound in Hl as (k & Hk & Rk). destruct (skip (c :: l)); [|done]. injection H as <-. exists i. split; [constructor|].
      by rewrite (rest_end _ Rk) in Hk.
  Qed.
End sound.

Theorem read_rules_sound s rules : read_rules s = Some rules -> file_text s rules.
Proof.
  unfold read_rules. intros H. destruct (read_rule_list (length s) s) as [[|r rs]|] eqn:E; try done. injection H as <-.
  eapply (rule_list_sound s _ 0) in E as (j & Hj & Hb); [|by exists []]. exists j. done.
Qed.
