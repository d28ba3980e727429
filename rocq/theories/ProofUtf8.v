(** Slicing UTF-8 text next to ASCII bytes never panics. *)
From Verif Require Import SpecUtf8 SpecCompile ProofPeg ProofTree ProofTrace ProofDsl ProofBuild.

Lemma utf8_head s c : utf8 s -> s !! 0%nat = Some c -> ~ continuation c.
Proof. unfold continuation. intros [] E; simpl in E; simplify_eq; lia. Qed.
Lemma utf8_next s : utf8 s -> forall i c d, s !! i = Some c -> c < 128 -> s !! S i = Some d -> ~ continuation d.
Proof.
  induction 1 as [|a l Ha Hl IH|a b l Ha Hb Hl IH|a b c0 l Ha Hb Hc Hl IH|a b c0 d0 l Ha Hb Hc Hd Hl IH];
    intros i c d Hi Hlt Hn; unfold continuation in *.
  - done.
  - destruct i as [|i]; [exact (utf8_head _ _ Hl Hn)|exact (IH _ _ _ Hi Hlt Hn)].
  - do 2 (destruct i as [|i]; [injection Hi as ->; lia|]). exact (IH _ _ _ Hi Hlt Hn).
  - do 3 (destruct i as [|i]; [injection Hi as ->; lia|]). exact (IH _ _ _ Hi Hlt Hn).
  - do 4 (destruct i as [|i]; [injection Hi as ->; lia|]). exact (IH _ _ _ Hi Hlt Hn).
Qed.
Lemma boundary_at s i c : s !! N.to_nat i = Some c -> c < 128 -> is_char_boundary s i = true.
Proof.
  intros H Hc. unfold is_char_boundary. rewrite H. destruct (N.leb_spec 128 c); [lia|]. simpl. by destruct (i =? 0).
Qed.
Lemma boundary_after s i c : utf8 s -> s !! N.to_nat i = Some c -> c < 128 -> is_char_boundary s (i + 1) = true.
Proof.
  intros Hu H Hc. unfold is_char_boundary. destruct (N.eqb_spec (i + 1) 0); [lia|].
  replace (N.to_nat (i + 1)) with (S (N.to_nat i)) by lia.
  destruct (s !! S (N.to_nat i)) as [d|] eqn:E.
  - pose proof (utf8_next _ Hu _ _ _ H Hc E) as Hn. unfold continuation in Hn.
    destruct (N.leb_spec 128 d); [|done]. destruct (N.ltb_spec d 192); [lia|done].
  - apply lookup_ge_None in E. apply lookup_lt_Some in H. apply N.eqb_eq. lia.
Qed.
Lemma slice_ok s i j l : text s i j l -> i <= N.of_nat (length s) -> is_char_boundary s i = true -> is_char_boundary s j = true -> slice_str s i j = Ok l.
Proof.
  intros [-> H] Hi H1 H2. unfold slice_str. rewrite H1, H2.
  assert (Hb : i + N.of_nat (length l) <= N.of_nat (length s)).
  { destruct l as [|c l]; [simpl; lia|]. pose proof (occurs_at_bound _ _ _ H ltac:(done)). lia. }
  destruct (N.leb_spec i (i + N.of_nat (length l))); [|lia].
  destruct (N.leb_spec (i + N.of_nat (length l)) (N.of_nat (length s))); [|lia]. simpl.
  replace (N.to_nat (i + N.of_nat (length l) - i)) with (length l) by lia. by rewrite occurs_at_slice.
Qed.
(** Text delimited by ASCII bytes. *)
Lemma delimited s i j a l z : text s i j (a :: l ++ [z]) ->
  s !! N.to_nat i = Some a /\ s !! N.to_nat (j - 1) = Some z /\ text s (i + 1) (j - 1) l /\ j = i + N.of_nat (length l) + 2 /\ j <= N.of_nat (length s).
Proof.
  intros H. pose proof H as [Hj Ho]. simpl in Hj. rewrite app_length in Hj. simpl in Hj.
  pose proof (occurs_at_bound _ _ _ Ho ltac:(done)) as Hb. simpl in Hb. rewrite app_length in Hb. simpl in Hb.
  change (a :: l ++ [z]) with ([a] ++ l ++ [z]) in H.
  apply text_app_inv in H as [H1 H]. apply text_app_inv in H as [H2 H3]. simpl in *.
  replace (j - 1) with (i + 1 + N.of_nat (length l)) by lia.
  split; [by apply text_one|]. split; [|split; [done|lia]].
  replace j with (i + 1 + N.of_nat (length l) + 1) in H3 by lia. by apply text_one.
Qed.
Lemma slice_delimited s i j a l z : utf8 s -> a < 128 -> z < 128 -> text s i j (a :: l ++ [z]) ->
  slice_str s i j = Ok (a :: l ++ [z]) /\ slice_str s (i + 1) (j - 1) = Ok l.
Proof.
  intros Hu Ha Hz H. destruct (delimited _ _ _ _ _ _ H) as (H1 & H2 & H3 & Hj & Hb). split.
  - apply slice_ok; [done|lia|by eapply boundary_at|].
    replace j with (j - 1 + 1) by lia. by eapply boundary_after.
  - apply slice_ok; [done|lia|by eapply boundary_after|by eapply boundary_at].
Qed.
Lemma inner_ok s r i j b F a c z : utf8 s -> a < 128 -> z < 128 -> text s i j (a :: c ++ [z]) ->
  inner_text s (TNode r i j b F) = Ok c.
Proof.
  intros Hu Ha Hz H. unfold inner_text, usub. simpl.
  destruct (delimited _ _ _ _ _ _ H) as (_ & _ & _ & Hj & _). destruct (N.leb_spec 1 j); [|lia]. simpl.
  by destruct (slice_delimited _ _ _ _ _ _ Hu Ha Hz H).
Qed.
(** Names are ASCII. *)
Lemma valid_name_ascii n : valid_name n -> is_ascii n.
Proof.
  intros (c & r & -> & Hc & Hr). constructor; [unfold letter in Hc; lia|]. eapply list.Forall_impl; [exact Hr|].
  intros x [Hx| ->]; unfold letter in *; lia.
Qed.
Lemma ref_name_ok s r i j b F n : utf8 s -> text s i j (60 :: n ++ [62]) -> valid_name n ->
  ref_name s (TNode r i j b F) = Ok n.
Proof.
  intros Hu Ht Hv. unfold ref_name, tree_text. simpl.
  destruct (slice_delimited _ _ _ _ _ _ Hu (eq_refl : 60 < 128) (eq_refl : 62 < 128) Ht) as [-> _]. cbn [rbind].
  assert (HL : N.of_nat (length (60 :: n ++ [62])) = N.of_nat (length n) + 2) by (simpl; rewrite app_length; simpl; lia).
  rewrite HL. unfold usub. destruct (N.leb_spec 1 (N.of_nat (length n) + 2)); [|lia]. cbn [rbind].
  rewrite ascii_slice.
  - f_equal. change (drop (N.to_nat 1) (60 :: n ++ [62])) with (n ++ [62]).
    match goal with |- take ?x _ = _ => replace x with (length n) by lia end. apply take_app.
  - constructor; [done|]. apply Forall_app. split; [by apply valid_name_ascii|by repeat constructor].
  - rewrite HL. lia.
Qed.
