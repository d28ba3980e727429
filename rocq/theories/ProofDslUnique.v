(** A file spells at most one list of rules. *)
From Verif Require Import Programs SpecDsl SpecProgram SpecLR SpecTerm ProofPeg ProofTree ProofTrace.
From Verif Require Import ProofComplete ProofFuel ProofTree2 ProofSafe SpecSession TheoremsKernel TheoremsPackrat.
From Verif Require Import ProofPegTotal Checks TheoremsTotal ProofDsl ProofDslComplete.

Section unique.
  Context (s : list N).
  Notation ok e i j := (peg dsl_g s e i (Some j)).
  Notation at_ i := (s !! N.to_nat i).
  Notation sk := (sk s).
  Notation follow := (follow s).

  Lemma text_fun i j l l' : text s i j l -> text s i j l' -> l = l'.
  Proof.
    intros [H1 H2] [H3 H4]. assert (E : length l = length l') by lia. unfold occurs_at in *. rewrite <- E in H4. congruence.
  Qed.
  Lemma text_at i j l k : text s i j l -> (k < length l)%nat -> at_ (i + N.of_nat k) = l !! k.
  Proof.
    revert i k. induction l as [|c l IH]; intros i k Ht Hk; [simpl in Hk; lia|]. apply text_cons_inv in Ht as [H1 H2].
    destruct k as [|k]; simpl; [by rewrite N.add_0_r|]. rewrite <- (IH (i + 1) k); [|done|simpl in Hk; lia]. f_equal. lia.
  Qed.
  Lemma ok_det e i j j' : ok e i j -> ok e i j' -> j = j'.
  Proof. intros H H'. pose proof (peg_det _ _ _ _ _ _ H H'). congruence. Qed.
  (** Delimited text without the delimiter inside. *)
  Lemma delimited q i j j' l l' : text s i j (l ++ [q]) -> text s i j' (l' ++ [q]) -> Forall (fun c => c <> q /\ c <= 255) l ->
    Forall (fun c => c <> q /\ c <= 255) l' -> l = l' /\ j = j'.
  Proof.
    assert (Hlt : forall l l' j j', text s i j (l ++ [q]) -> text s i j' (l' ++ [q]) -> Forall (fun c => c <> q /\ c <= 255) l' -> (length l < length l')%nat -> False).
    { clear. intros l l' j j' H H' HF Hl. pose proof (text_at _ _ _ (length l) H) as E. rewrite app_length in E. simpl in E. specialize (E ltac:(lia)).
      rewrite lookup_app_r, Nat.sub_diag in E by lia. pose proof (text_at _ _ _ (length l) H') as E'. rewrite app_length in E'. simpl in E'. specialize (E' ltac:(lia)).
      rewrite lookup_app_l in E' by lia. simpl in E. rewrite E in E'. symmetry in E'. rewrite list.Forall_forall in HF. apply elem_of_list_lookup_2, HF in E'. by destruct E'. }
    intros H H' HF HF'. destruct (Nat.lt_trichotomy (length l) (length l')) as [Hl|[Hl|Hl]].
    - exfalso. exact (Hlt l l' j j' H H' HF' Hl).
    - assert (j = j') as <-. { destruct H as [-> _], H' as [-> _]. rewrite !app_length. lia. }
      pose proof (text_fun _ _ _ _ H H') as E. by apply app_inj_tail in E as [-> _].
    - exfalso. exact (Hlt l' l j' j H' H HF Hl).
  Qed.
  Lemma name_unique i j j' n n' : text s i j n -> text s i j' n' -> valid_name n -> valid_name n' -> at_ j = Some 40 -> at_ j' = Some 40 -> n = n' /\ j = j'.
  Proof.
    intros H H' Hv Hv' Hc Hc'. assert (j = j') as <-; [|split; [by eapply text_fun|done]].
    eapply ok_det; (eapply ok_name; [eassumption|done|eassumption|unfold letter; lia|done]).
  Qed.
  Lemma ref_unique i j j' n n' : text s i j (60 :: n ++ [62]) -> text s i j' (60 :: n' ++ [62]) -> valid_name n -> valid_name n' -> n = n' /\ j = j'.
  Proof.
    intros H H' Hv Hv'. assert (j = j') as <-.
    { eapply ok_det; (eapply ok_ref_name; [by left|eassumption|done]). }
    split; [|done]. pose proof (text_fun _ _ _ _ H H') as E. injection E as E. by apply app_inj_tail in E as [-> _].
  Qed.
  Lemma quoted_unique i j j' c c' d d' : quoted s i j c -> quoted s i j' c' -> at_ j = Some d -> at_ j' = Some d' -> d <> 39 -> d' <> 39 -> c = c' /\ j = j'.
  Proof.
    intros H H' Hd Hd' N N'. assert (j = j') as <- by (eapply ok_det; eapply ok_terminal; eassumption). split; [|done].
    destruct H as [c Ht _|c Ht _|Ht]; destruct H' as [c' Ht' _|c' Ht' _|Ht'];
      pose proof (text_fun _ _ _ _ Ht Ht') as E; congruence.
  Qed.
  Lemma hex_unique i j j' c c' d d' : hexnum s i j c -> hexnum s i j' c' -> at_ j = Some d -> at_ j' = Some d' -> ~ hex_char d -> ~ hex_char d' -> c = c' /\ j = j'.
  Proof.
    intros H H' Hd Hd' N N'. assert (j = j') as <- by (eapply ok_det; eapply ok_hex; eassumption). split; [|done].
    destruct H as (Ht & _), H' as (Ht' & _). pose proof (text_fun _ _ _ _ Ht Ht') as E. congruence.
  Qed.
  Lemma int_unique i j j' c c' d d' : integer s i j c -> integer s i j' c' -> at_ j = Some d -> at_ j' = Some d' -> ~ digit d -> ~ digit d' -> c = c' /\ j = j'.
  Proof.
    intros H H' Hd Hd' N N'. assert (j = j') as <- by (eapply ok_det; eapply ok_int; eassumption). split; [|done].
    destruct H as (Ht & _), H' as (Ht' & _). by pose proof (text_fun _ _ _ _ Ht Ht') as E.
  Qed.
  Lemma bound_unique i j j' x x' d d' : bound_text s i j x -> bound_text s i j' x' -> at_ j = Some d -> at_ j' = Some d' ->
    d <> 39 -> d' <> 39 -> ~ hex_char d -> ~ hex_char d' -> x = x' /\ j = j'.
  Proof.
    intros H H' Hd Hd' N N' M M'.
    assert (Hdig : forall x, ~ hex_char x -> ~ digit x) by (unfold hex_char, digit; intros; lia).
    assert (Hq : forall i j c, quoted s i j c -> at_ i = Some 39) by (intros ? ? ? [? Ht _|? Ht _|Ht]; by apply text_cons_inv in Ht as [Ht _]).
    assert (Hh : forall i j c, hexnum s i j c -> at_ i = Some 48) by (intros ? ? ? (Ht & _); by apply text_cons_inv in Ht as [Ht _]).
    assert (Hi : forall i j c, integer s i j c -> exists a, at_ i = Some a /\ 49 <= a <= 57) by (intros; by eapply int_first).
    destruct H as [c Hc|c Hc|c Hc]; destruct H' as [c' Hc'|c' Hc'|c' Hc'].
    - destruct (quoted_unique _ _ _ _ _ _ _ Hc Hc' Hd Hd' N N') as [-> ->]. done.
    - apply Hq in Hc. apply Hh in Hc'. congruence.
    - apply Hq in Hc. apply Hi in Hc' as (a & Ha & Hr). assert (a = 39) by congruence. lia.
    - apply Hh in Hc. apply Hq in Hc'. congruence.
    - destruct (hex_unique _ _ _ _ _ _ _ Hc Hc' Hd Hd' M M') as [-> ->]. done.
    - apply Hh in Hc. apply Hi in Hc' as (a & Ha & Hr). assert (a = 48) by congruence. lia.
    - apply Hq in Hc'. apply Hi in Hc as (a & Ha & Hr). assert (a = 39) by congruence. lia.
    - apply Hh in Hc'. apply Hi in Hc as (a & Ha & Hr). assert (a = 48) by congruence. lia.
    - destruct (int_unique _ _ _ _ _ _ _ Hc Hc' Hd Hd' (Hdig _ M) (Hdig _ M')) as [-> ->]. done.
  Qed.

  (** The first byte tells the kind of nucleus. *)
  Definition kind (e : dexp) (c : N) : Prop :=
    match e with
    | DRange _ _ => c = 91 | DHook _ _ => letter c | DGroup _ => c = 40 | DQuoted _ => c = 39
    | DString _ => c = 34 | DHexLit _ => c = 48 | DIntLit _ => 49 <= c <= 57 | DRef _ => c = 60
    | _ => False
    end.
  Lemma letter_not_blank c : letter c -> is_blank c = false.
  Proof. intros H. destruct (is_blank c) eqn:E; [|done]. apply is_blank_iff in E. unfold letter in H. lia. Qed.
  Lemma digit_not_blank c : 49 <= c <= 57 -> is_blank c = false.
  Proof. intros H. destruct (is_blank c) eqn:E; [|done]. apply is_blank_iff in E. lia. Qed.
  Lemma nucleus_first i k e : nucleus_text s i k e -> exists c, at_ (sk i) = Some c /\ kind e c /\ (sk i = i \/ exists x y, e = DRange x y).
  Proof.
    intros [i' a b c d e' f k' x y H1 H2 _ _ _ _ _ _ _|i' a b k' n e' (x & r & -> & Hx & _) Ht _ _ _ _|i' b k' e' Ht _ _ _|i' j k' c Hq _|i' j k' l Ht _ _|i' j k' ds (Ht & _) _|i' j k' ds Hi _|i' j k' n Ht _ _].
    - apply text_one in H2. exists 91. rewrite (sk_blank _ _ _ H1), (sk_here _ _ _ H2 eq_refl). split; [done|]. split; [done|]. right. eauto.
    - apply text_cons_inv in Ht as [Ht _]. exists x. rewrite (sk_here _ _ _ Ht (letter_not_blank _ Hx)). simpl. auto.
    - apply text_one in Ht. exists 40. rewrite (sk_here _ _ _ Ht eq_refl). simpl. auto.
    - assert (Ht : at_ i' = Some 39) by (destruct Hq as [? Ht _|? Ht _|Ht]; by apply text_cons_inv in Ht as [Ht _]).
      exists 39. rewrite (sk_here _ _ _ Ht eq_refl). simpl. auto.
    - apply text_cons_inv in Ht as [Ht _]. exists 34. rewrite (sk_here _ _ _ Ht eq_refl). simpl. auto.
    - apply text_cons_inv in Ht as [Ht _]. exists 48. rewrite (sk_here _ _ _ Ht eq_refl). simpl. auto.
    - apply int_first in Hi as (a & Ha & Hr). exists a. rewrite (sk_here _ _ _ Ha (digit_not_blank _ Hr)). simpl. auto.
    - apply text_cons_inv in Ht as [Ht _]. exists 60. rewrite (sk_here _ _ _ Ht eq_refl). simpl. auto.
  Qed.
  Lemma nucleus_pos i k e i' k' e' : nucleus_text s i k e -> nucleus_text s i' k' e' -> sk i = sk i' -> follow FN k -> follow FN k' -> sk k = sk k'.
  Proof.
    intros H H' E Hf Hf'. destruct (nucleus_accepted s _ _ _ H Hf (sk i) (or_intror eq_refl)) as [_ H1].
    destruct (nucleus_accepted s _ _ _ H' Hf' (sk i') (or_intror eq_refl)) as [_ H2]. rewrite <- E in H2. by eapply ok_det.
  Qed.
  Lemma atom_pos i k e i' k' e' : atom_text s i k e -> atom_text s i' k' e' -> sk i = sk i' -> follow FA k -> follow FA k' -> sk k = sk k'.
  Proof.
    intros H H' E Hf Hf'. pose proof (atom_accepted s _ _ _ H Hf (sk i) (or_intror eq_refl)) as H1.
    pose proof (atom_accepted s _ _ _ H' Hf' (sk i') (or_intror eq_refl)) as H2. rewrite <- E in H2. by eapply ok_det.
  Qed.

  Definition UN (i k : N) (e : dexp) : Prop := follow FN k -> forall i' k' e', sk i = sk i' -> nucleus_text s i' k' e' -> follow FN k' -> e = e'.
  Definition UA (i k : N) (e : dexp) : Prop := follow FA k -> forall i' k' e', sk i = sk i' -> atom_text s i' k' e' -> follow FA k' -> e = e'.
  Definition UI (sep i m : N) (es : list dexp) : Prop := sep ∈ [44; 47] -> follow FR m -> forall i' m' es', sk i = sk i' ->
    items_text s sep i' m' es' -> follow FR m' -> es = es'.
  Definition UR (i j : N) (e : dexp) : Prop := follow FR j -> forall i' j' e', sk i = sk i' -> rhs_text s i' j' e' -> follow FR j' -> e = e'.

  (** Nuclei of different kinds differ in their first byte. *)
  Lemma same_kind i k e i' k' e' : nucleus_text s i k e -> nucleus_text s i' k' e' -> sk i = sk i' -> exists c, kind e c /\ kind e' c.
  Proof.
    intros H H' E. destruct (nucleus_first _ _ _ H) as (c & Hc & HK & _). destruct (nucleus_first _ _ _ H') as (c' & Hc' & HK' & _).
    exists c. split; [done|]. rewrite E in Hc. assert (c = c') as -> by congruence. done.
  Qed.
  Ltac kinds := match goal with H : exists c, kind _ c /\ kind _ c |- _ => let c := fresh "c" in let H1 := fresh "K" in let H2 := fresh "K" in
    destruct H as (c & H1 & H2); simpl in H1, H2; unfold letter in H1, H2; exfalso; (lia || done) end.
  Lemma starts_here i e k : nucleus_text s i k e -> (forall x y, e <> DRange x y) -> sk i = i.
  Proof. intros H Hn. destruct (nucleus_first _ _ _ H) as (c & _ & _ & [?|(x & y & ->)]); [done|by destruct (Hn x y)]. Qed.
  Lemma same_start i k e i' k' e' : nucleus_text s i k e -> nucleus_text s i' k' e' -> sk i = sk i' ->
    (forall x y, e <> DRange x y) -> (forall x y, e' <> DRange x y) -> i = i'.
  Proof. intros H H' E Hn Hn'. by rewrite (starts_here _ _ _ H Hn), (starts_here _ _ _ H' Hn') in E. Qed.
  Lemma after_bracket e f : blank s e f -> at_ f = Some 93 -> exists v, at_ e = Some v /\ v <> 39 /\ ~ hex_char v.
  Proof.
    intros H7 H8. destruct (after s [93] e) as (v & Hv & HL). { eapply follow_blank; [exact H7|]. by eapply follow_at; [exact H8|done|left]. }
    exists v. split; [done|]. unfold hex_char. destruct HL as [Hb|HL]; [apply is_blank_iff in Hb; lia|apply elem_of_list_singleton in HL as ->; lia].
  Qed.
  Lemma bound_start b x c : bound_text s b c x -> sk b = b.
  Proof.
    destruct 1 as [? Hq|? Hx|? Hx].
    - destruct Hq as [? Ht _|? Ht _|Ht]; apply text_cons_inv in Ht as [Ht _]; by eapply sk_here.
    - destruct Hx as (Ht & _); apply text_cons_inv in Ht as [Ht _]; by eapply sk_here.
    - apply int_first in Hx as (v & Hv & Hr). eapply sk_here; [exact Hv|]. by apply digit_not_blank.
  Qed.

  Lemma blank_start i j c : blank s i j -> at_ j = Some c -> is_blank c = false -> sk i = j.
  Proof. intros H Hc Hb. rewrite (sk_blank _ _ _ H). by eapply sk_here. Qed.
  Lemma u_range i a b c d e f k x y :
    blank s i a -> text s a (a + 1) [91] -> blank s (a + 1) b -> bound_text s b c x ->
    text s c d [46; 46] -> bound_text s d e y -> blank s e f -> text s f (f + 1) [93] -> blank s (f + 1) k -> UN i k (DRange x y).
  Proof.
    intros H1 H2 H3 H4 H5 H6 H7 H8 H9 Hf i' k' e' Es Hn' Hf'.
    assert (Hn : nucleus_text s i k (DRange x y)) by (by eapply nt_range).
    pose proof (same_kind _ _ _ _ _ _ Hn Hn' Es) as HK.
    inversion Hn' as [i2 a' b' c' d' e'' f' k2 x' y' G1 G2 G3 G4 G5 G6 G7 G8 G9| | | | | | |]; subst; try kinds.
    apply text_one in H2, G2, H8, G8.
    assert (a = a') as <-. { rewrite (blank_start _ _ _ H1 H2 eq_refl), (blank_start _ _ _ G1 G2 eq_refl) in Es. done. }
    assert (b = b') as <-. { rewrite <- (bound_start _ _ _ H4), <- (bound_start _ _ _ G4). by rewrite <- (sk_blank _ _ _ H3), <- (sk_blank _ _ _ G3). }
    pose proof H5 as [H5a _]%text_cons_inv. pose proof G5 as [G5a _]%text_cons_inv.
    destruct (bound_unique _ _ _ _ _ _ _ H4 G4 H5a G5a ltac:(done) ltac:(done)) as [<- <-]; [unfold hex_char; lia..|].
    assert (d = d') as <- by (destruct H5 as [-> _], G5 as [-> _]; done).
    destruct (after_bracket _ _ H7 H8) as (v & Hv & N1 & N2). destruct (after_bracket _ _ G7 G8) as (v' & Hv' & N1' & N2').
    by destruct (bound_unique _ _ _ _ _ _ _ H6 G6 Hv Hv' N1 N1' N2 N2') as [<- _].
  Qed.
  Lemma follow_close b : text s b (b + 1) [41] -> follow FR b.
  Proof. intros H. apply text_one in H. eapply follow_at; [exact H|done|left]. Qed.
  Lemma u_hook i a b k n e : valid_name n -> text s i a n -> text s a (a + 1) [40] -> rhs_text s (a + 1) b e -> UR (a + 1) b e ->
    text s b (b + 1) [41] -> blank s (b + 1) k -> UN i k (DHook n e).
  Proof.
    intros H1 H2 H3 H4 IH H5 H6 Hf i' k' e' Es Hn' Hf'.
    assert (Hn : nucleus_text s i k (DHook n e)) by (by eapply nt_hook).
    pose proof (same_kind _ _ _ _ _ _ Hn Hn' Es) as HK.
    assert (Hi : (forall x y, e' <> DRange x y) -> i = i') by (intros; by eapply same_start).
    inversion Hn' as [|i2 a' b' k2 n' e2 G1 G2 G3 G4 G5 G6| | | | | |]; subst; try kinds.
    specialize (Hi ltac:(done)) as <-.
    destruct (name_unique _ _ _ _ _ H2 G2 H1 G1) as [<- <-]; [by apply text_one..|].
    f_equal. eapply (IH (follow_close _ H5)); [reflexivity|exact G4|by apply follow_close].
  Qed.
  Lemma u_group i b k e : text s i (i + 1) [40] -> rhs_text s (i + 1) b e -> UR (i + 1) b e -> text s b (b + 1) [41] -> blank s (b + 1) k -> UN i k (DGroup e).
  Proof.
    intros H1 H2 IH H3 H4 Hf i' k' e' Es Hn' Hf'.
    assert (Hn : nucleus_text s i k (DGroup e)) by (by eapply nt_group).
    pose proof (same_kind _ _ _ _ _ _ Hn Hn' Es) as HK.
    assert (Hi : (forall x y, e' <> DRange x y) -> i = i') by (intros; by eapply same_start).
    inversion Hn' as [| |i2 b' k2 e2 G1 G2 G3 G4| | | | |]; subst; try kinds.
    specialize (Hi ltac:(done)) as <-. f_equal. eapply (IH (follow_close _ H3)); [reflexivity|exact G2|by apply follow_close].
  Qed.
  Lemma u_quoted i j k c : quoted s i j c -> blank s j k -> UN i k (DQuoted c).
  Proof.
    intros H1 H2 Hf i' k' e' Es Hn' Hf'.
    assert (Hn : nucleus_text s i k (DQuoted c)) by (by eapply nt_quoted).
    pose proof (same_kind _ _ _ _ _ _ Hn Hn' Es) as HK.
    assert (Hi : (forall x y, e' <> DRange x y) -> i = i') by (intros; by eapply same_start).
    inversion Hn' as [| | |i2 j' k2 c' G1 G2| | | |]; subst; try kinds.
    specialize (Hi ltac:(done)) as <-.
    destruct (after_calm _ _ _ H2 Hf) as (v & Hv & Cv). destruct (after_calm _ _ _ G2 Hf') as (v' & Hv' & Cv').
    destruct Cv as (C1 & C2 & C3 & C4 & C5), Cv' as (D1 & D2 & D3 & D4 & D5).
    by destruct (quoted_unique _ _ _ _ _ _ _ H1 G1 Hv Hv') as [<- _].
  Qed.
  Lemma u_hex i j k c : hexnum s i j c -> blank s j k -> UN i k (DHexLit c).
  Proof.
    intros H1 H2 Hf i' k' e' Es Hn' Hf'.
    assert (Hn : nucleus_text s i k (DHexLit c)) by (by eapply nt_hex).
    pose proof (same_kind _ _ _ _ _ _ Hn Hn' Es) as HK.
    assert (Hi : (forall x y, e' <> DRange x y) -> i = i') by (intros; by eapply same_start).
    inversion Hn' as [| | | | |i2 j' k2 c' G1 G2| |]; subst; try kinds.
    specialize (Hi ltac:(done)) as <-.
    destruct (after_calm _ _ _ H2 Hf) as (v & Hv & Cv). destruct (after_calm _ _ _ G2 Hf') as (v' & Hv' & Cv').
    destruct Cv as (C1 & C2 & C3 & C4 & C5), Cv' as (D1 & D2 & D3 & D4 & D5).
    by destruct (hex_unique _ _ _ _ _ _ _ H1 G1 Hv Hv') as [<- _].
  Qed.
  Lemma u_int i j k c : integer s i j c -> blank s j k -> UN i k (DIntLit c).
  Proof.
    intros H1 H2 Hf i' k' e' Es Hn' Hf'.
    assert (Hn : nucleus_text s i k (DIntLit c)) by (by eapply nt_int).
    pose proof (same_kind _ _ _ _ _ _ Hn Hn' Es) as HK.
    assert (Hi : (forall x y, e' <> DRange x y) -> i = i') by (intros; by eapply same_start).
    inversion Hn' as [| | | | | |i2 j' k2 c' G1 G2|]; subst; try kinds.
    specialize (Hi ltac:(done)) as <-.
    destruct (after_calm _ _ _ H2 Hf) as (v & Hv & Cv). destruct (after_calm _ _ _ G2 Hf') as (v' & Hv' & Cv').
    destruct Cv as (C1 & C2 & C3 & C4 & C5), Cv' as (D1 & D2 & D3 & D4 & D5).
    by destruct (int_unique _ _ _ _ _ _ _ H1 G1 Hv Hv') as [<- _].
  Qed.
  Lemma u_string i j k l : text s i j (34 :: l ++ [34]) -> string_body l -> blank s j k -> UN i k (DString l).
  Proof.
    intros H1 HB H2 Hf i' k' e' Es Hn' Hf'.
    assert (Hn : nucleus_text s i k (DString l)) by (by eapply nt_string).
    pose proof (same_kind _ _ _ _ _ _ Hn Hn' Es) as HK.
    assert (Hi : (forall x y, e' <> DRange x y) -> i = i') by (intros; by eapply same_start).
    inversion Hn' as [| | | |i2 j' k2 l' G1 GB G2| | |]; subst; try kinds.
    specialize (Hi ltac:(done)) as <-. apply text_cons_inv in H1 as [_ H1], G1 as [_ G1].
    by destruct (delimited _ _ _ _ _ _ H1 G1 (proj2 HB) (proj2 GB)) as [<- _].
  Qed.
  Lemma u_ref i j k n : text s i j (60 :: n ++ [62]) -> valid_name n -> blank s j k -> UN i k (DRef n).
  Proof.
    intros H1 HB H2 Hf i' k' e' Es Hn' Hf'.
    assert (Hn : nucleus_text s i k (DRef n)) by (by eapply nt_ref).
    pose proof (same_kind _ _ _ _ _ _ Hn Hn' Es) as HK.
    assert (Hi : (forall x y, e' <> DRange x y) -> i = i') by (intros; by eapply same_start).
    inversion Hn' as [| | | | | | |i2 j' k2 n' G1 GB G2]; subst; try kinds.
    specialize (Hi ltac:(done)) as <-.
    by destruct (ref_unique _ _ _ _ _ H1 G1 HB GB) as [<- _].
  Qed.

  (** Atoms: the prefix or the suffix tells the kind. *)
  Lemma nucleus_not_prefix i k e c : nucleus_text s i k e -> at_ (sk i) = Some c -> c <> 38 /\ c <> 33.
  Proof.
    intros H Hc. destruct (nucleus_first _ _ _ H) as (c' & Hc' & HK & _). assert (c' = c) as -> by congruence.
    destruct e; simpl in HK; unfold letter in HK; try done; lia.
  Qed.
  (** How an atom is built from a nucleus. *)
  Inductive shape := SAnd | SNot | SPlus | SStar | SOpt | SPlain.
  Definition wrap (h : shape) (e : dexp) : dexp :=
    match h with SAnd => DAnd e | SNot => DNot e | SPlus => DPlus e | SStar => DStar e | SOpt => DOpt e | SPlain => e end.
  Definition pre (h : shape) (i p : N) : Prop :=
    match h with SAnd => at_ i = Some 38 /\ p = i + 1 | SNot => at_ i = Some 33 /\ p = i + 1 | _ => p = i end.
  Definition post (h : shape) (j : N) : Prop :=
    match h with SPlus => at_ (sk j) = Some 43 | SStar => at_ (sk j) = Some 42 | SOpt => at_ (sk j) = Some 63
    | _ => exists c, at_ (sk j) = Some c /\ c <> 43 /\ c <> 42 /\ c <> 63 end.
  Lemma follow_plain j k : blank s j k -> follow FA k -> exists c, at_ (sk j) = Some c /\ c <> 43 /\ c <> 42 /\ c <> 63.
  Proof.
    intros Hb (c & Hc & HL). exists c. rewrite (sk_blank _ _ _ Hb). split; [done|]. unfold FA in HL.
    repeat (apply elem_of_cons in HL as [->|HL]; [lia|]). by apply elem_of_nil in HL.
  Qed.
  Lemma follow_suffix j k c : blank s j k -> text s k (k + 1) [c] -> c ∈ [43; 42; 63] -> at_ (sk j) = Some c /\ follow FN j.
  Proof.
    intros Hb Ht%text_one HL. assert (Hnb : is_blank c = false).
    { repeat (apply elem_of_cons in HL as [->|HL]; [done|]). by apply elem_of_nil in HL. }
    rewrite (blank_start _ _ _ Hb Ht Hnb). split; [done|]. eapply follow_blank; [exact Hb|]. eapply follow_at; [exact Ht|done|].
    unfold FN. repeat (apply elem_of_cons in HL as [->|HL]; [repeat (try (by left); right)|]). by apply elem_of_nil in HL.
  Qed.
  Lemma atom_shape i k e : atom_text s i k e -> follow FA k ->
    exists h p j e0, e = wrap h e0 /\ pre h i p /\ nucleus_text s p j e0 /\ follow FN j /\ post h j.
  Proof.
    intros H Hf. assert (HfN : forall j, blank s j k -> follow FN j).
    { intros j Hb. eapply follow_blank; [exact Hb|]. eapply follow_impl; [apply FA_FN|done]. }
    destruct H as [i j k e H1 H2 H3|i j k e H1 H2 H3|i j k l e H1 H2 H3 H4|i j k l e H1 H2 H3 H4|i j k l e H1 H2 H3 H4|i j k e H1 H2].
    - exists SAnd, (i + 1), j, e. apply text_one in H1. simpl. repeat split; auto. by eapply follow_plain.
    - exists SNot, (i + 1), j, e. apply text_one in H1. simpl. repeat split; auto. by eapply follow_plain.
    - destruct (follow_suffix _ _ _ H2 H3) as [A B]; [left|]. exists SPlus, i, j, e. simpl. auto.
    - destruct (follow_suffix _ _ _ H2 H3) as [A B]; [right; left|]. exists SStar, i, j, e. simpl. auto.
    - destruct (follow_suffix _ _ _ H2 H3) as [A B]; [right; right; left|]. exists SOpt, i, j, e. simpl. auto.
    - exists SPlain, i, j, e. simpl. repeat split; auto. by eapply follow_plain.
  Qed.
  Lemma u_atom h i p j e0 : pre h i p -> nucleus_text s p j e0 -> UN p j e0 -> follow FN j -> post h j ->
    forall i' k' e', sk i = sk i' -> atom_text s i' k' e' -> follow FA k' -> wrap h e0 = e'.
  Proof.
    intros Hp Hn IH Hf Hq i' k' e' Es Ha Hf'. destruct (atom_shape _ _ _ Ha Hf') as (h' & p' & j' & e0' & -> & Hp' & Hn' & HfN' & Hq').
    assert (H38 : forall h i p j e0, pre h i p -> nucleus_text s p j e0 ->
      exists c, at_ (sk i) = Some c /\ (match h with SAnd => c = 38 /\ p = sk i + 1 | SNot => c = 33 /\ p = sk i + 1 | _ => c <> 38 /\ c <> 33 /\ sk p = sk i end)).
    { clear. intros h i p j e0 Hp Hn. destruct (nucleus_first _ _ _ Hn) as (c & Hc & _). destruct h; simpl in Hp.
      1: destruct Hp as [Hp ->]; rewrite (sk_here _ _ _ Hp eq_refl); eauto.
      1: destruct Hp as [Hp ->]; rewrite (sk_here _ _ _ Hp eq_refl); eauto.
      all: subst p; exists c; split; [done|]; destruct (nucleus_not_prefix _ _ _ _ Hn Hc); auto. }
    destruct (H38 _ _ _ _ _ Hp Hn) as (c & Hc & HX). destruct (H38 _ _ _ _ _ Hp' Hn') as (c' & Hc' & HX').
    rewrite Es in Hc, HX. assert (c = c') as <- by congruence.
    assert (Epp : sk p = sk p' -> wrap h e0 = wrap h' e0').
    { intros Epp. assert (e0 = e0') as <- by (by eapply IH). pose proof (nucleus_pos _ _ _ _ _ _ Hn Hn' Epp Hf HfN') as Ej.
      f_equal. destruct h, h'; simpl in Hq, Hq'; try done; try (exfalso; lia); rewrite ?Ej in *;
        try (destruct Hq as (v & Hv & ?)); try (destruct Hq' as (v' & Hv' & ?)); simplify_eq; try done; exfalso; lia. }
    destruct h, h'; simpl in HX, HX'; try (exfalso; lia); apply Epp;
      repeat match goal with H : _ /\ _ |- _ => destruct H end; congruence.
  Qed.
  Lemma sub_FN j k : blank s j k -> follow FA k -> follow FN j.
  Proof. intros Hb Hf. eapply follow_blank; [exact Hb|]. eapply follow_impl; [apply FA_FN|done]. Qed.

  Lemma u_items_one sep i j e : atom_text s i j e -> UA i j e -> UI sep i j [e].
  Proof.
    intros Ha IH Hsep Hf i' m' es' Es Hit Hf'. assert (HfA : follow FA j) by (eapply follow_impl; [apply FR_FA|done]).
    inversion Hit as [sep' i2 j' e' Ha'|sep' i2 j' k l m e' es2 Ha' Hb Ht Hl Hit']; subst.
    - f_equal. eapply IH; [done|exact Es|exact Ha'|eapply follow_impl; [apply FR_FA|done]].
    - exfalso. apply text_one in Ht. assert (Hnb : is_blank sep = false /\ sep ∈ FA /\ sep ∉ FR).
      { repeat (apply elem_of_cons in Hsep as [->|Hsep]; [split_and!; [done|..]; unfold FA, FR; rewrite ?elem_of_cons, ?elem_of_nil; [tauto|lia]|]). by apply elem_of_nil in Hsep. }
      destruct Hnb as (N1 & N2 & N3). assert (HfA' : follow FA j') by (eapply follow_blank; [exact Hb|by eapply follow_at]).
      pose proof (atom_pos _ _ _ _ _ _ Ha Ha' Es HfA HfA') as E. destruct Hf as (c & Hc & HL). rewrite E, (blank_start _ _ _ Hb Ht N1) in Hc. congruence.
  Qed.
  Lemma sep_facts sep : sep ∈ [44; 47] -> is_blank sep = false /\ sep ∈ FA /\ sep ∉ FR.
  Proof.
    intros Hsep. repeat (apply elem_of_cons in Hsep as [->|Hsep]; [split_and!; [done|..]; unfold FA, FR; rewrite ?elem_of_cons, ?elem_of_nil; [tauto|lia]|]).
    by apply elem_of_nil in Hsep.
  Qed.
  Lemma u_items_cons sep i j k l m e es : atom_text s i j e -> UA i j e -> blank s j k -> text s k (k + 1) [sep] -> blank s (k + 1) l ->
    items_text s sep l m es -> UI sep l m es -> UI sep i m (e :: es).
  Proof.
    intros Ha IHa Hb Ht%text_one Hl Hit IH Hsep Hf i' m' es' Es Hit' Hf'. destruct (sep_facts _ Hsep) as (N1 & N2 & N3).
    assert (HfA : follow FA j) by (eapply follow_blank; [exact Hb|by eapply follow_at]).
    inversion Hit' as [sep' i2 j' e' Ha'|sep' i2 j' k' l' m2 e' es2 Ha' Hb' Ht' Hl' Hit2]; subst.
    - exfalso. assert (HfA' : follow FA m') by (eapply follow_impl; [apply FR_FA|done]).
      pose proof (atom_pos _ _ _ _ _ _ Ha Ha' Es HfA HfA') as E. destruct Hf' as (c & Hc & HL). rewrite <- E, (blank_start _ _ _ Hb Ht N1) in Hc. congruence.
    - apply text_one in Ht'. assert (HfA' : follow FA j') by (eapply follow_blank; [exact Hb'|by eapply follow_at]).
      pose proof (atom_pos _ _ _ _ _ _ Ha Ha' Es HfA HfA') as E. rewrite (blank_start _ _ _ Hb Ht N1), (blank_start _ _ _ Hb' Ht' N1) in E. subst k'.
      f_equal; [eapply IHa; [done|exact Es|exact Ha'|done]|]. eapply IH; [done|done| |exact Hit2|done].
      by rewrite <- (sk_blank _ _ _ Hl), <- (sk_blank _ _ _ Hl').
  Qed.
  (** The byte after the first atom tells sequences, choices and single atoms apart. *)
  Lemma first_atom sep i m es : items_text s sep i m es -> sep ∈ [44; 47] -> (2 <= length es)%nat ->
    exists e j, atom_text s i j e /\ follow FA j /\ at_ (sk j) = Some sep.
  Proof.
    intros H Hsep Hl. destruct (sep_facts _ Hsep) as (N1 & N2 & N3). inversion H as [|sep' i2 j' k' l' m2 e' es2 Ha' Hb' Ht' Hl' Hit2]; subst; [simpl in Hl; lia|].
    apply text_one in Ht'. exists e', j'. split; [done|]. split; [eapply follow_blank; [exact Hb'|by eapply follow_at]|]. by rewrite (blank_start _ _ _ Hb' Ht' N1).
  Qed.
  Lemma rhs_mark i j e : rhs_text s i j e -> follow FR j -> exists a p c e0, sk i = sk a /\ atom_text s a p e0 /\ follow FA p /\ at_ (sk p) = Some c /\
    ((c = 44 /\ exists es, e = DSeq es /\ items_text s 44 a j es /\ (2 <= length es)%nat) \/
     (c = 47 /\ exists es, e = DAlt es /\ items_text s 47 a j es /\ (2 <= length es)%nat) \/
     (c ∈ FR /\ e = e0 /\ p = j)).
  Proof.
    intros H Hf. destruct H as [i k j es Hb Hit Hl|i k j es Hb Hit Hl|i k j e Hb Ha].
    - destruct (first_atom _ _ _ _ Hit) as (e0 & p & Ha & HfA & Hc); [left|done|]. exists k, p, 44, e0. split; [by apply sk_blank|]. eauto 10.
    - destruct (first_atom _ _ _ _ Hit) as (e0 & p & Ha & HfA & Hc); [right; left|done|]. exists k, p, 47, e0. split; [by apply sk_blank|]. eauto 10.
    - destruct Hf as (c & Hc & HL). exists k, j, c, e. split; [by apply sk_blank|]. split; [done|]. split; [|auto 10].
      eapply follow_impl; [apply FR_FA|]. by exists c.
  Qed.
  Lemma FR_not c : c ∈ FR -> c <> 44 /\ c <> 47.
  Proof. unfold FR. rewrite !elem_of_cons, elem_of_nil. lia. Qed.
  Ltac rhs_start H1 i' j' e' :=
    let Hf := fresh "Hf" in let Es := fresh "Es" in let Hr := fresh "Hr" in let Hf' := fresh "Hf'" in
    intros Hf i' j' e' Es Hr Hf'; destruct (rhs_mark _ _ _ Hr Hf') as (a' & p' & c' & e0' & Ea' & Ha' & HfA' & Hc' & HX').
  Lemma u_seq i k j es : blank s i k -> items_text s 44 k j es -> UI 44 k j es -> (2 <= length es)%nat -> UR i j (DSeq es).
  Proof.
    intros Hb Hit IH Hl. rhs_start H1 i' j' e'. destruct (first_atom _ _ _ _ Hit) as (e0 & p & Ha & HfA & Hc); [left|done|].
    assert (E : sk k = sk a') by (rewrite <- (sk_blank _ _ _ Hb); congruence).
    pose proof (atom_pos _ _ _ _ _ _ Ha Ha' E HfA HfA') as Ep. rewrite Ep in Hc. assert (c' = 44) as -> by congruence.
    destruct HX' as [(_ & es' & -> & Hit' & _)|[(? & _)|(HL & _)]]; [|done|by destruct (FR_not _ HL)].
    f_equal. eapply IH; [left|done|exact E|exact Hit'|done].
  Qed.
  Lemma u_alt i k j es : blank s i k -> items_text s 47 k j es -> UI 47 k j es -> (2 <= length es)%nat -> UR i j (DAlt es).
  Proof.
    intros Hb Hit IH Hl. rhs_start H1 i' j' e'. destruct (first_atom _ _ _ _ Hit) as (e0 & p & Ha & HfA & Hc); [right; left|done|].
    assert (E : sk k = sk a') by (rewrite <- (sk_blank _ _ _ Hb); congruence).
    pose proof (atom_pos _ _ _ _ _ _ Ha Ha' E HfA HfA') as Ep. rewrite Ep in Hc. assert (c' = 47) as -> by congruence.
    destruct HX' as [(? & _)|[(_ & es' & -> & Hit' & _)|(HL & _)]]; [done| |by destruct (FR_not _ HL)].
    f_equal. eapply IH; [right; left|done|exact E|exact Hit'|done].
  Qed.
  Lemma u_one i k j e : blank s i k -> atom_text s k j e -> UA k j e -> UR i j e.
  Proof.
    intros Hb Ha IH. rhs_start H1 i' j' e'. assert (HfA : follow FA j) by (eapply follow_impl; [apply FR_FA|done]).
    assert (E : sk k = sk a') by (rewrite <- (sk_blank _ _ _ Hb); congruence).
    pose proof (atom_pos _ _ _ _ _ _ Ha Ha' E HfA HfA') as Ep. destruct Hf as (c & Hc & HL). rewrite Ep in Hc. assert (c' = c) as -> by congruence.
    destruct (FR_not _ HL). destruct HX' as [(? & _)|[(? & _)|(_ & -> & ->)]]; [done..|]. by eapply IH.
  Qed.
  Theorem rhs_unique i j e : rhs_text s i j e -> UR i j e.
  Proof.
    apply (rhs_mut s UR UI UA UN).
    - apply u_seq.
    - apply u_alt.
    - apply u_one.
    - apply u_items_one.
    - apply u_items_cons.
    - intros i0 j0 k e0 H1 H2 IH H3 Hf. apply (u_atom SAnd i0 (i0 + 1) j0 e0); [split; [by apply text_one|done]|done|done|by eapply sub_FN|by eapply follow_plain].
    - intros i0 j0 k e0 H1 H2 IH H3 Hf. apply (u_atom SNot i0 (i0 + 1) j0 e0); [split; [by apply text_one|done]|done|done|by eapply sub_FN|by eapply follow_plain].
    - intros i0 j0 k l e0 H1 IH H2 H3 H4 Hf. destruct (follow_suffix _ _ _ H2 H3) as [A B]; [left|]. by apply (u_atom SPlus i0 i0 j0 e0).
    - intros i0 j0 k l e0 H1 IH H2 H3 H4 Hf. destruct (follow_suffix _ _ _ H2 H3) as [A B]; [right; left|]. by apply (u_atom SStar i0 i0 j0 e0).
    - intros i0 j0 k l e0 H1 IH H2 H3 H4 Hf. destruct (follow_suffix _ _ _ H2 H3) as [A B]; [right; right; left|]. by apply (u_atom SOpt i0 i0 j0 e0).
    - intros i0 j0 k e0 H1 IH H2 Hf. apply (u_atom SPlain i0 i0 j0 e0); [done|done|done|by eapply sub_FN|by eapply follow_plain].
    - apply u_range.
    - apply u_hook.
    - apply u_group.
    - apply u_quoted.
    - apply u_string.
    - apply u_hex.
    - apply u_int.
    - apply u_ref.
  Qed.

  (** ** Rules *)
  Lemma comment_unique i j l i' j' l' : comment_text s i j l -> comment_text s i' j' l' -> sk i = sk i' -> l = l' /\ sk j = sk j'.
  Proof.
    intros (a & b & Ha & Ht & HF & Hb) (a' & b' & Ha' & Ht' & HF' & Hb') E.
    pose proof Ht as [H35 H1]%text_cons_inv. pose proof Ht' as [H35' H1']%text_cons_inv.
    rewrite (blank_start _ _ _ Ha H35 eq_refl), (blank_start _ _ _ Ha' H35' eq_refl) in E. subst a'.
    destruct (delimited _ _ _ _ _ _ H1 H1' HF HF') as [<- <-]. split; [done|]. by rewrite <- (sk_blank _ _ _ Hb), <- (sk_blank _ _ _ Hb').
  Qed.
  Lemma comment_starts i j l : comment_text s i j l -> at_ (sk i) = Some 35.
  Proof.
    intros (a & b & Ha & Ht & _). pose proof Ht as [H35 H1]%text_cons_inv. by rewrite (blank_start _ _ _ Ha H35 eq_refl).
  Qed.
  Lemma comments_unique i j ls : comments_text s i j ls -> forall i' j' ls', comments_text s i' j' ls' -> sk i = sk i' ->
    at_ (sk j) <> Some 35 -> at_ (sk j') <> Some 35 -> ls = ls' /\ sk j = sk j'.
  Proof.
    induction 1 as [i|i j k l ls Hl Hls IH]; intros i' j' ls' H' E Hj Hj'; destruct H' as [i'|i' j2 k' l' ls' Hl' Hls'].
    - done.
    - destruct Hj. rewrite E. by eapply comment_starts.
    - destruct Hj'. rewrite <- E. by eapply comment_starts.
    - destruct (comment_unique _ _ _ _ _ _ Hl Hl' E) as [<- E2]. destruct (IH _ _ _ Hls' E2 Hj Hj') as [<- E3]. done.
  Qed.
  Lemma keyword_start x y : text s x y keyword_inline -> at_ x = Some 73.
  Proof. intros H. by apply text_cons_inv in H as [H _]. Qed.
  Lemma rule_unique i j r i' j' r' : rule_text s i j r -> rule_text s i' j' r' -> sk i = sk i' ->
    at_ (sk j) <> Some 35 -> at_ (sk j') <> Some 35 -> r = r' /\ sk j = sk j'.
  Proof.
    intros H H' E Hj Hj'. assert (i = i') as <-.
    { pose proof (rule_starts _ _ _ _ H) as A. pose proof (rule_starts _ _ _ _ H') as B. by rewrite (sk_here _ _ _ A eq_refl), (sk_here _ _ _ B eq_refl) in E. }
    destruct H as (a & b & c & d & e & f & g & H1 & Hv & Hin & Hb & Hc%text_one & Hd & Hr & He & Hf%text_one & Hg & Hcm).
    destruct H' as (a' & b' & c' & d' & e' & f' & g' & H1' & Hv' & Hin' & Hb' & Hc'%text_one & Hd' & Hr' & He' & Hf'%text_one & Hg' & Hcm').
    destruct (ref_unique _ _ _ _ _ H1 H1' Hv Hv') as [En <-].
    assert (dr_inline r = dr_inline r' /\ c = c') as [Ei <-].
    { destruct (dr_inline r), (dr_inline r').
      - destruct Hin as (x & y & X1 & X2 & X3), Hin' as (x' & y' & X1' & X2' & X3').
        pose proof (keyword_start _ _ X2) as K. pose proof (keyword_start _ _ X2') as K'.
        assert (x = x') as <- by (by rewrite <- (blank_start _ _ _ X1 K eq_refl), <- (blank_start _ _ _ X1' K' eq_refl)).
        assert (y = y') as <- by (destruct X2 as [-> _], X2' as [-> _]; done). split; [done|].
        rewrite <- (blank_start _ _ _ Hb Hc eq_refl), <- (blank_start _ _ _ Hb' Hc' eq_refl).
        by rewrite <- (sk_blank _ _ _ X3), <- (sk_blank _ _ _ X3').
      - subst b'. destruct Hin as (x & y & X1 & X2 & X3). pose proof (keyword_start _ _ X2) as K.
        pose proof (blank_start _ _ _ X1 K eq_refl) as E1. pose proof (blank_start _ _ _ Hb' Hc' eq_refl) as E2. assert (x = c') as -> by congruence. congruence.
      - subst b. destruct Hin' as (x & y & X1 & X2 & X3). pose proof (keyword_start _ _ X2) as K.
        pose proof (blank_start _ _ _ X1 K eq_refl) as E1. pose proof (blank_start _ _ _ Hb Hc eq_refl) as E2. assert (x = c) as -> by congruence. congruence.
      - subst b b'. split; [done|]. by rewrite <- (blank_start _ _ _ Hb Hc eq_refl), <- (blank_start _ _ _ Hb' Hc' eq_refl). }
    assert (Fe : follow FR e). { eapply follow_blank; [exact He|]. eapply follow_at; [exact Hf|done|right; left]. }
    assert (Fe' : follow FR e'). { eapply follow_blank; [exact He'|]. eapply follow_at; [exact Hf'|done|right; left]. }
    assert (Ed : sk d = sk d') by (by rewrite <- (sk_blank _ _ _ Hd), <- (sk_blank _ _ _ Hd')).
    pose proof (rhs_unique _ _ _ Hr Fe _ _ _ Ed Hr' Fe') as Eb.
    assert (sk e = sk e') as Ee.
    { pose proof (rhs_accepted s _ _ _ Hr Fe (sk d) (or_intror eq_refl)) as A. pose proof (rhs_accepted s _ _ _ Hr' Fe' (sk d') (or_intror eq_refl)) as B.
      rewrite <- Ed in B. by eapply ok_det. }
    rewrite (blank_start _ _ _ He Hf eq_refl), (blank_start _ _ _ He' Hf' eq_refl) in Ee. subst f'.
    destruct (comments_unique _ _ _ Hcm _ _ _ Hcm') as [Ec Ej]; [by rewrite <- (sk_blank _ _ _ Hg), <- (sk_blank _ _ _ Hg')|done|done|].
    split; [|done]. destruct r, r'; simpl in *; congruence.
  Qed.
  Notation L := (N.of_nat (length s)).
  Lemma rules_after j k rs : rules_text s j k rs -> blank s k L -> at_ (sk j) <> Some 35.
  Proof.
    intros H Hb. destruct H as [j|j j2 k r rs Hr Hrs].
    - rewrite (sk_blank _ _ _ Hb), sk_end, at_end. done.
    - pose proof (rule_starts _ _ _ _ Hr) as A. rewrite (sk_here _ _ _ A eq_refl), A. done.
  Qed.
  Lemma rules_unique i k rs : rules_text s i k rs -> blank s k L -> forall i' k' rs', rules_text s i' k' rs' -> blank s k' L -> sk i = sk i' -> rs = rs'.
  Proof.
    induction 1 as [i|i j k r rs Hr Hrs IH]; intros Hb i' k' rs' H' Hb' E; destruct H' as [i'|i' j' k' r' rs' Hr' Hrs'].
    - done.
    - pose proof (rule_starts _ _ _ _ Hr') as A. rewrite (sk_here _ _ _ A eq_refl) in E. rewrite <- E in A. rewrite (sk_blank _ _ _ Hb), sk_end, at_end in A. done.
    - pose proof (rule_starts _ _ _ _ Hr) as A. rewrite (sk_here _ _ _ A eq_refl) in E. rewrite E in A. rewrite (sk_blank _ _ _ Hb'), sk_end, at_end in A. done.
    - destruct (rule_unique _ _ _ _ _ _ Hr Hr' E) as [<- E2]; [eapply rules_after; eassumption|eapply rules_after; eassumption|]. f_equal. eapply IH; eassumption.
  Qed.
End unique.

(** A file spells at most one list of rules. *)
Theorem file_unique s rules rules' : file_text s rules -> file_text s rules' -> rules = rules'.
Proof. intros (i & _ & H & Hb) (i' & _ & H' & Hb'). by eapply rules_unique. Qed.
