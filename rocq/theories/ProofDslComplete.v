(** Every file that spells a list of rules is accepted by the DSL grammar. *)
From Verif Require Import Programs SpecDsl SpecProgram SpecLR SpecTerm ProofPeg ProofTree ProofTrace.
From Verif Require Import ProofComplete ProofFuel ProofTree2 ProofSafe SpecSession TheoremsKernel TheoremsPackrat.
From Verif Require Import ProofPegTotal Checks TheoremsTotal ProofDsl.

(** ** Expressions that cannot start with a given byte fail *)
Section first.
  Context (g : pgrammar) (nul : N -> bool).
  (** [e] may succeed consuming, when the next byte is [c]. *)
  Fixpoint may (n : nat) (e : pexp) (c : N) : bool :=
    match n with
    | O => true
    | S n =>
      match e with
      | PChar a => c =? a
      | PStr [] => false
      | PStr (a :: _) => c =? a
      | PRange a b => (a <=? c) && (c <=? b)
      | PSeq a b => may n a c || (nullable nul a && may n b c)
      | PAlt a b => may n a c || may n b c
      | PAnd _ | PNot _ => false
      | PPlus e | PStar e | POpt e => may n e c
      | PRef _ A => match g A with Some b => may n b c | None => true end
      end
    end.
  Hypothesis Hnul : forall A body, g A = Some body -> nullable nul body = true -> nul A = true.
  Lemma peg_past s e i o : peg g s e i o -> forall j, o = Some j -> (length s <= N.to_nat i)%nat -> j = i.
  Proof using.
    induction 1; intros j' Ej Hi; simplify_eq; auto.
    - apply lookup_lt_Some in H. lia.
    - apply lookup_lt_Some in H. lia.
    - unfold occurs_at in H. destruct l; [simpl; lia|]. rewrite drop_ge in H by lia. done.
    - specialize (IHpeg1 _ eq_refl Hi). subst. auto.
    - specialize (IHpeg1 _ eq_refl Hi). subst. auto.
    - specialize (IHpeg1 _ eq_refl Hi). subst. auto.
  Qed.
  Lemma may_sound s e i o : peg g s e i o -> forall n j, o = Some j -> i <> j ->
    exists c, s !! N.to_nat i = Some c /\ may n e c = true.
  Proof using Hnul.
    assert (Hc : forall e i j, peg g s e i (Some j) -> i = j -> nullable nul e = true).
    { intros e' i' j H ->. apply peg_trace in H as [F H]. by eapply tr_consumes. }
    intros H n j Ej Hij. assert (Hb : exists c, s !! N.to_nat i = Some c).
    { destruct (s !! N.to_nat i) eqn:E; [by eauto|]. apply lookup_ge_None in E. by rewrite (peg_past _ _ _ _ H _ Ej E) in Hij. }
    destruct Hb as [c Hbyte]. exists c. split; [done|]. revert n j Ej Hij c Hbyte.
    induction H; intros n j' Ej Hij by0 Hx; (destruct n as [|n]; [done|]); cbn [may]; simplify_eq.
    - by apply N.eqb_eq.
    - apply andb_true_iff. rewrite !N.leb_le. lia.
    - destruct l as [|a l]; [simpl in Hij; lia|]. apply occurs_at_cons in H as [H _]. simplify_eq. by apply N.eqb_eq.
    - destruct (decide (i = j)) as [<-|Hne].
      + rewrite (Hc _ _ _ H eq_refl). rewrite (IHpeg2 n _ eq_refl Hij _ Hx). apply orb_true_r.
      + by rewrite (IHpeg1 n _ eq_refl Hne _ Hx).
    - by rewrite (IHpeg n _ eq_refl Hij _ Hx).
    - rewrite (IHpeg2 n _ eq_refl Hij _ Hx). apply orb_true_r.
    - destruct (decide (i = j)) as [<-|Hne].
      + by apply (IHpeg2 (S n) _ eq_refl Hij _ Hx).
      + by apply (IHpeg1 n _ eq_refl Hne _ Hx).
    - destruct (decide (i = j)) as [<-|Hne].
      + by apply (IHpeg2 (S n) _ eq_refl Hij _ Hx).
      + by apply (IHpeg1 n _ eq_refl Hne _ Hx).
    - by apply (IHpeg n _ eq_refl Hij _ Hx).
    - rewrite H. by apply (IHpeg n _ eq_refl Hij _ Hx).
  Qed.
End first.

(** The bytes of a class. *)
Definition digits19 : list N := map N.of_nat (seq 49 9).
Definition letters : list N := map N.of_nat (seq 97 26 ++ seq 65 26).
Lemma in_digits c : 49 <= c <= 57 -> c ∈ digits19.
Proof. intros H. apply elem_of_list_fmap. exists (N.to_nat c). split; [lia|]. apply elem_of_seq. lia. Qed.
Lemma in_letters c : letter c -> c ∈ letters.
Proof.
  intros H. apply elem_of_list_fmap. exists (N.to_nat c). split; [lia|]. apply elem_of_app. unfold letter in H.
  destruct H; [left|right]; apply elem_of_seq; lia.
Qed.
Definition is_blank (c : N) : bool := (c =? 32) || (c =? 10) || (c =? 13) || (c =? 9).
Lemma guard_ref l A : (A < 52) -> pguarded (nul_of dsl_table) (lvl_of dsl_table) dsl_g (S (lvl_of dsl_table A)) true (PRef l A).
Proof.
  intros HA. assert (Hin : N.to_nat A ∈ seq 0 52) by (apply elem_of_seq; lia).
  assert (Hall : forallb (fun k => match dsl_g (N.of_nat k) with Some _ => true | None => false end) (seq 0 52) = true) by (vm_compute; done).
  rewrite forallb_forall in Hall. specialize (Hall _ (proj1 (elem_of_list_In _ _) Hin)). rewrite N2Nat.id in Hall.
  simpl. destruct (dsl_g A) eqn:E; [|done]. split; [by eexists|]. lia.
Qed.

Section complete.
  Context (s : list N).
  Notation P := (peg dsl_g s).
  Notation ok e i j := (peg dsl_g s e i (Some j)).
  Notation ko e i := (peg dsl_g s e i None).
  Notation at_ i := (s !! N.to_nat i).

  (** Failure, by totality. *)
  Lemma ko_ref l A i : A < 52 -> i <= N.of_nat (length s) -> (forall j, ~ ok (PRef l A) i j) -> ko (PRef l A) i.
  Proof.
    intros HA Hi Hn.
    destruct (peg_total (nul_of dsl_table) (lvl_of dsl_table) dsl_g s (well_founded_program_grammar _ _ _ _ dsl_ok dsl_wf)
      _ _ _ _ (guard_ref l A HA) Hi) as [[j|] Ho]; [|done]. by apply Hn in Ho.
  Qed.
  Lemma ko_first l A i c : A < 52 -> nul_of dsl_table A = false -> at_ i = Some c -> may dsl_g (nul_of dsl_table) 30 (PRef l A) c = false -> ko (PRef l A) i.
  Proof.
    intros HA Hn Hc Hm. assert (Hlt : (N.to_nat i < length s)%nat) by (by eapply lookup_lt_Some).
    apply ko_ref; [done|lia|]. intros j Hj.
    assert (Hij : i <> j). { intros ->. apply peg_trace in Hj as [F Hj]. apply tr_lt in Hj; [lia|done]. }
    destruct (may_sound dsl_g (nul_of dsl_table) dsl_nul _ _ _ _ Hj 30 _ eq_refl Hij) as (c' & E & M). congruence.
  Qed.

  (** ** Blanks are skipped greedily *)
  Fixpoint nblanks (l : list N) : nat := match l with [] => O | c :: l => if is_blank c then S (nblanks l) else O end.
  Definition sk (i : N) : N := i + N.of_nat (nblanks (drop (N.to_nat i) s)).
  Lemma is_blank_iff c : is_blank c = true <-> c = 32 \/ c = 10 \/ c = 13 \/ c = 9.
  Proof. unfold is_blank. rewrite !orb_true_iff, !N.eqb_eq. tauto. Qed.
  Lemma sk_step i : sk i = match at_ i with Some c => if is_blank c then sk (i + 1) else i | None => i end.
  Proof.
    unfold sk. destruct (at_ i) as [c|] eqn:E.
    - rewrite (drop_S _ _ _ E). cbn [nblanks]. replace (N.to_nat (i + 1)) with (S (N.to_nat i)) by lia. destruct (is_blank c); lia.
    - apply lookup_ge_None in E. rewrite drop_ge by lia. simpl. lia.
  Qed.
  Lemma sk_here i c : at_ i = Some c -> is_blank c = false -> sk i = i.
  Proof. intros H Hc. rewrite sk_step, H, Hc. done. Qed.
  Lemma text_step i j c l : text s i j (c :: l) -> at_ i = Some c /\ text s (i + 1) j l.
  Proof. apply text_cons_inv. Qed.
  Lemma sk_blank i j : blank s i j -> sk i = sk j.
  Proof.
    intros (l & Ht & HF). revert i Ht. induction l as [|c l IH]; intros i Ht.
    - destruct Ht as [-> _]. simpl. by rewrite N.add_0_r.
    - apply list.Forall_cons in HF as [Hc HF]. apply text_cons_inv in Ht as [H1 H2]. rewrite sk_step, H1.
      apply is_blank_iff in Hc. rewrite Hc. by apply IH.
  Qed.
  Lemma blank_ind_ (Q : N -> Prop) : (forall i, (forall c, at_ i = Some c -> is_blank c = true -> Q (i + 1)) -> Q i) -> forall i, Q i.
  Proof.
    intros H i. remember (length s - N.to_nat i)%nat as n eqn:En. revert i En.
    induction n as [n IH] using lt_wf_ind; intros i En. apply H. intros c Hc _. apply (IH (length s - N.to_nat (i + 1))%nat); [|done].
    apply lookup_lt_Some in Hc. lia.
  Qed.
  Lemma blank_sk i : blank s i (sk i).
  Proof.
    induction i as [i IH] using blank_ind_. rewrite sk_step. destruct (at_ i) as [c|] eqn:E; [|apply blank_nil].
    destruct (is_blank c) eqn:Ec; [|apply blank_nil]. eapply blank_trans; [|by eapply IH].
    exists [c]. split; [by apply text_one|]. constructor; [by apply is_blank_iff|constructor].
  Qed.
  Lemma sk_stops i c : at_ (sk i) = Some c -> is_blank c = false.
  Proof.
    revert c. induction i as [i IH] using blank_ind_. intros c. rewrite sk_step. destruct (at_ i) as [d|] eqn:E; [|congruence].
    destruct (is_blank d) eqn:Ed; [by eapply IH|]. intros H. simplify_eq. done.
  Qed.
  Lemma sk_idem i : sk (sk i) = sk i.
  Proof. symmetry. apply sk_blank, blank_sk. Qed.
  Lemma sk_ge i : i <= sk i.
  Proof. unfold sk. lia. Qed.
  Lemma sk_le i : i <= N.of_nat (length s) -> sk i <= N.of_nat (length s).
  Proof.
    intros H. unfold sk. enough (nblanks (drop (N.to_nat i) s) <= length (drop (N.to_nat i) s))%nat by (rewrite drop_length in *; lia).
    generalize (drop (N.to_nat i) s). induction l as [|c l IH]; simpl; [lia|]. destruct (is_blank c); lia.
  Qed.

  Ltac body := eapply peg_ref; [vm_compute; reflexivity|].
  Lemma ok_ws i : ok (PRef None 44) i (sk i).
  Proof.
    body. induction i as [i IH] using blank_ind_. rewrite sk_step. destruct (at_ i) as [c|] eqn:E.
    - destruct (is_blank c) eqn:Ec.
      + eapply peg_star_more; [|by eapply IH]. apply is_blank_iff in Ec.
        assert (Hc : forall a, c = a -> ok (PChar a) i (i + 1)) by (intros a ->; by apply peg_char_ok).
        assert (Hn : forall a, c <> a -> ko (PChar a) i) by (intros a Ha; apply peg_char_fail; congruence).
        destruct (decide (c = 32)); [by apply peg_alt_1, peg_alt_1, peg_alt_1, Hc|].
        destruct (decide (c = 10)); [apply peg_alt_1, peg_alt_1, peg_alt_2; auto|].
        destruct (decide (c = 13)); [apply peg_alt_1, peg_alt_2; [apply peg_alt_2; auto|auto]|].
        apply peg_alt_2; [apply peg_alt_2; [apply peg_alt_2; auto|auto]|]. apply Hc. tauto.
      + apply peg_star_stop. assert (Hc : forall a, is_blank a = true -> ko (PChar a) i) by (intros a Ha; apply peg_char_fail; congruence).
        repeat apply peg_alt_2; by apply Hc.
    - apply peg_star_stop. assert (Hc : forall a, ko (PChar a) i) by (intros a; apply peg_char_fail; congruence).
      repeat apply peg_alt_2; by apply Hc.
  Qed.

  (** ** Lexical elements *)
  Lemma ok_char i c : at_ i = Some c -> ok (PChar c) i (i + 1).
  Proof. apply peg_char_ok. Qed.
  Lemma ko_char i c a : at_ i = Some c -> c <> a -> ko (PChar a) i.
  Proof. intros. apply peg_char_fail. congruence. Qed.
  Lemma star_class e (C : N -> Prop) l : (forall i c, at_ i = Some c -> C c -> ok e i (i + 1)) ->
    forall i j, text s i j l -> Forall C l -> ko e j -> ok (PStar e) i j.
  Proof.
    intros He. induction l as [|c l IH]; intros i j Ht HF Hk.
    - destruct Ht as [-> _]. simpl in *. rewrite N.add_0_r in *. by apply peg_star_stop.
    - apply list.Forall_cons in HF as [Hc HF]. apply text_cons_inv in Ht as [H1 H2]. eapply peg_star_more; [by apply (He i c)|]. by apply IH.
  Qed.
  Lemma ok_letter i c : at_ i = Some c -> letter c -> ok (PAlt (PRef None 1) (PRef None 0)) i (i + 1).
  Proof.
    intros Hc HL. destruct (decide (97 <= c <= 122)).
    - apply peg_alt_1. body. by eapply peg_range_ok.
    - apply peg_alt_2; body; [apply peg_range_fail|eapply peg_range_ok; [done|]].
      + intros x Hx. simplify_eq. done.
      + unfold letter in HL. lia.
  Qed.
  Lemma ko_letter i c : at_ i = Some c -> ~ letter c -> ko (PAlt (PRef None 1) (PRef None 0)) i.
  Proof. intros Hc HL. unfold letter in HL. apply peg_alt_2; body; apply peg_range_fail; intros x Hx; simplify_eq; lia. Qed.
  Lemma ok_name i j n c : text s i j n -> valid_name n -> at_ j = Some c -> ~ letter c -> c <> 95 -> ok (PRef None 24) i j.
  Proof.
    intros Ht (a & r & -> & Ha & HF) Hc HL H95. apply text_cons_inv in Ht as [H1 H2]. body.
    eapply peg_seq_ok; [by eapply ok_letter|].
    eapply (star_class _ (fun c => letter c \/ c = 95)); [|exact H2|exact HF|].
    - intros k d Hd [HLd| ->]; [apply peg_alt_1; by eapply ok_letter|].
      apply peg_alt_2; [eapply ko_letter; [done|]; unfold letter; lia|by apply peg_char_ok].
    - apply peg_alt_2; [by eapply ko_letter|by eapply ko_char].
  Qed.
  Lemma ok_ref_name l A i j n : l = Some dsl_R_Var_Name_Ref /\ A = dsl_f_var_name_ref \/ l = Some dsl_R_Var_Name_Decl /\ A = dsl_f_var_name_decl ->
    text s i j (60 :: n ++ [62]) -> valid_name n -> ok (PRef l A) i j.
  Proof.
    intros HA Ht Hv. apply text_cons_inv in Ht as [H1 Ht]. apply text_app_inv in Ht as [H2 Ht].
    apply text_cons_inv in Ht as [H3 [Hj _]]. simpl in Hj. rewrite N.add_0_r in Hj. subst j.
    destruct HA as [[-> ->]|[-> ->]]; body; (eapply peg_seq_ok; [eapply peg_seq_ok; [body; by apply peg_char_ok|]|]);
      [eapply ok_name; [exact H2|done|exact H3|unfold letter; lia|done]|body; by apply peg_char_ok
      |eapply ok_name; [exact H2|done|exact H3|unfold letter; lia|done]|body; by apply peg_char_ok].
  Qed.
  Lemma ok_class A a b i c r : dsl_g A = Some (PRange a b) -> at_ i = Some c -> a <= c <= b -> ok (PRef r A) i (i + 1).
  Proof. intros HA Hc H. eapply peg_ref; [exact HA|]. by eapply peg_range_ok. Qed.
  Lemma ko_class A a b i c r : dsl_g A = Some (PRange a b) -> at_ i = Some c -> ~ (a <= c <= b) -> ko (PRef r A) i.
  Proof. intros HA Hc H. eapply peg_ref; [exact HA|]. apply peg_range_fail. intros x Hx. by simplify_eq. Qed.
  Lemma ok_quote i : at_ i = Some 39 -> ok (PRef None 9) i (i + 1).
  Proof. intros H. body. by apply peg_char_ok. Qed.
  Lemma ko_quote i c : at_ i = Some c -> c <> 39 -> ko (PRef None 9) i.
  Proof. intros H Hc. body. by eapply ko_char. Qed.
  Lemma ok_ascii i c : at_ i = Some c -> c <= 255 -> ok (PRef (Some dsl_R_ASCII) dsl_f_ascii) i (i + 1).
  Proof. intros. eapply ok_class; [by vm_compute|done|lia]. Qed.

  Ltac bytes_of H := repeat (apply text_cons_inv in H as [? H]); destruct H as [H _]; simpl in H; rewrite ?N.add_0_r in H; subst.
  Lemma ok_terminal i j c d : quoted s i j c -> at_ j = Some d -> d <> 39 -> ok (PRef (Some dsl_R_Terminal) dsl_f_terminal) i j.
  Proof.
    intros Hq Hd H39. body. destruct Hq as [c Ht Hc|c Ht Hc|Ht].
    - bytes_of Ht. apply peg_alt_1, peg_alt_1. eapply peg_seq_ok; [eapply peg_seq_ok; [by apply ok_quote|by eapply ok_ascii]|by apply ok_quote].
    - bytes_of Ht. apply peg_alt_1, peg_alt_2.
      + eapply peg_seq_ok; [eapply peg_seq_ok; [by apply ok_quote|eapply ok_ascii; [done|done]]|eapply ko_quote; [done|]]. intros ->. by destruct Hc as [?|[?|?]].
      + eapply peg_seq_ok; [eapply peg_seq_ok; [eapply peg_seq_ok; [by apply ok_quote|by apply peg_char_ok]|]|by apply ok_quote].
        destruct Hc as [->|[->| ->]].
        * by apply peg_alt_1, peg_alt_1, peg_char_ok.
        * apply peg_alt_1, peg_alt_2; [by eapply ko_char|by apply peg_char_ok].
        * apply peg_alt_2; [apply peg_alt_2; by eapply ko_char|by apply peg_char_ok].
    - bytes_of Ht. apply peg_alt_2; [apply peg_alt_2|].
      + eapply peg_seq_ok; [eapply peg_seq_ok; [by apply ok_quote|eapply ok_ascii; [done|done]]|by eapply ko_quote].
      + apply peg_seq_fail, peg_seq_fail. eapply peg_seq_ok; [by apply ok_quote|by eapply ko_char].
      + body. eapply peg_seq_ok; by apply ok_quote.
  Qed.
  Lemma ok_hexval i c : at_ i = Some c -> hex_char c -> ok (PRef (Some dsl_R_HexVal) dsl_f_hexval) i (i + 1).
  Proof.
    intros Hc Hh. body. destruct (decide (48 <= c <= 57)); [apply peg_alt_1; by eapply peg_range_ok|].
    apply peg_alt_2; [apply peg_range_fail; intros x Hx; by simplify_eq|]. eapply peg_range_ok; [done|]. unfold hex_char in Hh. lia.
  Qed.
  Lemma ko_hexval i c : at_ i = Some c -> ~ hex_char c -> ko (PRef (Some dsl_R_HexVal) dsl_f_hexval) i.
  Proof. intros Hc Hh. unfold hex_char in Hh. body. apply peg_alt_2; apply peg_range_fail; intros x Hx; simplify_eq; lia. Qed.
  Lemma ok_hex i j ds d : hexnum s i j ds -> at_ j = Some d -> ~ hex_char d -> ok (PRef (Some dsl_R_Hex) dsl_f_hex) i j.
  Proof.
    intros (Ht & Hne & HF) Hd Hh. destruct ds as [|a r]; [done|]. apply list.Forall_cons in HF as [Ha HF].
    apply text_cons_inv in Ht as [H1 Ht]. apply text_cons_inv in Ht as [H2 Ht]. apply text_cons_inv in Ht as [H3 Ht]. body.
    eapply peg_seq_ok; [eapply peg_seq_ok; by apply peg_char_ok|]. eapply peg_plus_ok; [by eapply ok_hexval|].
    eapply star_class; [|exact Ht|exact HF|by eapply ko_hexval]. intros k c. by apply ok_hexval.
  Qed.
  Lemma ok_int i j ds d : integer s i j ds -> at_ j = Some d -> ~ digit d -> ok (PRef (Some dsl_R_Integer) dsl_f_integer) i j.
  Proof.
    intros (Ht & a & r & -> & Ha & HF) Hd Hh. apply text_cons_inv in Ht as [H1 Ht]. body.
    eapply peg_seq_ok; [eapply ok_class; [by vm_compute|done|done]|].
    eapply star_class; [|exact Ht|exact HF|]; [intros k c Hc HC|]; [eapply ok_class; [by vm_compute|done|exact HC]|].
    eapply ko_class; [by vm_compute|done|exact Hh].
  Qed.
  Notation bound_e := (PAlt (PAlt (PRef (Some dsl_R_Terminal) dsl_f_terminal) (PRef (Some dsl_R_Integer) dsl_f_integer)) (PRef (Some dsl_R_Hex) dsl_f_hex)).
  Ltac first_ko := eapply ko_first; [done|vm_compute; reflexivity|eassumption|try (vm_compute; reflexivity)].
  Lemma int_first i j ds : integer s i j ds -> exists a, at_ i = Some a /\ 49 <= a <= 57.
  Proof. intros (Ht & a & r & -> & Ha & _). apply text_cons_inv in Ht as [H1 _]. by exists a. Qed.
  Lemma may_class l A (L : list N) c : forallb (fun c => negb (may dsl_g (nul_of dsl_table) 30 (PRef l A) c)) L = true ->
    c ∈ L -> may dsl_g (nul_of dsl_table) 30 (PRef l A) c = false.
  Proof.
    intros H Hc. rewrite forallb_forall in H. specialize (H c (proj1 (elem_of_list_In _ _) Hc)). by apply negb_true_iff in H.
  Qed.
  Lemma ok_bound i j x d : bound_text s i j x -> at_ j = Some d -> d <> 39 -> ~ hex_char d -> ok bound_e i j.
  Proof.
    intros Hb Hd H39 Hh. destruct Hb as [c Hq|ds Hx|ds Hx].
    - apply peg_alt_1, peg_alt_1. by eapply ok_terminal.
    - assert (H48 : at_ i = Some 48) by (destruct Hx as (Ht & _); by apply text_cons_inv in Ht as [? _]).
      apply peg_alt_2; [apply peg_alt_2; first_ko|]. by eapply ok_hex.
    - destruct (int_first _ _ _ Hx) as (a & Ha & Hra). apply peg_alt_1, peg_alt_2.
      + first_ko. apply (may_class _ _ digits19); [vm_compute; done|by apply in_digits].
      + eapply ok_int; [done|done|]. unfold digit. unfold hex_char in Hh. lia.
  Qed.

  (** ** Right-hand sides *)
  Definition follow (L : list N) (p : N) : Prop := exists c, at_ (sk p) = Some c /\ c ∈ L.
  Definition FA : list N := [44; 47; 41; 59].
  Definition FN : list N := [44; 47; 41; 59; 43; 42; 63].
  Definition FR : list N := [41; 59].
  Lemma follow_blank L i j : blank s i j -> follow L j -> follow L i.
  Proof. intros H (c & Hc & HL). exists c. by rewrite (sk_blank _ _ H). Qed.
  Lemma follow_impl L L' p : L ⊆ L' -> follow L p -> follow L' p.
  Proof. intros H (c & Hc & HL). exists c. split; [done|by apply H]. Qed.
  Lemma follow_at L p c : at_ p = Some c -> is_blank c = false -> c ∈ L -> follow L p.
  Proof. intros H Hb HL. exists c. by rewrite (sk_here _ _ H Hb). Qed.
  Lemma after L j : follow L j -> exists c, at_ j = Some c /\ (is_blank c = true \/ c ∈ L).
  Proof.
    intros (c & Hc & HL). rewrite sk_step in Hc. destruct (at_ j) as [d|] eqn:E; [|congruence].
    exists d. split; [done|]. destruct (is_blank d) eqn:Ed; [by left|]. right. congruence.
  Qed.
  (** Bytes that can follow a literal are neither quotes nor digits nor letters. *)
  Definition calm (c : N) : Prop := c <> 39 /\ ~ hex_char c /\ ~ digit c /\ ~ letter c /\ c <> 95.
  Lemma calm_dec c : (is_blank c || bool_decide (c ∈ FN)) = true -> calm c.
  Proof.
    intros H. apply orb_true_iff in H as [H|H].
    - apply is_blank_iff in H. unfold calm, hex_char, digit, letter. lia.
    - apply bool_decide_eq_true in H. unfold FN in H. rewrite !elem_of_cons, elem_of_nil in H. unfold calm, hex_char, digit, letter. lia.
  Qed.
  Lemma after_calm j k : blank s j k -> follow FN k -> exists c, at_ j = Some c /\ calm c.
  Proof.
    intros Hb Hf. destruct (after FN j) as (c & Hc & HL); [by eapply follow_blank|]. exists c. split; [done|].
    apply calm_dec, orb_true_iff. destruct HL; [by left|right]. by apply bool_decide_eq_true.
  Qed.

  Notation nucleus := (PRef (Some dsl_R_Nucleus) dsl_f_nucleus).
  Notation atom := (PRef (Some dsl_R_Atom) dsl_f_atom).
  Notation rhs := (PRef (Some dsl_R_RHS) dsl_f_rhs).
  Notation ws := (PRef None dsl_f_whitespace).
  Definition item (sep : N) : pexp :=
    if sep =? 44 then PSeq (PSeq (PRef None dsl_f_comma) ws) atom else PSeq (PSeq (PSeq ws (PRef None dsl_f_backslash)) ws) atom.

  Definition PN (i k : N) (e : dexp) : Prop := follow FN k -> forall i', i' = i \/ i' = sk i ->
    (exists c, at_ i' = Some c /\ c <> 38 /\ c <> 33) /\ ok nucleus i' (sk k).
  Definition PA (i k : N) (e : dexp) : Prop := follow FA k -> forall i', i' = i \/ i' = sk i -> ok atom i' (sk k).
  Definition PI (sep i m : N) (es : list dexp) : Prop := sep ∈ [44; 47] -> follow FR m -> forall i', i' = i \/ i' = sk i ->
    exists j, ok atom i' (sk j) /\ (length es = 1%nat /\ sk j = sk m \/
      at_ (sk j) = Some sep /\ exists p, ok atom (sk (sk j + 1)) (sk p) /\ ok (PStar (item sep)) (sk p) (sk m)).
  Definition PR (i j : N) (e : dexp) : Prop := follow FR j -> forall i', i' = i \/ i' = sk i -> ok rhs i' (sk j).

  Lemma ok_sep sep j : sep ∈ [44; 47] -> at_ (sk j) = Some sep -> forall p, ok atom (sk (sk j + 1)) p -> ok (item sep) (sk j) p.
  Proof.
    intros Hs Hc p Hp. rewrite !elem_of_cons, elem_of_nil in Hs. unfold item. destruct Hs as [->|[->|[]]]; simpl.
    - eapply peg_seq_ok; [eapply peg_seq_ok; [body; by apply peg_char_ok|apply ok_ws]|done].
    - eapply peg_seq_ok; [eapply peg_seq_ok; [eapply peg_seq_ok; [apply ok_ws|body; apply peg_char_ok; by rewrite sk_idem]|apply ok_ws]|].
      by rewrite sk_idem.
  Qed.
  Lemma ko_sep sep m : sep ∈ [44; 47] -> follow FR m -> ko (item sep) (sk m).
  Proof.
    intros Hs (c & Hc & HL). rewrite !elem_of_cons, elem_of_nil in Hs. unfold item.
    assert (Hne : c <> 44 /\ c <> 47). { unfold FR in HL. rewrite !elem_of_cons, elem_of_nil in HL. lia. }
    destruct Hs as [->|[->|[]]]; simpl.
    - apply peg_seq_fail, peg_seq_fail. body. eapply ko_char; [done|by destruct Hne].
    - apply peg_seq_fail, peg_seq_fail. eapply peg_seq_ok; [apply ok_ws|]. rewrite sk_idem. body. eapply ko_char; [done|by destruct Hne].
  Qed.

  Lemma pick (i i' c : N) : at_ i = Some c -> is_blank c = false -> i' = i \/ i' = sk i -> i' = i.
  Proof. intros H Hb [->| ->]; [done|]. by eapply sk_here. Qed.
  Lemma ws_ok i j : sk i = j -> ok ws i j.
  Proof. intros <-. apply ok_ws. Qed.

  (** The five kinds of nuclei that start with a byte of their own. *)
  Ltac alt_ko := eapply ko_first; [reflexivity|vm_compute; reflexivity|eassumption|vm_compute; reflexivity].

  Lemma letter_ko l A c i : at_ i = Some c -> letter c -> A < 52 -> nul_of dsl_table A = false ->
    forallb (fun c => negb (may dsl_g (nul_of dsl_table) 30 (PRef l A) c)) letters = true -> ko (PRef l A) i.
  Proof. intros Hc HL HA Hn H. eapply ko_first; [done|done|exact Hc|]. eapply may_class; [exact H|by apply in_letters]. Qed.
  Lemma digit_ko l A c i : at_ i = Some c -> 49 <= c <= 57 -> A < 52 -> nul_of dsl_table A = false ->
    forallb (fun c => negb (may dsl_g (nul_of dsl_table) 30 (PRef l A) c)) digits19 = true -> ko (PRef l A) i.
  Proof. intros Hc HL HA Hn H. eapply ko_first; [done|done|exact Hc|]. eapply may_class; [exact H|by apply in_digits]. Qed.

  Lemma nucleus_range i a b c d e f k x y :
    blank s i a -> text s a (a + 1) [91] -> blank s (a + 1) b -> bound_text s b c x ->
    text s c d [46; 46] -> bound_text s d e y -> blank s e f -> text s f (f + 1) [93] -> blank s (f + 1) k -> PN i k (DRange x y).
  Proof.
    intros H1 H2 H3 H4 H5 H6 H7 H8 H9 Hf i' Hi.
    apply text_one in H2, H8. assert (Ea : sk i = a) by (rewrite (sk_blank _ _ H1); by eapply sk_here).
    assert (Eb : sk (a + 1) = b).
    { rewrite (sk_blank _ _ H3). destruct H4 as [? Hq|? Hx|? Hx].
      - destruct Hq as [? Ht _|? Ht _|Ht]; apply text_cons_inv in Ht as [Ht _]; by eapply sk_here.
      - destruct Hx as (Ht & _); apply text_cons_inv in Ht as [Ht _]; by eapply sk_here.
      - apply int_first in Hx as (v & Hv & Hr). eapply sk_here; [exact Hv|]. destruct (is_blank v) eqn:E; [|done]. apply is_blank_iff in E. lia. }
    assert (Ef : sk e = f) by (rewrite (sk_blank _ _ H7); by eapply sk_here).
    assert (Ei : sk i' = a) by (destruct Hi as [->| ->]; [done|by rewrite sk_idem]).
    split.
    - destruct Hi as [->| ->].
      + rewrite <- Ea in H2. rewrite sk_step in H2. destruct (at_ i) as [v|] eqn:Ev; [|congruence]. exists v. split; [done|].
        destruct (is_blank v) eqn:Eb'; [apply is_blank_iff in Eb'; lia|]. assert (v = 91) by congruence. lia.
      + rewrite Ea. by exists 91.
    - body. eapply peg_seq_ok; [|by apply ws_ok; rewrite sk_idem].
      do 5 apply peg_alt_1. body.
      apply text_cons_inv in H5 as [H5 H5']. apply text_cons_inv in H5' as [H5' H5'']. destruct H5'' as [Hd _]. simpl in Hd. rewrite N.add_0_r in Hd. subst d.
      eapply peg_seq_ok; [eapply peg_seq_ok; [eapply peg_seq_ok; [eapply peg_seq_ok; [eapply peg_seq_ok; [eapply peg_seq_ok; [eapply peg_seq_ok; [eapply peg_seq_ok; [eapply peg_seq_ok|]|]|]|]|]|]|]|].
      + by apply ws_ok.
      + by apply peg_char_ok.
      + by apply ws_ok.
      + eapply ok_bound; [exact H4|exact H5|done|]. unfold hex_char. lia.
      + by apply peg_char_ok.
      + by apply peg_char_ok.
      + assert (Hd' : exists v, at_ e = Some v /\ (is_blank v = true \/ v = 93)).
        { destruct (after [93] e) as (v & Hv & HL). { eapply follow_blank; [exact H7|]. by eapply follow_at; [exact H8|done|left]. }
          exists v. split; [done|]. destruct HL as [?|HL]; [by left|right]. by apply elem_of_list_singleton in HL. }
        destruct Hd' as (v & Hv & Hv'). eapply ok_bound; [exact H6|exact Hv| |].
        * destruct Hv' as [Hb| ->]; [apply is_blank_iff in Hb|]; lia.
        * unfold hex_char. destruct Hv' as [Hb| ->]; [apply is_blank_iff in Hb|]; lia.
      + by apply ws_ok.
      + by apply peg_char_ok.
      + apply ws_ok. by rewrite (sk_blank _ _ H9).
  Qed.
  Lemma nucleus_hook i a b k n e : valid_name n -> text s i a n -> text s a (a + 1) [40] -> PR (a + 1) b e ->
    text s b (b + 1) [41] -> blank s (b + 1) k -> PN i k (DHook n e).
  Proof.
    intros Hv Ht H1 IH H2 Hb Hf i' Hi. apply text_one in H1, H2. destruct Hv as (x & r & -> & Hx & Hr).
    pose proof Ht as [Hc _]%text_cons_inv.
    assert (i' = i) as ->. { eapply pick; [exact Hc| |done]. destruct (is_blank x) eqn:E; [|done]. apply is_blank_iff in E. unfold letter in Hx. lia. }
    split; [exists x; split; [done|]; unfold letter in Hx; lia|].
    body. eapply peg_seq_ok; [|by apply ws_ok, sk_blank].
    do 4 apply peg_alt_1. apply peg_alt_2.
    { eapply letter_ko; [exact Hc|done|done|vm_compute; reflexivity|vm_compute; reflexivity]. }
    assert (Eb : sk b = b) by (by eapply sk_here).
    assert (Hfb : follow FR b) by (eapply follow_at; [exact H2|done|by left]).
    pose proof (IH Hfb _ (or_introl eq_refl)) as Hrhs. rewrite Eb in Hrhs.
    body. eapply peg_seq_ok; [eapply peg_seq_ok; [eapply peg_seq_ok|]|].
    - eapply ok_name; [exact Ht|by exists x, r|exact H1|unfold letter; lia|done].
    - body. by apply peg_char_ok.
    - exact Hrhs.
    - body. by apply peg_char_ok.
  Qed.
  Lemma nucleus_group i b k e : text s i (i + 1) [40] -> PR (i + 1) b e -> text s b (b + 1) [41] -> blank s (b + 1) k -> PN i k (DGroup e).
  Proof.
    intros H1 IH H2 Hb Hf i' Hi. apply text_one in H1, H2. assert (i' = i) as -> by (by eapply pick).
    split; [by exists 40|]. body. eapply peg_seq_ok; [|by apply ws_ok, sk_blank].
    do 3 apply peg_alt_1. apply peg_alt_2; [apply peg_alt_2; alt_ko|].
    assert (Eb : sk b = b) by (by eapply sk_here).
    assert (Hfb : follow FR b) by (eapply follow_at; [exact H2|done|by left]).
    pose proof (IH Hfb _ (or_introl eq_refl)) as Hrhs. rewrite Eb in Hrhs.
    body. eapply peg_seq_ok; [eapply peg_seq_ok|].
    - body. by apply peg_char_ok.
    - exact Hrhs.
    - body. by apply peg_char_ok.
  Qed.
  Lemma nucleus_quoted i j k c : quoted s i j c -> blank s j k -> PN i k (DQuoted c).
  Proof.
    intros Hq Hb Hf i' Hi. assert (H39 : at_ i = Some 39) by (destruct Hq as [? Ht _|? Ht _|Ht]; by apply text_cons_inv in Ht as [Ht _]).
    assert (i' = i) as -> by (by eapply pick). split; [by exists 39|]. destruct (after_calm _ _ Hb Hf) as (d & Hd & Hcalm & _).
    body. eapply peg_seq_ok; [|by apply ws_ok, sk_blank].
    do 2 apply peg_alt_1. apply peg_alt_2; [apply peg_alt_2; [apply peg_alt_2; alt_ko|alt_ko]|]. by eapply ok_terminal.
  Qed.
  Lemma string_start i k c : at_ i = Some c -> is_blank c = false -> c <> 38 -> c <> 33 -> forall i', i' = i \/ i' = sk i ->
    (c = 34 \/ c = 48 \/ 49 <= c <= 57) -> ok (PRef (Some dsl_R_StringTerminal) dsl_f_stringterminal) i k ->
    (exists c, at_ i' = Some c /\ c <> 38 /\ c <> 33) /\ ok nucleus i' (sk k).
  Proof.
    intros Hc Hb H38 H33 i' Hi HC Hok. assert (i' = i) as -> by (by eapply pick). split; [by exists c|].
    body. eapply peg_seq_ok; [|apply ok_ws]. apply peg_alt_1. apply peg_alt_2; [|done].
    destruct HC as [->|[->|HC]].
    - apply peg_alt_2; [apply peg_alt_2; [apply peg_alt_2; alt_ko|alt_ko]|alt_ko].
    - apply peg_alt_2; [apply peg_alt_2; [apply peg_alt_2; alt_ko|alt_ko]|alt_ko].
    - apply peg_alt_2; [apply peg_alt_2; [apply peg_alt_2|]|]; (eapply digit_ko; [exact Hc|done|done|vm_compute; reflexivity|vm_compute; reflexivity]).
  Qed.
  Notation other_ascii := (PSeq (PNot (PRef None dsl_f_apostrophe)) (PRef (Some dsl_R_ASCII) dsl_f_ascii)).
  Lemma ok_other i c : at_ i = Some c -> c <> 34 /\ c <= 255 -> ok other_ascii i (i + 1).
  Proof.
    intros H [H1 H2]. eapply peg_seq_ok; [|by eapply ok_ascii]. apply peg_not_ok. body. by eapply ko_char.
  Qed.
  Lemma nucleus_string i j k l : text s i j (34 :: l ++ [34]) -> string_body l -> blank s j k -> PN i k (DString l).
  Proof.
    intros Ht [Hlen HF] Hb Hf i' Hi. pose proof Ht as [H34 Ht']%text_cons_inv. rewrite <- (sk_blank _ _ Hb).
    eapply string_start; [exact H34|done|done|done|done|by left|].
    apply text_app_inv in Ht' as [H1 H2]. apply text_cons_inv in H2 as [H2 [Hj _]]. simpl in Hj. rewrite N.add_0_r in Hj. subst j.
    destruct l as [|c l]; [simpl in Hlen; lia|]. destruct l as [|d l]; [simpl in Hlen; lia|].
    apply list.Forall_cons in HF as [[Hc1 Hc2] HF]. apply list.Forall_cons in HF as [Hd HF].
    apply text_cons_inv in H1 as [Hc H1]. apply text_cons_inv in H1 as [Hd' H1].
    body. apply peg_alt_1, peg_alt_1. eapply peg_seq_ok; [eapply peg_seq_ok; [eapply peg_seq_ok|]|].
    - body. by apply peg_char_ok.
    - apply peg_not_ok. body. by eapply ko_char.
    - eapply peg_seq_ok; [by eapply ok_ascii|]. eapply peg_plus_ok; [by eapply ok_other|].
      eapply star_class; [intros ? ?; apply ok_other|exact H1|exact HF|]. apply peg_seq_fail. eapply peg_not_fail. body. by apply peg_char_ok.
    - body. by apply peg_char_ok.
  Qed.
  Lemma nucleus_hex i j k ds : hexnum s i j ds -> blank s j k -> PN i k (DHexLit ds).
  Proof.
    intros Hx Hb Hf i' Hi. pose proof Hx as (Ht & _). apply text_cons_inv in Ht as [H48 _]. rewrite <- (sk_blank _ _ Hb).
    destruct (after_calm _ _ Hb Hf) as (d & Hd & _ & Hcalm & _).
    eapply string_start; [exact H48|done|done|done|done|by right; left|].
    body. apply peg_alt_1, peg_alt_2; [apply peg_seq_fail, peg_seq_fail, peg_seq_fail; body; by eapply ko_char|]. by eapply ok_hex.
  Qed.
  Lemma nucleus_int i j k ds : integer s i j ds -> blank s j k -> PN i k (DIntLit ds).
  Proof.
    intros Hx Hb Hf i' Hi. destruct (int_first _ _ _ Hx) as (a & Ha & Hr). rewrite <- (sk_blank _ _ Hb).
    destruct (after_calm _ _ Hb Hf) as (d & Hd & _ & _ & Hcalm & _).
    eapply string_start; [exact Ha| |lia|lia|done|by right; right|].
    { destruct (is_blank a) eqn:E; [|done]. apply is_blank_iff in E. lia. }
    body. apply peg_alt_2; [apply peg_alt_2|].
    - apply peg_seq_fail, peg_seq_fail, peg_seq_fail. body. eapply ko_char; [exact Ha|lia].
    - eapply digit_ko; [exact Ha|done|done|vm_compute; reflexivity|vm_compute; reflexivity].
    - by eapply ok_int.
  Qed.
  Lemma nucleus_ref i j k n : text s i j (60 :: n ++ [62]) -> valid_name n -> blank s j k -> PN i k (DRef n).
  Proof.
    intros Ht Hv Hb Hf i' Hi. pose proof Ht as [H60 _]%text_cons_inv. assert (i' = i) as -> by (by eapply pick). split; [by exists 60|].
    body. eapply peg_seq_ok; [|by apply ws_ok, sk_blank].
    apply peg_alt_2; [apply peg_alt_2; [apply peg_alt_2; [apply peg_alt_2; [apply peg_alt_2; alt_ko|alt_ko]|alt_ko]|alt_ko]|].
    eapply ok_ref_name; [by left|done|done].
  Qed.

  (** Prefixed and suffixed nuclei. *)
  Lemma ko_amp i c l : at_ i = Some c -> c <> 38 -> ko (PRef l dsl_f_and_predicate) i.
  Proof. intros. body. apply peg_seq_fail. body. by eapply ko_char. Qed.
  Lemma ko_excl i c l : at_ i = Some c -> c <> 33 -> ko (PRef l dsl_f_not_predicate) i.
  Proof. intros. body. apply peg_seq_fail. body. by eapply ko_char. Qed.
  Definition suffix_fn (f c : N) : Prop := (f = dsl_f_one_or_more /\ c = 43) \/ (f = dsl_f_zero_or_more /\ c = 42) \/ (f = dsl_f_optional /\ c = 63).
  Lemma ok_suffix l f c i k : suffix_fn f c -> ok nucleus i k -> at_ (sk k) = Some c -> ok (PRef l f) i (sk k + 1).
  Proof.
    intros [[-> ->]|[[-> ->]|[-> ->]]] Hn Hc; body; (eapply peg_seq_ok; [eapply peg_seq_ok; [exact Hn|apply ok_ws]|]); body; by apply peg_char_ok.
  Qed.
  Lemma ko_suffix l f c d i k : suffix_fn f c -> ok nucleus i k -> at_ (sk k) = Some d -> d <> c -> ko (PRef l f) i.
  Proof.
    intros [[-> ->]|[[-> ->]|[-> ->]]] Hn Hc Hd; body; (eapply peg_seq_ok; [eapply peg_seq_ok; [exact Hn|apply ok_ws]|]); body; by eapply ko_char.
  Qed.
  Lemma sf1 : suffix_fn dsl_f_one_or_more 43. Proof. by left. Qed.
  Lemma sf2 : suffix_fn dsl_f_zero_or_more 42. Proof. by right; left. Qed.
  Lemma sf3 : suffix_fn dsl_f_optional 63. Proof. by right; right. Qed.

  Lemma FA_FN : FA ⊆ FN.
  Proof. intros c. unfold FA, FN. rewrite !elem_of_cons. tauto. Qed.
  Lemma FR_FA : FR ⊆ FA.
  Proof. intros c. unfold FA, FR. rewrite !elem_of_cons. tauto. Qed.
  Lemma atom_and i j k e : text s i (i + 1) [38] -> PN (i + 1) j e -> blank s j k -> PA i k (DAnd e).
  Proof.
    intros H1 IH Hb Hf i' Hi. apply text_one in H1. assert (i' = i) as -> by (by eapply pick).
    destruct (IH (follow_blank _ _ _ Hb (follow_impl _ _ _ FA_FN Hf)) _ (or_introl eq_refl)) as [_ Hn].
    body. eapply peg_seq_ok; [do 5 apply peg_alt_1|apply ws_ok; rewrite sk_idem; by apply sk_blank].
    body. eapply peg_seq_ok; [body; by apply peg_char_ok|exact Hn].
  Qed.
  Lemma atom_not i j k e : text s i (i + 1) [33] -> PN (i + 1) j e -> blank s j k -> PA i k (DNot e).
  Proof.
    intros H1 IH Hb Hf i' Hi. apply text_one in H1. assert (i' = i) as -> by (by eapply pick).
    destruct (IH (follow_blank _ _ _ Hb (follow_impl _ _ _ FA_FN Hf)) _ (or_introl eq_refl)) as [_ Hn].
    body. eapply peg_seq_ok; [do 4 apply peg_alt_1; apply peg_alt_2; [by eapply ko_amp|]|apply ws_ok; rewrite sk_idem; by apply sk_blank].
    body. eapply peg_seq_ok; [body; by apply peg_char_ok|exact Hn].
  Qed.
  Lemma suffixed i j k l c e : PN i j e -> blank s j k -> text s k (k + 1) [c] -> blank s (k + 1) l -> c ∈ [43; 42; 63] ->
    forall i', i' = i \/ i' = sk i -> ok nucleus i' (sk j) /\ at_ (sk (sk j)) = Some c /\ sk (sk (sk j) + 1) = sk l /\ exists d, at_ i' = Some d /\ d <> 38 /\ d <> 33.
  Proof.
    intros IH Hb Hc Hb' HC i' Hi. apply text_one in Hc.
    assert (Hnb : is_blank c = false) by (rewrite !elem_of_cons, elem_of_nil in HC; by destruct HC as [->|[->|[->|[]]]]).
    assert (Ek : sk j = k) by (rewrite (sk_blank _ _ Hb); by eapply sk_here).
    destruct (IH) with (i' := i') as [Hd Hn]; [|done|].
    - exists c. rewrite Ek. split; [done|]. rewrite !elem_of_cons, elem_of_nil in HC. unfold FN. rewrite !elem_of_cons. tauto.
    - split; [done|]. rewrite sk_idem, Ek. split; [done|]. split; [by apply sk_blank|done].
  Qed.
  Lemma atom_plus i j k l e : PN i j e -> blank s j k -> text s k (k + 1) [43] -> blank s (k + 1) l -> PA i l (DPlus e).
  Proof.
    intros H1 H2 H3 H4 Hf i' Hi. destruct (suffixed _ _ _ _ _ _ H1 H2 H3 H4 ltac:(by left) _ Hi) as (Hn & Hc & He & d & Hd & Hd1 & Hd2).
    body. eapply peg_seq_ok; [|apply ws_ok; exact He]. do 3 apply peg_alt_1. apply peg_alt_2; [apply peg_alt_2; [by eapply ko_amp|by eapply ko_excl]|].
    eapply ok_suffix; [apply sf1|exact Hn|exact Hc].
  Qed.
  Lemma atom_star i j k l e : PN i j e -> blank s j k -> text s k (k + 1) [42] -> blank s (k + 1) l -> PA i l (DStar e).
  Proof.
    intros H1 H2 H3 H4 Hf i' Hi. destruct (suffixed _ _ _ _ _ _ H1 H2 H3 H4 ltac:(by right; left) _ Hi) as (Hn & Hc & He & d & Hd & Hd1 & Hd2).
    body. eapply peg_seq_ok; [|apply ws_ok; exact He]. do 2 apply peg_alt_1. apply peg_alt_2; [apply peg_alt_2; [apply peg_alt_2; [by eapply ko_amp|by eapply ko_excl]|]|].
    - eapply ko_suffix; [apply sf1|exact Hn|exact Hc|done].
    - eapply ok_suffix; [apply sf2|exact Hn|exact Hc].
  Qed.
  Lemma atom_opt i j k l e : PN i j e -> blank s j k -> text s k (k + 1) [63] -> blank s (k + 1) l -> PA i l (DOpt e).
  Proof.
    intros H1 H2 H3 H4 Hf i' Hi. destruct (suffixed _ _ _ _ _ _ H1 H2 H3 H4 ltac:(by right; right; left) _ Hi) as (Hn & Hc & He & d & Hd & Hd1 & Hd2).
    body. eapply peg_seq_ok; [|apply ws_ok; exact He]. do 1 apply peg_alt_1. apply peg_alt_2; [apply peg_alt_2; [apply peg_alt_2; [apply peg_alt_2; [by eapply ko_amp|by eapply ko_excl]|]|]|].
    - eapply ko_suffix; [apply sf1|exact Hn|exact Hc|done].
    - eapply ko_suffix; [apply sf2|exact Hn|exact Hc|done].
    - eapply ok_suffix; [apply sf3|exact Hn|exact Hc].
  Qed.
  Lemma atom_plain i j k e : PN i j e -> blank s j k -> PA i k e.
  Proof.
    intros IH Hb Hf i' Hi. pose proof (follow_blank _ _ _ Hb Hf) as (c & Hc & HC).
    destruct (IH (follow_blank _ _ _ Hb (follow_impl _ _ _ FA_FN Hf)) _ Hi) as [(d & Hd & Hd1 & Hd2) Hn].
    assert (Hne : c <> 43 /\ c <> 42 /\ c <> 63) by (unfold FA in HC; rewrite !elem_of_cons, elem_of_nil in HC; lia). destruct Hne as (N1 & N2 & N3).
    rewrite <- (sk_idem j) in Hc.
    body. eapply peg_seq_ok; [|apply ws_ok; rewrite sk_idem; by apply sk_blank].
    apply peg_alt_2; [apply peg_alt_2; [apply peg_alt_2; [apply peg_alt_2; [apply peg_alt_2; [by eapply ko_amp|by eapply ko_excl]|]|]|]|exact Hn].
    - eapply ko_suffix; [apply sf1|exact Hn|exact Hc|done].
    - eapply ko_suffix; [apply sf2|exact Hn|exact Hc|done].
    - eapply ko_suffix; [apply sf3|exact Hn|exact Hc|done].
  Qed.

  (** Items. *)
  Lemma items_one sep i j e : PA i j e -> PI sep i j [e].
  Proof. intros IH Hs Hf i' Hi. exists j. split; [apply IH; [by eapply follow_impl, Hf; apply FR_FA|done]|]. by left. Qed.
  Lemma items_cons sep i j k l m e es : PA i j e -> blank s j k -> text s k (k + 1) [sep] -> blank s (k + 1) l -> PI sep l m es -> PI sep i m (e :: es).
  Proof.
    intros IH Hb Hc Hb' IHs Hs Hf i' Hi. apply text_one in Hc.
    assert (Hnb : is_blank sep = false) by (rewrite !elem_of_cons, elem_of_nil in Hs; by destruct Hs as [->|[->|[]]]).
    assert (Ek : sk j = k) by (rewrite (sk_blank _ _ Hb); by eapply sk_here).
    exists j. split. { apply IH; [|done]. exists sep. rewrite Ek. split; [done|]. unfold FA. rewrite !elem_of_cons, elem_of_nil in Hs. rewrite !elem_of_cons. tauto. }
    right. rewrite Ek. split; [done|]. destruct (IHs Hs Hf (sk l) (or_intror eq_refl)) as (p & Hp & Hrest). exists p.
    rewrite (sk_blank _ _ Hb'). split; [done|]. destruct Hrest as [[_ ->]|(Hsep & p' & Hp' & Hst)].
    - apply peg_star_stop. by apply ko_sep.
    - eapply peg_star_more; [|exact Hst]. by apply ok_sep.
  Qed.

  (** Right-hand sides. *)
  Lemma ok_list l f sep i p m : (f = dsl_f_sequence /\ sep = 44 \/ f = dsl_f_ordered_choice /\ sep = 47) ->
    ok atom i (sk p) -> at_ (sk p) = Some sep -> forall q, ok atom (sk (sk p + 1)) q -> ok (PStar (item sep)) q m -> ok (PRef l f) i m.
  Proof.
    intros [[-> ->]|[-> ->]] Ha Hc q Hq Hst; body;
      (eapply peg_seq_ok; [eapply peg_seq_ok; [eapply peg_seq_ok; [eapply peg_seq_ok; [eapply peg_seq_ok; [exact Ha|apply ok_ws]|body; apply peg_char_ok; by rewrite sk_idem]|apply ok_ws]|]|exact Hst]);
      by rewrite sk_idem.
  Qed.
  Lemma ko_list l f sep i p c : (f = dsl_f_sequence /\ sep = 44 \/ f = dsl_f_ordered_choice /\ sep = 47) ->
    ok atom i (sk p) -> at_ (sk p) = Some c -> c <> sep -> ko (PRef l f) i.
  Proof.
    intros [[-> ->]|[-> ->]] Ha Hc Hne; body; do 3 apply peg_seq_fail;
      (eapply peg_seq_ok; [eapply peg_seq_ok; [exact Ha|apply ok_ws]|]); body; (eapply ko_char; [rewrite sk_idem; exact Hc|done]).
  Qed.
  Lemma rhs_seq i k j es : blank s i k -> PI 44 k j es -> (2 <= length es)%nat -> PR i j (DSeq es).
  Proof.
    intros Hb IH Hl Hf i' Hi. destruct (IH ltac:(by left) Hf (sk k) (or_intror eq_refl)) as (p & Hp & Hrest).
    destruct Hrest as [[? _]|(Hsep & q & Hq & Hst)]; [lia|]. body.
    eapply peg_seq_ok; [apply (ws_ok _ (sk k))|].
    { destruct Hi as [->| ->]; [|rewrite sk_idem]; by apply sk_blank. }
    apply peg_alt_1, peg_alt_1. eapply ok_list; [by left|exact Hp|exact Hsep|exact Hq|exact Hst].
  Qed.
  Lemma rhs_alt i k j es : blank s i k -> PI 47 k j es -> (2 <= length es)%nat -> PR i j (DAlt es).
  Proof.
    intros Hb IH Hl Hf i' Hi. destruct (IH ltac:(by right; left) Hf (sk k) (or_intror eq_refl)) as (p & Hp & Hrest).
    destruct Hrest as [[? _]|(Hsep & q & Hq & Hst)]; [lia|]. body.
    eapply peg_seq_ok; [apply (ws_ok _ (sk k))|].
    { destruct Hi as [->| ->]; [|rewrite sk_idem]; by apply sk_blank. }
    apply peg_alt_1, peg_alt_2.
    - eapply ko_list; [by left|exact Hp|exact Hsep|done].
    - eapply ok_list; [by right|exact Hp|exact Hsep|exact Hq|exact Hst].
  Qed.
  Lemma rhs_one i k j e : blank s i k -> PA k j e -> PR i j e.
  Proof.
    intros Hb IH Hf i' Hi. pose proof Hf as (c & Hc & HC).
    assert (Hne : c <> 44 /\ c <> 47). { unfold FR in HC. rewrite !elem_of_cons, elem_of_nil in HC. lia. }
    pose proof (IH (follow_impl _ _ _ FR_FA Hf) (sk k) (or_intror eq_refl)) as Ha. body.
    eapply peg_seq_ok; [apply (ws_ok _ (sk k))|].
    { destruct Hi as [->| ->]; [|rewrite sk_idem]; by apply sk_blank. }
    apply peg_alt_2; [apply peg_alt_2|exact Ha].
    - eapply ko_list; [by left|exact Ha|exact Hc|tauto].
    - eapply ko_list; [by right|exact Ha|exact Hc|tauto].
  Qed.

  Scheme rhs_mut := Minimality for rhs_text Sort Prop
    with items_mut := Minimality for items_text Sort Prop
    with atom_mut := Minimality for atom_text Sort Prop
    with nucleus_mut := Minimality for nucleus_text Sort Prop.
  Ltac all_cases := intros;
    first [by eapply rhs_seq | by eapply rhs_alt | by eapply rhs_one | by apply items_one | by eapply items_cons
          | by eapply atom_and | by eapply atom_not | by eapply atom_plus | by eapply atom_star | by eapply atom_opt | by eapply atom_plain
          | by eapply nucleus_range | by eapply nucleus_hook | by eapply nucleus_group | by eapply nucleus_quoted
          | by eapply nucleus_string | by eapply nucleus_hex | by eapply nucleus_int | by eapply nucleus_ref].
  Theorem rhs_accepted i j e : rhs_text s i j e -> PR i j e.
  Proof. apply (rhs_mut s PR PI PA PN); all_cases. Qed.
  Theorem atom_accepted i j e : atom_text s i j e -> PA i j e.
  Proof. apply (atom_mut s PR PI PA PN); all_cases. Qed.
  Theorem nucleus_accepted i j e : nucleus_text s i j e -> PN i j e.
  Proof. apply (nucleus_mut s PR PI PA PN); all_cases. Qed.

  (** ** Rules *)
  Notation comment := (PRef (Some dsl_R_Comment) dsl_f_comment).
  Notation rule := (PRef (Some dsl_R_Rule) dsl_f_rule).
  Lemma ok_comment i j l i' : comment_text s i j l -> sk i' = sk i -> ok comment i' (sk j).
  Proof.
    intros (a & b & H1 & Ht & HF & H2) Hi. pose proof Ht as [Ha Ht']%text_cons_inv.
    apply text_app_inv in Ht' as [Hl Hb]. apply text_cons_inv in Hb as [Hb [Eb _]]. simpl in Eb. rewrite N.add_0_r in Eb. subst b.
    assert (Ea : sk i' = a) by (rewrite Hi, (sk_blank _ _ H1); by eapply sk_here).
    body. eapply peg_seq_ok; [eapply peg_seq_ok; [eapply peg_seq_ok; [eapply peg_seq_ok|]|]|].
    - by apply ws_ok.
    - by apply peg_char_ok.
    - eapply star_class; [|exact Hl|exact HF|].
      + intros k c Hc [Hne Hle]. eapply peg_seq_ok; [|by eapply ok_ascii]. apply peg_not_ok. by eapply ko_char.
      + apply peg_seq_fail. eapply peg_not_fail. by apply peg_char_ok.
    - by apply peg_char_ok.
    - by apply ws_ok, sk_blank.
  Qed.
  Lemma ko_comment i : at_ (sk i) <> Some 35 -> ko comment (sk i).
  Proof.
    intros H. body. do 3 apply peg_seq_fail. eapply peg_seq_ok; [by apply ws_ok|]. apply peg_char_fail. by rewrite sk_idem.
  Qed.
  Lemma ok_comments i j ls : comments_text s i j ls -> at_ (sk j) <> Some 35 -> ok (PStar comment) (sk i) (sk j).
  Proof.
    induction 1 as [i|i j k l ls Hl Hls IH]; intros Hn; [by apply peg_star_stop, ko_comment|].
    eapply peg_star_more; [|by apply IH]. eapply ok_comment; [exact Hl|by rewrite sk_idem].
  Qed.
  Lemma rule_starts i j r : rule_text s i j r -> at_ i = Some 60.
  Proof. intros (a & b & c & d & e & f & g & H & _). by apply text_cons_inv in H as [H _]. Qed.
  Lemma ok_rule_head i j r : rule_text s i j r -> exists f, f < N.of_nat (length s) /\ (exists g, sk (f + 1) = sk g /\ comments_text s g j (dr_comments r)) /\
    forall p, ok (PStar comment) (sk (f + 1)) p -> ok rule i p.
  Proof.
    intros (a & b & c & d & e & f & g & H1 & Hv & Hinl & H2 & Hc & H3 & Hrhs & H4 & Hf & H5 & H6).
    exists f. split; [apply text_one in Hf; apply lookup_lt_Some in Hf; lia|]. split; [exists g; split; [by apply sk_blank|done]|]. intros p0 Hp0.
    apply text_one in Hc, Hf. assert (Ec : sk b = c) by (rewrite (sk_blank _ _ H2); by eapply sk_here).
    assert (Ef : sk e = f) by (rewrite (sk_blank _ _ H4); by eapply sk_here).
    assert (Hlhs : exists p, ok (PRef (Some dsl_R_LHS) dsl_f_lhs) i p /\ sk p = c).
    { destruct (dr_inline r).
      - destruct Hinl as (x & y & Hx & Ht & Hy). pose proof Ht as [Hx' _]%text_cons_inv.
        assert (Ex : sk a = x) by (rewrite (sk_blank _ _ Hx); by eapply sk_here).
        exists (sk y). split; [|rewrite sk_idem, (sk_blank _ _ Hy); done].
        body. eapply peg_seq_ok; [eapply ok_ref_name; [by right|exact H1|done]|].
        apply peg_opt_some. eapply peg_seq_ok; [eapply peg_seq_ok|].
        + by apply ws_ok.
        + body. body. destruct Ht as [_ Ht]. by apply (peg_str_ok _ _ keyword_inline).
        + apply ws_ok. destruct Ht as [-> _]. done.
      - subst b. exists a. split; [|done].
        body. eapply peg_seq_ok; [eapply ok_ref_name; [by right|exact H1|done]|].
        apply peg_opt_none, peg_seq_fail. eapply peg_seq_ok; [by apply ws_ok|]. body. body. apply peg_str_fail.
        intros Ho. apply occurs_at_cons in Ho as [Ho _]. congruence. }
    destruct Hlhs as (p & Hlhs & Ep).
    pose proof (rhs_accepted _ _ _ Hrhs) as HR. unfold PR in HR.
    assert (Hfe : follow FR e). { exists 59. rewrite Ef. split; [done|]. unfold FR. rewrite !elem_of_cons. tauto. }
    specialize (HR Hfe (sk d) (or_intror eq_refl)).
    body. eapply peg_seq_ok; [eapply peg_seq_ok; [eapply peg_seq_ok; [eapply peg_seq_ok; [eapply peg_seq_ok; [eapply peg_seq_ok; [eapply peg_seq_ok; [eapply peg_seq_ok|]|]|]|]|]|]|].
    - exact Hlhs.
    - by apply ws_ok.
    - body. by apply peg_char_ok.
    - by apply ws_ok, sk_blank.
    - exact HR.
    - apply ws_ok. rewrite sk_idem. exact Ef.
    - body. by apply peg_char_ok.
    - by apply ws_ok.
    - done.
  Qed.
  Lemma ok_rule i j r : rule_text s i j r -> at_ (sk j) <> Some 35 -> ok rule i (sk j).
  Proof. intros (f & _ & (g & Eg & Hc) & H)%ok_rule_head Hn. apply H. rewrite Eg. by eapply ok_comments. Qed.
  (** Wherever a rule is spelled, the grammar reads some rule. *)
  Lemma some_rule i j r : rule_text s i j r -> exists p, ok rule i p.
  Proof.
    intros (f & Hf & _ & H)%ok_rule_head.
    destruct (peg_total (nul_of dsl_table) (lvl_of dsl_table) dsl_g s (well_founded_program_grammar _ _ _ _ dsl_ok dsl_wf)
      (PStar comment) (S (lvl_of dsl_table dsl_f_comment)) true (sk (f + 1))) as [[p|] Ho].
    - split; [vm_compute; done|]. by apply guard_ref.
    - apply sk_le. lia.
    - eauto.
    - exfalso. clear -Ho. remember (PStar comment) as x. remember None as o. revert Heqx Heqo. induction Ho; intros; simplify_eq; eauto.
  Qed.
  (** A rule is read together with the blanks behind it. *)
  Lemma ws_end i j : ok ws i j -> sk j = j.
  Proof. intros H. pose proof (peg_det _ _ _ _ _ _ H (ok_ws i)) as E. injection E as ->. apply sk_idem. Qed.
  Lemma star_end e (Q : N -> Prop) i j : (forall i j, ok e i j -> Q j) -> ok (PStar e) i j -> Q i -> Q j.
  Proof.
    intros He H. remember (PStar e) as x. remember (Some j) as o. revert Heqx Heqo. induction H; intros; simplify_eq; eauto.
  Qed.
  Lemma star_stopped e i j : ok (PStar e) i j -> ko e j.
  Proof. intros H. remember (PStar e) as x. remember (Some j) as o. revert Heqx Heqo. induction H; intros; simplify_eq; eauto. Qed.
  Lemma seq_last a b i j : ok (PSeq a b) i j -> exists k, ok a i k /\ ok b k j.
  Proof. inversion 1; subst; eauto. Qed.
  Lemma ref_body l A b i o : dsl_g A = Some b -> peg dsl_g s (PRef l A) i o -> peg dsl_g s b i o.
  Proof. intros Hb H. inversion H; subst. by simplify_eq. Qed.
  Lemma comment_end i j : ok comment i j -> sk j = j.
  Proof. intros H. eapply ref_body in H; [|vm_compute; reflexivity]. apply seq_last in H as (k & _ & H). by eapply ws_end. Qed.
  Lemma rule_end i j : ok rule i j -> sk j = j.
  Proof.
    intros H. eapply ref_body in H; [|vm_compute; reflexivity]. apply seq_last in H as (k & H1 & H2).
    apply (star_end _ (fun j => sk j = j)) in H2; [done|apply comment_end|]. apply seq_last in H1 as (k' & _ & H1). by eapply ws_end.
  Qed.
  (** Where reading a grammar file stops, no further rule is spelled. *)
  Theorem grammar_stops l o : peg dsl_g s (PRef l dsl_f_grammar) 0 o -> forall j r,
    ~ rule_text s (match o with Some q => q | None => 0 end) j r.
  Proof.
    intros H j r (p & Hp)%some_rule. eapply ref_body in H; [|vm_compute; reflexivity].
    assert (Hko : ko rule (match o with Some q => q | None => 0 end)); [|by pose proof (peg_det _ _ _ _ _ _ Hko Hp)].
    clear Hp p. destruct o as [q|].
    - apply seq_last in H as (k & H1 & H2). inversion H1; subst. match goal with H : peg _ _ (PRef _ _) 0 (Some _) |- _ => pose proof (rule_end _ _ H) as He end.
      match goal with H : peg _ _ (PStar _) _ _ |- _ => pose proof (star_stopped _ _ _ H) as Hko; apply (star_end _ (fun j => sk j = j)) in H; [|by apply rule_end|done]; rename H into Hk end.
      assert (q = k) as ->; [|done]. inversion H2; subst; [|done].
      match goal with H : peg _ _ (PRef None _) k _ |- _ => pose proof (peg_det _ _ _ _ _ _ H (ok_ws k)) as E end. injection E as ->. done.
    - inversion H as [| | | | | |e1 e2 i k o H1 H2|e1 e2 i H1| | | | | | | | | | | | |]; subst.
      + inversion H2.
      + inversion H1; subst; [done|]. match goal with H : peg _ _ (PStar _) _ None |- _ => rename H into Ho end.
        exfalso. clear -Ho. match type of Ho with peg _ _ ?e _ _ => remember e as x end. remember None as o. revert Heqx Heqo. induction Ho; intros; simplify_eq; eauto.
  Qed.
  Lemma ko_rule_end i : N.of_nat (length s) <= i -> i <= N.of_nat (length s) -> ko rule i.
  Proof.
    intros H Hle. apply ko_ref; [done|done|]. intros j Hj.
    assert (j = i) as -> by (eapply peg_past; [exact Hj|done|lia]).
    apply peg_trace in Hj as [F Hj]. apply tr_lt in Hj; [lia|vm_compute; done].
  Qed.
  Notation L := (N.of_nat (length s)).
  Lemma at_end : at_ L = None.
  Proof. apply lookup_ge_None. lia. Qed.
  Lemma sk_end : sk L = L.
  Proof. rewrite sk_step, at_end. done. Qed.
  Lemma ok_rules i k rs : rules_text s i k rs -> blank s k L -> (rs <> [] -> exists j, ok rule i j /\ ok (PStar rule) j L) /\ (rs = [] -> sk i = L).
  Proof.
    intros H Hb. induction H as [i|i j k r rs Hr Hrs IH].
    - split; [done|]. intros _. rewrite (sk_blank _ _ Hb). apply sk_end.
    - destruct (IH Hb) as [IH1 IH2]. split; [|done]. intros _. exists (sk j).
      destruct rs as [|r' rs].
      + rewrite (IH2 eq_refl) in *. split; [|apply peg_star_stop, ko_rule_end; lia].
        rewrite <- (IH2 eq_refl). eapply ok_rule; [exact Hr|]. rewrite (IH2 eq_refl), at_end. done.
      + destruct (IH1 ltac:(done)) as (j' & H1 & H2). assert (H60 : at_ j = Some 60) by (inversion Hrs; subst; by eapply rule_starts).
        assert (Ej : sk j = j) by (by eapply sk_here). rewrite Ej. split.
        * rewrite <- Ej. eapply ok_rule; [exact Hr|]. rewrite Ej, H60. done.
        * by eapply peg_star_more.
  Qed.
  Theorem file_accepted l rules : file_text s rules -> ok (PRef l dsl_f_grammar) 0 L.
  Proof.
    intros (i & Hne & Hr & Hb). destruct (ok_rules _ _ _ Hr Hb) as [H _]. destruct (H Hne) as (j & H1 & H2).
    body. eapply peg_seq_ok; [eapply peg_plus_ok; [exact H1|exact H2]|]. apply peg_opt_some. apply ws_ok. apply sk_end.
  Qed.
End complete.
