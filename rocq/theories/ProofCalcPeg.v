(** The written expressions are matched, whole, by the iterative grammars that
    the example parsers mean (C41). *)
From Verif Require Import SpecExamples ExampleTables.
From Verif Require Export ProofUnambiguous.
Local Open Scope N_scope.
Notation len l := (N.of_nat (length l)).

Section at_position.
  Context (g : pgrammar) (s : list N).
  Definition here (i : N) (l : list N) : Prop := drop (N.to_nat i) s = l.
  Lemma here_app i x r : here i (x ++ r) -> here (i + len x) r.
  Proof.
    unfold here. intros H. rewrite N2Nat.inj_add, Nat2N.id. rewrite <- drop_drop, H. by rewrite drop_app.
  Qed.
  Lemma here_cons i c r : here i (c :: r) -> here (i + 1) r.
  Proof. intros H. by apply (here_app i [c]) in H. Qed.
  Lemma here_lookup i r : here i r -> s !! N.to_nat i = head r.
  Proof. unfold here. intros <-. rewrite <- (Nat.add_0_r (N.to_nat i)) at 1. rewrite <- lookup_drop. by destruct (drop _ _). Qed.
  Lemma char_ok i c r : here i (c :: r) -> peg g s (PChar c) i (Some (i + 1)).
  Proof. intros H%here_lookup. by constructor. Qed.
  Lemma char_fail i c r : here i r -> stops (N.eqb c) r -> peg g s (PChar c) i None.
  Proof. intros H%here_lookup Hr. apply peg_char_fail. rewrite H. destruct r as [|c' r]; [done|]. simpl. unfold stops in Hr. apply N.eqb_neq in Hr. congruence. Qed.
  Definition seg (e : pexp) (x r : list N) : Prop := forall i, here i (x ++ r) -> peg g s e i (Some (i + len x)).
  Definition no (e : pexp) (r : list N) : Prop := forall i, here i r -> peg g s e i None.
  Lemma seg_seq e1 e2 x y r : seg e1 x (y ++ r) -> seg e2 y r -> seg (PSeq e1 e2) (x ++ y) r.
  Proof.
    intros H1 H2 i Hi. rewrite <- app_assoc in Hi. econstructor; [by apply H1|]. apply here_app in Hi. apply H2 in Hi.
    rewrite app_length, Nat2N.inj_add, N.add_assoc. done.
  Qed.
  Lemma seg_char c r : seg (PChar c) [c] r.
  Proof. intros i Hi. by eapply char_ok. Qed.
  Lemma no_char c r : stops (N.eqb c) r -> no (PChar c) r.
  Proof. intros Hr i Hi. by eapply char_fail. Qed.
  Lemma seg_ref l A body x r : g A = Some body -> seg body x r -> seg (PRef l A) x r.
  Proof. intros HA H i Hi. econstructor; [done|]. by apply H. Qed.
  Lemma no_ref l A body r : g A = Some body -> no body r -> no (PRef l A) r.
  Proof. intros HA H i Hi. econstructor; [done|]. by apply H. Qed.
  Lemma seg_alt_1 e1 e2 x r : seg e1 x r -> seg (PAlt e1 e2) x r.
  Proof. intros H i Hi. apply peg_alt_1. by apply H. Qed.
  Lemma seg_alt_2 e1 e2 x r : no e1 (x ++ r) -> seg e2 x r -> seg (PAlt e1 e2) x r.
  Proof. intros H1 H2 i Hi. apply peg_alt_2; [by apply H1|by apply H2]. Qed.
  Lemma no_seq_1 e1 e2 r : no e1 r -> no (PSeq e1 e2) r.
  Proof. intros H i Hi. apply peg_seq_fail. by apply H. Qed.
  Lemma no_seq_2 e1 e2 x r : seg e1 x r -> no e2 r -> no (PSeq e1 e2) (x ++ r).
  Proof. intros H1 H2 i Hi. econstructor; [by apply H1|]. apply H2. by apply here_app. Qed.
  Lemma no_alt e1 e2 r : no e1 r -> no e2 r -> no (PAlt e1 e2) r.
  Proof. intros H1 H2 i Hi. apply peg_alt_2; [by apply H1|by apply H2]. Qed.
  Lemma seg_opt e x r : seg e x r -> seg (POpt e) x r.
  Proof. intros H i Hi. constructor. by apply H. Qed.
  Lemma seg_opt_none e r : no e r -> seg (POpt e) [] r.
  Proof. intros H i Hi. rewrite N.add_0_r. apply peg_opt_none. by apply H. Qed.
  Lemma seg_star_nil e r : no e r -> seg (PStar e) [] r.
  Proof. intros H i Hi. rewrite N.add_0_r. constructor. by apply H. Qed.
  Lemma seg_star_cons e x y r : seg e x (y ++ r) -> seg (PStar e) y r -> seg (PStar e) (x ++ y) r.
  Proof.
    intros H1 H2 i Hi. rewrite <- app_assoc in Hi. eapply peg_star_more; [by apply H1|]. apply here_app in Hi. apply H2 in Hi.
    rewrite app_length, Nat2N.inj_add, N.add_assoc. done.
  Qed.
  Lemma seg_plus e x y r : seg e x (y ++ r) -> seg (PStar e) y r -> seg (PPlus e) (x ++ y) r.
  Proof.
    intros H1 H2 i Hi. rewrite <- app_assoc in Hi. eapply peg_plus_ok; [by apply H1|]. apply here_app in Hi. apply H2 in Hi.
    rewrite app_length, Nat2N.inj_add, N.add_assoc. done.
  Qed.
  Lemma no_plus e r : no e r -> no (PPlus e) r.
  Proof. intros H i Hi. apply peg_plus_fail. by apply H. Qed.
  Lemma seg_range a b c r : a <= c <= b -> seg (PRange a b) [c] r.
  Proof. intros H i Hi%here_lookup. by apply (peg_range_ok g s a b c). Qed.
  Lemma no_range a b r : stops (fun c => (a <=? c) && (c <=? b)) r -> no (PRange a b) r.
  Proof.
    intros H i Hi%here_lookup. apply peg_range_fail. intros x Hx. rewrite Hi in Hx. destruct r as [|c r]; [done|]. injection Hx as ->. unfold stops in H.
    apply andb_false_iff in H as [H|H]; [apply N.leb_gt in H|apply N.leb_gt in H]; lia.
  Qed.

  (** *** Digits *)
  Context (ld : option N) (f_digit : N) (Hdigit : g f_digit = Some (PRange 48 57)).
  Notation DIG := (PRef ld f_digit).
  Lemma seg_digit c r : digit c = true -> seg DIG [c] r.
  Proof using Hdigit. intros H. eapply seg_ref; [done|]. apply seg_range. unfold digit in H. apply andb_true_iff in H as [H1%N.leb_le H2%N.leb_le]. lia. Qed.
  Lemma no_digit r : stops digit r -> no DIG r.
  Proof using Hdigit. intros H. eapply no_ref; [done|]. by apply no_range. Qed.
  Lemma seg_digits l r : forallb digit l = true -> stops digit r -> seg (PStar DIG) l r.
  Proof using Hdigit.
    intros Hl Hr. induction l as [|c l IH]; [by apply seg_star_nil, no_digit|]. simpl in Hl. apply andb_true_iff in Hl as [Hc Hl].
    apply (seg_star_cons _ [c] l); [by apply seg_digit|by apply IH].
  Qed.
  Lemma seg_digits_plus l r : digits l = true -> stops digit r -> seg (PPlus DIG) l r.
  Proof using Hdigit.
    intros [Hn Hl]%digits_ok Hr. destruct l as [|c l]; [done|]. simpl in Hl. apply andb_true_iff in Hl as [Hc Hl].
    apply (seg_plus _ [c] l); [by apply seg_digit|by apply seg_digits].
  Qed.

  (** *** Chains *)
  Context (d : dialect) (l : nat) (el : pexp) (o1 o2 : binop).
  Context (Ho1 : strength o1 = l) (Ho2 : strength o2 = l) (Hne : o1 <> o2) (Hall : forall o, strength o = l -> o = o1 \/ o = o2) (Hl : (l <= 1)%nat).
  Notation STEP := (PAlt (PSeq (PChar (sym o1)) el) (PSeq (PChar (sym o2)) el)).
  Lemma seg_chain n a r : (forall x r, (length (text x) <= n)%nat -> element d (S l) x -> follow (S l) r -> seg el (text x) r) ->
    (length (text a) <= n)%nat -> element d l a -> follow l r -> seg (PSeq el (PStar STEP)) (text a) r.
  Proof using Ho1 Ho2 Hne Hall Hl.
    intros HE Hn Ha Hr. destruct (chain_of d l a Hl Ha) as (a0 & ops & -> & Ha0 & Hops). rewrite build_text in *. rewrite app_length in Hn.
    apply seg_seq; [apply HE; [lia|done|by eapply ops_follow]|].
    assert (Hn' : (length (ops_text ops) <= n)%nat) by lia. clear Hn Ha. induction ops as [|[o x] ops IH].
    - apply seg_star_nil. apply no_alt; apply no_seq_1, no_char; (destruct r as [|c r]; [done|]); unfold stops; apply N.eqb_neq; intros <-; simpl in Hr.
      + by eapply (sym_no_closer o1 l); [lia|].
      + by eapply (sym_no_closer o2 l); [lia|].
    - apply list.Forall_cons in Hops as [(Hx1 & Hx2 & Hx3) Hops]. simpl in Hx1, Hx2, Hx3. cbn [ops_text] in *.
      assert (Hlen : (length (text x) <= n /\ length (ops_text ops) <= n)%nat) by (simpl in Hn'; rewrite app_length in Hn'; lia).
      replace (sym o :: text x ++ ops_text ops) with ((sym o :: text x) ++ ops_text ops) by done.
      apply seg_star_cons; [|apply IH; [done|lia]].
      assert (Hseq : seg (PSeq (PChar (sym o)) el) (sym o :: text x) (ops_text ops ++ r)).
      { apply (seg_seq _ _ [sym o] (text x)); [apply seg_char|]. apply HE; [lia|done|by eapply ops_follow]. }
      destruct (Hall o Hx2) as [->| ->]; [by apply seg_alt_1|]. apply seg_alt_2; [|done]. apply no_seq_1, no_char. simpl.
      apply N.eqb_neq. intros E. apply Hne. by apply sym_inj.
  Qed.
End at_position.

(** *** Numbers, brackets and powers (examples 3 and 4) *)
Section numbers.
  Context (g : pgrammar) (s : list N).
  Context (l_int l_frac l_exp l_sign l_num : N) (f_int f_frac f_exp f_sign f_num f_one f_dig : N).
  Notation INT := (PRef (Some l_int) f_int). Notation FRAC := (PRef (Some l_frac) f_frac). Notation EXPO := (PRef (Some l_exp) f_exp).
  Notation SIGN := (PRef (Some l_sign) f_sign). Notation ONE := (PRef None f_one). Notation DIG := (PRef None f_dig).
  Context (Hdig : g f_dig = Some (PRange 48 57)) (Hone : g f_one = Some (PRange 49 57)).
  Context (Hsign : g f_sign = Some (POpt (PAlt (PChar 43) (PChar 45)))).
  Context (Hint : g f_int = Some (PSeq SIGN (PAlt (PSeq ONE (PPlus DIG)) DIG))).
  Context (Hfrac : g f_frac = Some (PSeq (PChar 46) (PPlus DIG))).
  Context (Hexp : g f_exp = Some (PSeq (PSeq (PAlt (PChar 69) (PChar 101)) SIGN) (PPlus DIG))).
  Context (Hnum : g f_num = Some (PSeq (PSeq INT (POpt FRAC)) (POpt EXPO))).

  Lemma seg_sign sg r : sign sg = true -> (exists c x, r = c :: x /\ digit c = true) -> seg g s SIGN sg r.
  Proof using Hsign.
    intros H%sign_cases (c & x & -> & Hc). eapply seg_ref; [done|].
    assert (H43 : stops (N.eqb 43) (c :: x)) by (unfold stops; apply N.eqb_neq; by intros <-).
    assert (H45 : stops (N.eqb 45) (c :: x)) by (unfold stops; apply N.eqb_neq; by intros <-).
    destruct H as [->|[->| ->]].
    - apply seg_opt_none, no_alt; by apply no_char.
    - apply seg_opt, seg_alt_1, seg_char.
    - apply seg_opt, seg_alt_2; [by apply no_char|apply seg_char].
  Qed.
  Lemma seg_int sg ds r : sign sg = true -> digits ds = true -> no_leading_zero ds = true -> stops digit r -> seg g s INT (sg ++ ds) r.
  Proof using Hsign Hint Hdig Hone.
    intros Hs Hd Hz Hr. eapply seg_ref; [done|]. apply seg_seq.
    { apply seg_sign; [done|]. destruct (digits_head ds r Hd) as (c & x & -> & Hc). by exists c, x. }
    pose proof Hd as Hd'. apply digits_ok in Hd' as [Hn Hf]. destruct ds as [|c l]; [done|]. simpl in Hf. apply andb_true_iff in Hf as [Hc Hf].
    unfold no_leading_zero in Hz. apply orb_true_iff in Hz. rewrite negb_true_iff, bool_decide_eq_true, bool_decide_eq_false in Hz. simpl in Hz.
    assert (Hone' : c <> 48 -> seg g s ONE [c] (l ++ r)).
    { intros Hne. eapply seg_ref; [done|]. apply seg_range. unfold digit in Hc. apply andb_true_iff in Hc as [H1%N.leb_le H2%N.leb_le]. lia. }
    destruct l as [|c' l].
    - apply seg_alt_2; [|by apply seg_digit]. destruct (decide (c = 48)) as [->|Hne].
      + apply no_seq_1. eapply no_ref; [done|]. by apply no_range.
      + apply no_seq_2; [by apply Hone'|]. apply no_plus. by apply no_digit.
    - apply seg_alt_1. apply (seg_seq _ _ _ _ [c] (c' :: l)).
      + apply Hone'. intros ->. by destruct Hz.
      + apply seg_digits_plus; [done| |done]. unfold digits. by rewrite Hf.
  Qed.
  Lemma seg_num d sg ds fr ex r k : well_formed d (Num sg ds fr ex) = true -> follow k r -> seg g s (PRef (Some l_num) f_num) (text (Num sg ds fr ex)) r.
  Proof using All.
    intros Hw Hk. apply wf_number in Hw as [(S & D & F & X) Z]. cbn [text].
    assert (Hkd : stops digit r) by (by eapply follow_digit).
    assert (Hk0 : forall c : N, (c = 46 \/ c = 69 \/ c = 101) -> stops (N.eqb c) r).
    { intros c Hc. destruct r as [|c' r]; [done|]. unfold stops. apply N.eqb_neq. intros <-. simpl in Hk. eapply closer_not; [|exact Hk]. naive_solver. }
    assert (Hx : stops digit (expo_text ex ++ r) /\ stops (N.eqb 46) (expo_text ex ++ r)).
    { destruct ex as [[[c x] y]|]; simpl; [by destruct X as [[->| ->] _]|]. split; [done|]. apply Hk0; auto. }
    destruct Hx as [Hx1 Hx2].
    replace (sg ++ ds ++ frac_text fr ++ expo_text ex) with (((sg ++ ds) ++ frac_text fr) ++ expo_text ex) by (by rewrite <- !app_assoc).
    eapply seg_ref; [done|]. apply seg_seq; [apply seg_seq|].
    - apply seg_int; try done. by destruct fr.
    - destruct fr as [q|]; cbn [frac_text].
      + apply seg_opt. eapply seg_ref; [done|]. apply (seg_seq _ _ _ _ [46] q); [apply seg_char|by apply seg_digits_plus].
      + apply seg_opt_none. eapply no_ref; [done|]. by apply no_seq_1, no_char.
    - destruct ex as [[[c x] y]|]; cbn [expo_text].
      + destruct X as (Hc & Hs & Hy). apply seg_opt. eapply seg_ref; [done|].
        replace (c :: x ++ y) with (([c] ++ x) ++ y) by done. apply seg_seq; [|by apply seg_digits_plus]. apply seg_seq.
        * destruct Hc as [->| ->]; [apply seg_alt_1, seg_char|]. apply seg_alt_2; [by apply no_char|apply seg_char].
        * apply seg_sign; [done|]. destruct (digits_head y r Hy) as (c0 & x0 & -> & Hc0). by exists c0, x0.
      + apply seg_opt_none. eapply no_ref; [done|]. apply no_seq_1, no_seq_1, no_alt; apply no_char, Hk0; auto.
  Qed.

  Context (l_par l_fac l_expr : N) (f_par f_fac f_expr : N).
  Notation EXPR := (PRef (Some l_expr) f_expr). Notation FAC := (PRef (Some l_fac) f_fac).
  Context (Hpar : g f_par = Some (PSeq (PSeq (PChar 40) EXPR) (PChar 41))).
  Context (Hfac : g f_fac = Some (PAlt (PRef (Some l_par) f_par) (PRef (Some l_num) f_num))).
  Lemma seg_fac d n x r : (forall m a r, (m < n)%nat -> (length (text a) <= m)%nat -> well_formed d a = true -> follow 0 r -> seg g s EXPR (text a) r) ->
    (length (text x) <= n)%nat -> element d 3 x -> follow 3 r -> seg g s FAC (text x) r.
  Proof using All.
    intros IH Hn [Wx Rx] Hr. eapply seg_ref; [done|]. destruct x as [sg ds fr ex|o a b|a].
    - apply seg_alt_2; [|by eapply seg_num]. eapply no_ref; [done|]. apply no_seq_1, no_seq_1, no_char.
      apply wf_number in Wx as [(S & D & _) _]. cbn [text]. rewrite <- !app_assoc.
      destruct (digits_head ds (frac_text fr ++ expo_text ex ++ r) D) as (c & y & -> & Hc). apply sign_cases in S as [->|[->| ->]]; try done.
      simpl app. unfold stops. apply N.eqb_neq. intros <-. done.
    - destruct o; simpl in Rx; lia.
    - apply seg_alt_1. eapply seg_ref; [done|]. cbn [text] in *. simpl in Hn. rewrite app_length in Hn. simpl in Hn.
      replace (40 :: text a ++ [41]) with (([40] ++ text a) ++ [41]) by done. apply seg_seq; [|apply seg_char]. apply seg_seq; [apply seg_char|].
      eapply (IH (length (text a))); [lia|done| |simpl; rewrite elem_of_cons; by left]. by destruct d.
  Qed.
End numbers.

(** *** Example 1 *)
Lemma seg_1 s : forall n a r, (length (text a) <= n)%nat -> well_formed Sums a = true -> follow 0 r -> seg s1_spec s s1_expr (text a) r.
Proof.
  intros n a r Hn Wa Hr. eapply seg_ref; [done|]. apply (seg_chain s1_spec s Sums 0 s1_integer Add Sub) with (n := n); try done.
  - intros o Ho. destruct o; auto; done.
  - lia.
  - clear. intros x r _ [Wx Rx] Hr. destruct x as [sg ds fr ex|o x y|x].
    + pose proof Wx as W'. apply wf_number in W' as [(_ & D & _) Z]. cbn [well_formed] in Wx. rewrite !andb_true_iff, !bool_decide_eq_true in Wx.
      destruct Wx as [[Hd Hz] [[[-> ->] ->] H48]]. cbn [text frac_text expo_text]. rewrite !app_nil_r. simpl app. eapply seg_ref; [done|].
      apply digits_ok in D as [Hn Hf]. destruct ds as [|c l]; [done|]. simpl in Hf. apply andb_true_iff in Hf as [Hc Hf].
      apply (seg_seq _ _ _ _ [c] l).
      * eapply seg_ref; [done|]. apply seg_range. unfold digit in Hc. apply andb_true_iff in Hc as [H1%N.leb_le H2%N.leb_le].
        assert (c <> 48); [|lia]. intros ->. unfold no_leading_zero in Z. apply negb_true_iff, bool_decide_eq_false in H48.
        apply orb_true_iff in Z. rewrite negb_true_iff, bool_decide_eq_true, bool_decide_eq_false in Z. by destruct Z.
      * apply seg_digits; [done|done|]. by eapply follow_digit.
    + cbn [well_formed] in Wx. rewrite !andb_true_iff in Wx. destruct Wx as [[[Ha _] _] _]. destruct o; try done; simpl in Rx; lia.
    + done.
  - split; [done|lia].
Qed.
(** *** Example 3 *)
Lemma seg_3 s : forall n a r, (length (text a) <= n)%nat -> well_formed Basic a = true -> follow 0 r -> seg s3_spec s s3_expr (text a) r.
Proof.
  intros n. induction (lt_wf n) as [n _ IH]. intros a r Hn Wa Hr. eapply seg_ref; [done|].
  apply (seg_chain s3_spec s Basic 0 s3_term Add Sub) with (n := n); try done; [intros o Ho; destruct o; auto; done|lia| |split; [done|lia]].
  clear a r Hn Wa Hr. intros a r Hn Ha Hr. eapply seg_ref; [done|].
  apply (seg_chain s3_spec s Basic 1 s3_factor Mul Div) with (n := n); try done; [intros o Ho; destruct o; auto; done|].
  clear a r Hn Ha Hr. intros a r Hn Ha Hr.
  assert (Ha3 : element Basic 3 a).
  { destruct Ha as [Wa Ra]. split; [done|]. destruct a as [|o x y|]; simpl; try lia. cbn [well_formed] in Wa. rewrite !andb_true_iff in Wa.
    destruct Wa as [[[Wa _] _] _]. destruct o; simpl in *; try lia; done. }
  eapply seg_fac with (d := Basic) (n := n) (l_int := ex3_R_Integer) (l_frac := ex3_R_Fraction) (l_exp := ex3_R_Exponent) (l_sign := ex3_R_Sign) (l_num := ex3_R_Number) (f_int := ex3_f_integer) (f_frac := ex3_f_fraction) (f_exp := ex3_f_exponent) (f_sign := ex3_f_sign) (f_num := ex3_f_number) (f_one := ex3_f_onenine) (f_dig := ex3_f_digit) (l_par := ex3_R_Parentheses) (l_expr := ex3_R_Expr) (f_par := ex3_f_parentheses) (f_expr := ex3_f_expr); [vm_compute; reflexivity..| |done|done|by eapply follow_mono; [|exact Hr]; lia].
  intros m x r' Hm Hx Wx Hr'. by eapply IH.
Qed.
(** *** Example 4 *)
Lemma seg_4 s : forall n, (forall a r, (length (text a) <= n)%nat -> well_formed Full a = true -> follow 0 r -> seg s4_spec s s4_expr (text a) r) /\
  (forall a r, (length (text a) <= n)%nat -> element Full 2 a -> follow 2 r -> seg s4_spec s s4_power_expr (text a) r).
Proof.
  intros n. induction (lt_wf n) as [n _ IH].
  assert (H3 : forall a r, (length (text a) <= n)%nat -> element Full 3 a -> follow 3 r -> seg s4_spec s s4_factor (text a) r).
  { intros a r Hn Ha Hr. eapply seg_fac with (d := Full) (n := n) (l_int := ex4_R_Integer) (l_frac := ex4_R_Fraction) (l_exp := ex4_R_Exponent) (l_sign := ex4_R_Sign) (l_num := ex4_R_Number) (f_int := ex4_f_integer) (f_frac := ex4_f_fraction) (f_exp := ex4_f_exponent) (f_sign := ex4_f_sign) (f_num := ex4_f_number) (f_one := ex4_f_onenine) (f_dig := ex4_f_digit) (l_par := ex4_R_Parentheses) (l_expr := ex4_R_Expr) (f_par := ex4_f_parentheses) (f_expr := ex4_f_expr); [vm_compute; reflexivity..| |done|done|done].
    intros m x r' Hm Hx Wx Hr'. by eapply IH. }
  assert (H2 : forall a r, (length (text a) <= n)%nat -> element Full 2 a -> follow 2 r -> seg s4_spec s s4_power_expr (text a) r).
  { intros a r Hn [Wa Ra] Hr.
    assert (HF : element Full 3 a -> seg s4_spec s s4_power_expr (text a) r).
    { intros Ha. assert (Hf : seg s4_spec s s4_factor (text a) r) by (apply H3; [done|done|by eapply follow_mono; [|exact Hr]; lia]).
      eapply seg_ref; [done|]. apply seg_alt_2; [|done]. eapply no_ref; [done|]. apply no_seq_1, no_seq_2; [done|]. apply no_char.
      destruct r as [|c r]; [done|]. unfold stops. apply N.eqb_neq. intros <-. simpl in Hr. rewrite !elem_of_cons, elem_of_nil in Hr. naive_solver lia. }
    destruct a as [|o x y|]; [by apply HF| |by apply HF]. destruct o; simpl in Ra; try lia. cbn [well_formed] in Wa.
    rewrite !andb_true_iff, !Nat.leb_le in Wa. destruct Wa as [[[_ Wx] Wy] [Rx Ry]].
    eapply seg_ref; [done|]. apply seg_alt_1. eapply seg_ref; [done|]. cbn [text sym] in *. rewrite app_length in Hn. simpl in Hn.
    replace (text x ++ 94 :: text y) with ((text x ++ [94]) ++ text y) by (by rewrite <- app_assoc).
    apply seg_seq; [apply seg_seq; [|apply seg_char]|].
    - apply H3; [lia|done|]. simpl. rewrite !elem_of_cons. naive_solver.
    - eapply (IH (length (text y))); [lia|done|done|done]. }
  split; [|done]. intros a r Hn Wa Hr. eapply seg_ref; [done|].
  apply (seg_chain s4_spec s Full 0 s4_term Add Sub) with (n := n); try done; [intros o Ho; destruct o; auto; done|lia| |split; [done|lia]].
  clear a r Hn Wa Hr. intros a r Hn Ha Hr. eapply seg_ref; [done|].
  apply (seg_chain s4_spec s Full 1 s4_power_expr Mul Div) with (n := n); try done; intros o Ho; destruct o; auto; done.
Qed.
