(** From the derivation a calculator's tree records to the expression that was
    read, and what the evaluator makes of the tree. *)
From Coq Require Import ZArith.
From Verif Require Import SpecExact SpecUtf8 ProofUtf8 ProofTree ProofEmit.
From Verif Require Export ProofArith ProofUnambiguous.
Local Open Scope N_scope.
Notation text := SpecCalc.text.
Notation len l := (N.of_nat (length l)).

Section spans.
  Context (s : list N).
  (** [x] stands at positions [i..j). *)
  Definition span (i j : N) (x : list N) : Prop := j = i + len x /\ drop (N.to_nat i) s = x ++ drop (N.to_nat j) s.
  Lemma span_nil i : span i i [].
  Proof. split; [simpl; lia|done]. Qed.
  Lemma span_app i j k x y : span i j x -> span j k y -> span i k (x ++ y).
  Proof. intros [-> H1] [-> H2]. split; [rewrite app_length; lia|]. rewrite H1, H2. by rewrite <- app_assoc. Qed.
  Lemma span_char i c : s !! N.to_nat i = Some c -> span i (i + 1) [c].
  Proof. intros H. split; [done|]. rewrite (drop_S _ c) by done. simpl. do 2 f_equal. lia. Qed.
  Lemma span_take q x : q <= len s -> span 0 q x -> x = take (N.to_nat q) s.
  Proof. intros Hq [-> H]. simpl in H. rewrite drop_0 in H. rewrite H. replace (N.to_nat (0 + len x)) with (length x) by lia. by rewrite take_app. Qed.
  Lemma span_occurs i j x : span i j x -> SpecDsl.text s i j x.
  Proof. intros [-> H]. split; [done|]. unfold occurs_at. rewrite H. by rewrite take_app. Qed.
  Context (Hu : utf8 s).
  Lemma span_slice i j x : span i j x -> x <> [] -> Forall (fun c => c < 128) x -> slice_str s i j = Ok x.
  Proof using Hu. intros H Hn Hx. apply ascii_slice; [done|done|by apply span_occurs|done]. Qed.
End spans.

Section trees.
  Context (s : list N) (Hu : utf8 s) (d : dialect) (act : N -> action) (r_number r_integer : N).
  Context (Hnum : act r_number = ANumber).
  Notation kernel p := (evaluate_tree_kernel act r_number r_integer p s).
  (** What the loop does with one child. *)
  Definition arm (p : publisher) (fuel : nat) (child : node) : res Z :=
    match act (n_rule child) with
    | APass => kernel p fuel child
    | ABinary o =>
      match n_children child with
      | [a; b] =>
        let! lhs := get_node p a in let! x := kernel p fuel lhs in
        let! rhs := get_node p b in let! y := kernel p fuel rhs in o x y
      | _ => Panic PDebugAssert
      end
    | ANumber => evaluate_number r_number r_integer p s child
    | AUnreachable => Panic PExplicit
    end.
  Lemma kernel_one p fuel n k child : n_children n = [k] -> get_node p k = Ok child -> kernel p (S fuel) n = arm p fuel child.
  Proof.
    intros Hc Hk. cbn [evaluate_tree_kernel]. rewrite Hc, Hk. cbn [rbind]. fold (arm p fuel child). by destruct (arm p fuel child).
  Qed.
  Definition evaluates (t : ptree) (a : arith) : Prop := forall p k, unfolds nothing p k (prune t) ->
    exists f0, forall fuel n, (f0 <= fuel)%nat -> get_node p k = Ok n -> agrees (arm p fuel n) (value a).
  Definition good (l : nat) (t : ptree) : Prop := exists a, well_formed d a = true /\ (l <= rank a)%nat /\ span s (t_start t) (t_end t) (text a) /\ t_ok t = true /\ evaluates t a.
  Lemma good_weaken l l' t : (l' <= l)%nat -> good l t -> good l' t.
  Proof. intros Hl (a & H1 & H2 & H3). exists a. split; [done|]. split; [lia|done]. Qed.
  Lemma good_keep l t : good l t -> keep t = true.
  Proof.
    intros (a & H1 & _ & [H3 _] & H4 & _). unfold keep. rewrite H4. simpl. apply negb_true_iff, N.eqb_neq.
    apply text_nonempty in H1. destruct (text a); [done|]. simpl in H3. lia.
  Qed.
  Lemma unfolds_inv p k r i j b F : unfolds nothing p k (TNode r i j b F) -> exists n, p_nodes p !! k = Some n /\ n_rule n = r /\ n_start n = i /\ n_end n = j /\ unfolds_list nothing p (n_children n) F.
  Proof. intros H. inversion H; subst. by exists n. Qed.
  Lemma get_ok p k n : p_nodes p !! k = Some n -> get_node p k = Ok n.
  Proof. unfold get_node. by intros ->. Qed.

  (** A node whose only child is an expression. *)
  Lemma wrap_eval r i j c a : act r = APass -> keep c = true -> evaluates c a -> evaluates (TNode r i j true [c]) a.
  Proof.
    intros Hr Hk Hc p k Hunf. cbn [prune] in Hunf. rewrite Hk in Hunf. apply unfolds_inv in Hunf as (n & Hn & Hrn & _ & _ & Hl).
    inversion Hl as [|k1 ks t1 F1 Hu1 Hl1 E1]; subst. inversion Hl1; subst.
    destruct (Hc p k1 Hu1) as [f0 Hf]. exists (S f0). intros fuel m Hfuel Hm. rewrite (get_ok _ _ _ Hn) in Hm. injection Hm as <-.
    destruct fuel as [|fuel]; [lia|]. unfold arm. rewrite Hr. destruct (prune c) as [rc ic jc bc Fc] eqn:Ec.
    pose proof Hu1 as Hu1'. apply unfolds_inv in Hu1' as (nc & Hnc & _). symmetry in E1.
    rewrite (kernel_one p fuel n k1 nc E1 (get_ok _ _ _ Hnc)). apply Hf; [lia|by apply get_ok].
  Qed.
  Lemma good_wrap l r c : act r = APass -> good l c -> good l (TNode r (t_start c) (t_end c) true [c]).
  Proof.
    intros Hr Hg. pose proof (good_keep _ _ Hg) as Hk. destruct Hg as (a & H1 & H2 & H3 & H4 & H5). exists a. split_and!; try done. by apply wrap_eval.
  Qed.
  Lemma good_paren l r i j c : d <> Sums -> act r = APass -> good l c -> s !! N.to_nat i = Some 40 -> t_start c = i + 1 -> t_end c = j -> s !! N.to_nat j = Some 41 ->
    good 3 (TNode r i (j + 1) true [c]).
  Proof.
    intros Hd Hr Hg H40 Hi Hj H41. pose proof (good_keep _ _ Hg) as Hk. destruct Hg as (a & H1 & H2 & H3 & H4 & H5). exists (Paren a). split_and!; try done.
    - cbn [well_formed]. by destruct d.
    - cbn [t_start t_end text]. change (40 :: text a ++ [41]) with ([40] ++ text a ++ [41]). eapply span_app; [by apply span_char|].
      eapply span_app; [|by apply span_char]. by rewrite Hi, Hj in H3.
    - cbn [value]. intros p k. by apply wrap_eval.
  Qed.
  Definition left_rank (o : binop) : nat := match o with Add | Sub => 0 | Mul | Div => 1 | Pow => 3 end.
  Definition right_rank (o : binop) : nat := match o with Add | Sub => 1 | Mul | Div | Pow => 2 end.
  Lemma good_binary o (op : Z -> Z -> res Z) r x y :
    act r = ABinary op -> (forall u v, agrees (op u v) (operate o u v)) -> allowed d o = true ->
    act (t_label x) = APass -> act (t_label y) = APass -> good (left_rank o) x -> good (right_rank o) y ->
    s !! N.to_nat (t_end x) = Some (sym o) -> t_start y = t_end x + 1 ->
    good (strength o) (TNode r (t_start x) (t_end y) true [x; y]).
  Proof.
    intros Hr Hop Hal Hx Hy Gx Gy Hs Hp. pose proof (good_keep _ _ Gx) as Kx. pose proof (good_keep _ _ Gy) as Ky.
    destruct Gx as (a & A1 & A2 & A3 & A4 & A5), Gy as (b & B1 & B2 & B3 & B4 & B5). exists (Bin o a b). split_and!; try done.
    - cbn [well_formed]. rewrite Hal, A1, B1. cbn [andb]. destruct o; cbn [left_rank right_rank] in *; rewrite ?andb_true_iff, ?Nat.leb_le; lia.
    - cbn [t_start t_end text]. eapply span_app; [exact A3|]. change (sym o :: text b) with ([sym o] ++ text b). eapply span_app; [by apply span_char|].
      by rewrite <- Hp.
    - intros p k Hunf. cbn [prune] in Hunf. rewrite Kx, Ky in Hunf. apply unfolds_inv in Hunf as (n & Hn & Hrn & _ & _ & Hl).
      inversion Hl as [|k1 ks t1 F1 Hu1 Hl1 E1]; subst. inversion Hl1 as [|k2 ks2 t2 F2 Hu2 Hl2 E2]; subst. inversion Hl2; subst. symmetry in E1.
      destruct (A5 p k1 Hu1) as [f1 Hf1], (B5 p k2 Hu2) as [f2 Hf2]. exists (f1 + f2)%nat. intros fuel m Hfuel Hm.
      rewrite (get_ok _ _ _ Hn) in Hm. injection Hm as <-. unfold arm. rewrite Hr, E1.
      destruct x as [rx ix jx bx Fx], y as [ry iy jy by_ Fy]. cbn [prune] in Hu1, Hu2. cbn [t_label] in Hx, Hy.
      apply unfolds_inv in Hu1 as (nx & Hnx & Rnx & _), Hu2 as (ny & Hny & Rny & _).
      apply get_ok in Hnx, Hny. specialize (Hf1 fuel nx ltac:(lia) Hnx). specialize (Hf2 fuel ny ltac:(lia) Hny).
      unfold arm in Hf1, Hf2. rewrite Rnx, Hx in Hf1. rewrite Rny, Hy in Hf2. rewrite Hnx, Hny. cbn [rbind value].
      destruct (value a) as [u|]; simpl in Hf1; [rewrite Hf1; cbn [rbind]|destruct Hf1 as (e & -> & He); by exists e].
      destruct (value b) as [v|]; simpl in Hf2; [rewrite Hf2; cbn [rbind]; apply Hop|destruct Hf2 as (e & -> & He); by exists e].
  Qed.

  (** Numbers: the integer part, then possibly other parts. *)
  Lemma good_number i j k sg ds fr ex DI F : act r_number = ANumber ->
    well_formed d (Num sg ds fr ex) = true -> span s i j (sg ++ ds) -> span s j k (frac_text fr ++ expo_text ex) ->
    (fr = None -> ex = None -> F = []) -> (fr <> None \/ ex <> None -> F <> [] /\ forallb keep F = true) ->
    good 3 (TNode r_number i k true (TNode r_integer i j true DI :: F)).
  Proof.
    intros Ha Hw Hs1 Hs2 HF0 HF1. exists (Num sg ds fr ex). pose proof Hw as Hw'. apply wf_number in Hw' as [(Wsg & Wds & _) _].
    split_and!; try done.
    - cbn [t_start t_end text]. rewrite app_assoc. by eapply span_app.
    - intros p kk Hunf. exists 0%nat. intros fuel n _ Hn.
      assert (Hki : keep (TNode r_integer i j true DI) = true).
      { unfold keep. simpl. apply negb_true_iff, N.eqb_neq. destruct Hs1 as [-> _]. apply digits_ok in Wds as [Hd _]. destruct ds; [done|]. rewrite app_length. simpl. lia. }
      assert (HP : exists F', prune (TNode r_number i k true (TNode r_integer i j true DI :: F)) = TNode r_number i k true (prune (TNode r_integer i j true DI) :: F') /\
        (fr = None -> ex = None -> F' = []) /\ (fr <> None \/ ex <> None -> F' <> [])).
      { exists (prune_forest F). split.
        - rewrite (ProofTree.prune_eq r_number). cbn [prune_forest]. rewrite Hki. done.
        - split; [intros H1 H2; by rewrite (HF0 H1 H2)|]. intros H. destruct (HF1 H) as [H1 H2]. destruct F as [|t F]; [done|]. simpl in H2.
          apply andb_true_iff in H2 as [H2 _]. cbn [prune_forest]. by rewrite H2. }
      destruct HP as (F' & EP & E0 & E1). rewrite EP in Hunf. apply unfolds_inv in Hunf as (n' & Hn' & Hrn & _ & _ & Hl).
      rewrite (get_ok _ _ _ Hn') in Hn. injection Hn as ->. unfold arm. rewrite Hrn, Ha. unfold evaluate_number. rewrite Hrn, N.eqb_refl. simpl negb. cbn iota.
      inversion Hl as [|k1 ks t1 F1 Hu1 Hl1 Ek]; subst. cbn [prune] in Hu1. apply unfolds_inv in Hu1 as (m & Hm & Rm & Sm & Em & _).
      destruct ks as [|k2 ks].
      + inversion Hl1; subst F'. assert (fr = None /\ ex = None) as [-> ->].
        { destruct fr; [exfalso; apply E1; [by left|done]|]. destruct ex; [exfalso; apply E1; [by right|done]|]. done. }
        rewrite (get_ok _ _ _ Hm). cbn [rbind]. rewrite Rm, N.eqb_refl. simpl negb. cbn iota. unfold node_get_string. rewrite Sm, Em.
        erewrite span_slice; [|exact Hu|exact Hs1| |].
        * cbn [rbind value]. unfold expect_i64. rewrite parse_i64_value by done. destruct (fits _); [done|]. by eexists.
        * apply digits_ok in Wds as [Hd _]. by destruct sg, ds.
        * apply list.Forall_app. split.
          -- apply sign_cases in Wsg as [->|[->| ->]]; repeat constructor; lia.
          -- apply digits_ok in Wds as [_ Hd]. rewrite list.Forall_forall. intros c Hc. rewrite forallb_forall in Hd. apply elem_of_list_In, Hd in Hc.
             unfold digit in Hc. apply andb_true_iff in Hc as [_ Hc%N.leb_le]. lia.
      + assert (Hne : fr <> None \/ ex <> None).
        { destruct fr; [by left|]. destruct ex; [by right|]. rewrite E0 in Hl1 by done. inversion Hl1. }
        replace (value (Num sg ds fr ex)) with (@None Z) by (destruct fr, ex; try done; naive_solver). by eexists.
  Qed.
End trees.

(** ** Derivations of numbers *)
Section number_derivations.
  Context (g : pgrammar) (s : list N) (Pl : N -> bool).
  Notation L := (lderiv g s Pl).
  Lemma ld_inv_seq e1 e2 i k D : L (PSeq e1 e2) i k D -> exists j D1 D2, D = D1 ++ D2 /\ L e1 i j D1 /\ L e2 j k D2.
  Proof. intros H. inversion H; subst. by eexists _, _, _. Qed.
  Lemma ld_inv_alt e1 e2 i k D : L (PAlt e1 e2) i k D -> L e1 i k D \/ L e2 i k D.
  Proof. intros H. inversion H; subst; auto. Qed.
  Lemma ld_inv_char c i j D : L (PChar c) i j D -> D = [] /\ j = i + 1 /\ s !! N.to_nat i = Some c.
  Proof. intros H. by inversion H; subst. Qed.
  Lemma ld_inv_opt e i j D : L (POpt e) i j D -> (j = i /\ D = []) \/ L e i j D.
  Proof. intros H. inversion H; subst; auto. Qed.
  Lemma ld_inv_rule r A i j D : L (PRef (Some r) A) i j D -> exists body D', g A = Some body /\ D = [TNode r i j true D'] /\ L body i j D'.
  Proof. intros H. inversion H; subst. eauto. Qed.
  Lemma ld_inv_inline A i j D : L (PRef None A) i j D -> exists body, g A = Some body /\ L body i j D.
  Proof. intros H. inversion H; subst. eauto. Qed.
  Lemma ld_inv_range a b i j D : L (PRange a b) i j D -> D = [] /\ exists c, a <= c <= b /\ span s i j [c].
  Proof. intros H. inversion H; subst. split; [done|]. exists x. split; [done|]. by apply span_char. Qed.
  Lemma ld_star_list e (P : N -> bool) i j D : (forall i j D, L e i j D -> D = [] /\ exists c, P c = true /\ span s i j [c]) ->
    L (PStar e) i j D -> D = [] /\ exists l, forallb P l = true /\ span s i j l.
  Proof.
    intros He H. remember (PStar e) as e0 eqn:E. revert E. induction H; intros [= ->].
    - split; [done|]. exists []. split; [done|apply span_nil].
    - destruct (He _ _ _ H) as (-> & c & Hc & Hs1). destruct IHlderiv2 as (-> & l & Hl & Hs2); [done|]. split; [done|].
      exists (c :: l). simpl. rewrite Hc. split; [done|]. by eapply (span_app s _ _ _ [c]).
  Qed.

  Context (l_int l_frac l_exp l_sign : N) (f_int f_frac f_exp f_sign f_one f_dig : N).
  Notation INT := (PRef (Some l_int) f_int). Notation FRAC := (PRef (Some l_frac) f_frac). Notation EXPO := (PRef (Some l_exp) f_exp).
  Notation SIGN := (PRef (Some l_sign) f_sign). Notation ONE := (PRef None f_one). Notation DIG := (PRef None f_dig).
  Context (Hdig : g f_dig = Some (PRange 48 57)) (Hone : g f_one = Some (PRange 49 57)).
  Context (Hsign : g f_sign = Some (POpt (PAlt (PChar 43) (PChar 45)))).
  Context (Hint : g f_int = Some (PSeq SIGN (PAlt (PSeq ONE (PPlus DIG)) DIG))).
  Context (Hfrac : g f_frac = Some (PSeq (PChar 46) (PPlus DIG))).
  Context (Hexp : g f_exp = Some (PSeq (PSeq (PAlt (PChar 69) (PChar 101)) SIGN) (PPlus DIG))).

  Lemma ld_digit i j D : L DIG i j D -> D = [] /\ exists c, digit c = true /\ span s i j [c].
  Proof using Hdig.
    intros (b & Hb & H)%ld_inv_inline. rewrite Hdig in Hb. injection Hb as <-. apply ld_inv_range in H as (-> & c & Hc & Hs).
    split; [done|]. exists c. split; [|done]. unfold digit. rewrite andb_true_iff, !N.leb_le. lia.
  Qed.
  Lemma ld_one i j D : L ONE i j D -> D = [] /\ exists c, digit c = true /\ c <> 48 /\ span s i j [c].
  Proof using Hone.
    intros (b & Hb & H)%ld_inv_inline. rewrite Hone in Hb. injection Hb as <-. apply ld_inv_range in H as (-> & c & Hc & Hs).
    split; [done|]. exists c. split; [|split; [lia|done]]. unfold digit. rewrite andb_true_iff, !N.leb_le. lia.
  Qed.
  Lemma ld_digits i j D : L (PStar DIG) i j D -> D = [] /\ exists l, forallb digit l = true /\ span s i j l.
  Proof using Hdig. apply ld_star_list, ld_digit. Qed.
  Lemma ld_digits_plus i j D : L (PPlus DIG) i j D -> D = [] /\ exists l, digits l = true /\ span s i j l.
  Proof using Hdig.
    intros H. inversion H as [| | | | | | | | | |? ? ? ? ? ? Hp1 Hp2| | | |]; subst. destruct (ld_digit _ _ _ Hp1) as (-> & c & Hc & Hs1). destruct (ld_digits _ _ _ Hp2) as (-> & l & Hl & Hs2).
    split; [done|]. exists (c :: l). unfold digits. simpl. rewrite Hc, Hl. split; [done|]. by eapply (span_app s _ _ _ [c]).
  Qed.
  Lemma ld_sign i j D : L SIGN i j D -> exists sg, sign sg = true /\ span s i j sg.
  Proof using Hsign.
    intros (b & D' & Hb & _ & H)%ld_inv_rule. rewrite Hsign in Hb. injection Hb as <-. apply ld_inv_opt in H as [[-> _]|H].
    { exists []. split; [done|apply span_nil]. }
    apply ld_inv_alt in H as [(_ & -> & H)%ld_inv_char|(_ & -> & H)%ld_inv_char].
    - exists [43]. split; [done|by apply span_char].
    - exists [45]. split; [done|by apply span_char].
  Qed.
  Lemma ld_int i j D : L INT i j D -> exists sg ds DI, D = [TNode l_int i j true DI] /\ sign sg = true /\ digits ds = true /\ no_leading_zero ds = true /\ span s i j (sg ++ ds).
  Proof using Hdig Hone Hsign Hint.
    intros (b & D' & Hb & -> & H)%ld_inv_rule. rewrite Hint in Hb. injection Hb as <-.
    apply ld_inv_seq in H as (m & D1 & D2 & -> & H1 & H2). apply ld_sign in H1 as (sg & Hsg & Hs1).
    assert (Hd : exists ds, digits ds = true /\ no_leading_zero ds = true /\ span s m j ds).
    { apply ld_inv_alt in H2 as [H2|H2].
      - apply ld_inv_seq in H2 as (m2 & D3 & D4 & -> & H3 & H4). apply ld_one in H3 as (-> & c & Hc & Hne & Hs3). apply ld_digits_plus in H4 as (-> & l & Hl & Hs4).
        exists (c :: l). apply digits_ok in Hl as [_ Hl]. split; [|split].
        + unfold digits. simpl. by rewrite Hc, Hl.
        + unfold no_leading_zero. apply orb_true_iff. right. apply negb_true_iff, bool_decide_eq_false. simpl. congruence.
        + by eapply (span_app s _ _ _ [c]).
      - apply ld_digit in H2 as (-> & c & Hc & Hs3). exists [c]. split; [unfold digits; simpl; by rewrite Hc|]. split; [|done].
        unfold no_leading_zero. destruct (decide (c = 48)) as [->|Hne]; [done|]. apply orb_true_iff. right. apply negb_true_iff, bool_decide_eq_false. simpl. congruence. }
    destruct Hd as (ds & H3 & H4 & H5). exists sg, ds, (D1 ++ D2). split_and!; try done. by eapply span_app.
  Qed.
  Lemma ld_num d i k D : d <> Sums -> L (PSeq (PSeq INT (POpt FRAC)) (POpt EXPO)) i k D ->
    exists j sg ds fr ex DI F, D = TNode l_int i j true DI :: F /\ well_formed d (Num sg ds fr ex) = true /\
      span s i j (sg ++ ds) /\ span s j k (frac_text fr ++ expo_text ex) /\ (fr = None -> ex = None -> F = []) /\ (fr <> None \/ ex <> None -> F <> [] /\ forallb keep F = true).
  Proof using Hdig Hone Hsign Hint Hfrac Hexp.
    intros Hd (m2 & D12 & D3 & -> & (j & D1 & D2 & -> & H1 & H2)%ld_inv_seq & H3)%ld_inv_seq.
    apply ld_int in H1 as (sg & ds & DI & -> & W1 & W2 & W3 & S1).
    assert (HF : exists fr, match fr with Some l => digits l = true | None => True end /\ span s j m2 (frac_text fr) /\
      (fr = None -> D2 = []) /\ (fr <> None -> D2 <> [] /\ forallb keep D2 = true)).
    { apply ld_inv_opt in H2 as [[-> ->]|H2]; [exists None; split_and!; try done; apply span_nil|].
      apply ld_inv_rule in H2 as (b & D' & Hb & -> & H2). rewrite Hfrac in Hb. injection Hb as <-.
      apply ld_inv_seq in H2 as (m & E1 & E2 & -> & (-> & -> & Hc)%ld_inv_char & (-> & l & Hl & Hs)%ld_digits_plus).
      exists (Some l). assert (Hsp : span s j m2 (46 :: l)) by (eapply (span_app s _ _ _ [46]); [by apply span_char|done]). split_and!; try done.
      intros _. split; [done|]. simpl. unfold keep. simpl. rewrite andb_true_r. apply negb_true_iff, N.eqb_neq. destruct Hsp as [-> _]. simpl. lia. }
    assert (HX : exists ex, match ex with Some (c, sg, l) => (c = 69 \/ c = 101) /\ sign sg = true /\ digits l = true | None => True end /\ span s m2 k (expo_text ex) /\
      (ex = None -> D3 = []) /\ (ex <> None -> D3 <> [] /\ forallb keep D3 = true)).
    { apply ld_inv_opt in H3 as [[-> ->]|H3]; [exists None; split_and!; try done; apply span_nil|].
      apply ld_inv_rule in H3 as (b & D' & Hb & -> & H3). rewrite Hexp in Hb. injection Hb as <-.
      apply ld_inv_seq in H3 as (m & E1 & E2 & -> & (m' & E3 & E4 & -> & Hc & Hsg)%ld_inv_seq & (-> & l & Hl & Hs)%ld_digits_plus).
      apply ld_sign in Hsg as (sg' & Hsg & Hs').
      assert (Hc' : exists c, (c = 69 \/ c = 101) /\ span s m2 m' [c]).
      { apply ld_inv_alt in Hc as [(_ & -> & Hc)%ld_inv_char|(_ & -> & Hc)%ld_inv_char]; eexists; (split; [|by apply span_char]); auto. }
      destruct Hc' as (c & Hcc & Hsc). exists (Some (c, sg', l)).
      assert (Hsp : span s m2 k (c :: sg' ++ l)) by (eapply (span_app s _ _ _ [c]); [done|by eapply span_app]). split_and!; try done.
      intros _. split; [done|]. simpl. unfold keep. simpl. rewrite andb_true_r. apply negb_true_iff, N.eqb_neq. destruct Hsp as [-> _]. simpl. lia. }
    destruct HF as (fr & F1 & F2 & F3 & F4), HX as (ex & X1 & X2 & X3 & X4).
    exists j, sg, ds, fr, ex, DI, (D2 ++ D3). split_and!; try done.
    - cbn [well_formed]. rewrite W2, W3. cbn [andb].
      assert (Hw : sign sg && match fr with Some l => digits l | None => true end && match ex with Some (c, sg, l) => (bool_decide (c = 69) || bool_decide (c = 101)) && sign sg && digits l | None => true end = true).
      { rewrite W1. cbn [andb]. destruct fr; [rewrite F1|]; cbn [andb]; (destruct ex as [[[c x] y]|]; [|done]); destruct X1 as (Hc & -> & ->);
          rewrite !andb_true_r, orb_true_iff, !bool_decide_eq_true; done. }
      by destruct d.
    - by eapply span_app.
    - intros -> ->. by rewrite F3, X3.
    - rewrite forallb_app. intros [H|H].
      + destruct (F4 H) as [Hn ->]. split; [by destruct D2|]. destruct (decide (ex = None)) as [E|E]; [by rewrite X3|]. by destruct (X4 E) as [_ ->].
      + destruct (X4 H) as [Hn ->]. split; [by destruct D2, D3|]. destruct (decide (fr = None)) as [E|E]; [by rewrite F3|]. by destruct (F4 E) as [_ ->].
  Qed.
End number_derivations.
