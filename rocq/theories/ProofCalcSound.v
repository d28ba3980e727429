(** The trees of the calculators of examples 3 and 4 stand for expressions. *)
From Coq Require Import ZArith.
From Verif Require Import SpecExact SpecUtf8 ProofTree.
From Verif Require Export ProofCalcTree.
Local Open Scope N_scope.

Lemma agrees_checked o v : fits v = o -> agrees (checked v) o.
Proof. intros <-. rewrite checked_fits. destruct (fits v); [done|]. by eexists. Qed.
Lemma agrees_div u v : agrees (i64_div u v) (operate Div u v).
Proof. rewrite i64_div_value. cbn [operate]. destruct (v =? 0)%Z; [by eexists|]. destruct (fits _); [done|]. by eexists. Qed.
Lemma agrees_pow u v : agrees (i64_pow u (i64_as_u32 v)) (operate Pow u v).
Proof. rewrite i64_pow_value. cbn [operate]. destruct (fits _); [done|]. by eexists. Qed.

(** Which rules stand for expressions, and of what rank at least. *)
Definition rules3 : list (N * N * nat) :=
  [(ex3_R_Grammar, ex3_f_grammar, 0%nat); (ex3_R_Expr, ex3_f_expr, 0%nat); (ex3_R_Addition, ex3_f_addition, 0%nat); (ex3_R_Subtraction, ex3_f_subtraction, 0%nat);
   (ex3_R_Term, ex3_f_term, 1%nat); (ex3_R_Multiplication, ex3_f_multiplication, 1%nat); (ex3_R_Division, ex3_f_division, 1%nat);
   (ex3_R_Factor, ex3_f_factor, 3%nat); (ex3_R_Parentheses, ex3_f_parentheses, 3%nat); (ex3_R_Number, ex3_f_number, 3%nat)].
Definition rules4 : list (N * N * nat) :=
  [(ex4_R_Grammar, ex4_f_grammar, 0%nat); (ex4_R_Expr, ex4_f_expr, 0%nat); (ex4_R_Addition, ex4_f_addition, 0%nat); (ex4_R_Subtraction, ex4_f_subtraction, 0%nat);
   (ex4_R_Term, ex4_f_term, 1%nat); (ex4_R_Multiplication, ex4_f_multiplication, 1%nat); (ex4_R_Division, ex4_f_division, 1%nat);
   (ex4_R_Power_expr, ex4_f_power_expr, 2%nat); (ex4_R_Power, ex4_f_power, 2%nat);
   (ex4_R_Factor, ex4_f_factor, 3%nat); (ex4_R_Parentheses, ex4_f_parentheses, 3%nat); (ex4_R_Number, ex4_f_number, 3%nat)].

Definition sound_tree (pr : program unit) (rules : list (N * N * nat)) (d : dialect) (act : N -> action) (rn ri : N) (s : list N) (Pl : N -> bool) (t : ptree) : Prop :=
  forall r f l body i j D, (r, f, l) ∈ rules -> t = TNode r i j true D -> grammar_of pr f = Some body -> lderiv (grammar_of pr) s Pl body i j D ->
    good s d act rn ri l t.

Ltac sub_rule rules pr H IH G :=
  let b := fresh "b" in let D' := fresh "D" in let Hb := fresh "Hb" in let H' := fresh "H" in
  apply ld_inv_rule in H as (b & D' & Hb & -> & H');
  match type of H' with lderiv _ _ _ _ ?i ?j _ =>
  match type of Hb with grammar_of _ ?f = _ =>
  let e := eval vm_compute in (List.find (fun x => snd (fst x) =? f) rules) in
  match e with Some (?r, ?f', ?l) =>
    assert (G : good _ _ _ _ _ l (TNode r i j true D')) by
      (eapply (IH (TNode r i j true D')); [cbn [app]; solve [repeat first [apply elem_of_list_here|apply elem_of_list_further]]|apply (bool_decide_unpack ((r, f', l) ∈ rules)); vm_compute; exact I|reflexivity|exact Hb|exact H']);
    clear Hb H'
  end end end.
Ltac passes rules pr H IH :=
  lazymatch type of H with
  | lderiv _ _ _ (PAlt _ _) _ _ _ => apply ld_inv_alt in H as [H|H]; passes rules pr H IH
  | lderiv _ _ _ (PRef _ _) _ _ _ => let G := fresh "G" in sub_rule rules pr H IH G;
      eapply good_weaken; [|eapply (good_wrap _ _ _ _ _ _ _ (TNode _ _ _ true _)); [vm_compute; reflexivity|exact G]]; lia
  end.
Ltac binary rules pr H IH o op Hop :=
  let j1 := fresh "j" in let j2 := fresh "j" in let D1 := fresh "D" in let D2 := fresh "D" in let D3 := fresh "D" in let D4 := fresh "D" in
  let H1 := fresh "H" in let H2 := fresh "H" in let H3 := fresh "H" in let Hc := fresh "H" in let G1 := fresh "G" in let G2 := fresh "G" in
  apply ld_inv_seq in H as (j1 & D1 & D2 & -> & (j2 & D3 & D4 & -> & H1 & H2)%ld_inv_seq & H3);
  apply ld_inv_char in H2 as (-> & -> & Hc);
  sub_rule rules pr H1 IH G1; sub_rule rules pr H3 IH G2;
  eapply good_weaken; [|eapply (good_binary _ _ _ _ _ o op _ (TNode _ _ _ true _) (TNode _ _ _ true _));
    [reflexivity|exact Hop|reflexivity|reflexivity|reflexivity
    |eapply good_weaken; [|exact G1]; cbn; lia|eapply good_weaken; [|exact G2]; cbn; lia|exact Hc|reflexivity]]; cbn; lia.
Ltac paren rules pr H IH :=
  let j1 := fresh "j" in let j2 := fresh "j" in let D1 := fresh "D" in let D2 := fresh "D" in let D3 := fresh "D" in let D4 := fresh "D" in
  let H1 := fresh "H" in let H2 := fresh "H" in let H3 := fresh "H" in let Hc := fresh "H" in let Hc' := fresh "H" in let G := fresh "G" in
  apply ld_inv_seq in H as (j1 & D1 & D2 & -> & (j2 & D3 & D4 & -> & H1 & H2)%ld_inv_seq & H3);
  apply ld_inv_char in H1 as (-> & -> & Hc); apply ld_inv_char in H3 as (-> & -> & Hc');
  sub_rule rules pr H2 IH G;
  eapply good_paren; [done|vm_compute; reflexivity|exact G|exact Hc|reflexivity|reflexivity|exact Hc'].

Lemma sound_3 s Pl : utf8 s -> forall t, sound_tree ex3_program rules3 Basic ex3_action ex3_R_Number ex3_R_Integer s Pl t.
Proof.
  intros Hu. induction t as [r0 i0 j0 b0 D0 IH] using ptree_ind'. intros r f l body i j D Hr [= -> -> -> -> ->] Hb H.
  unfold rules3 in Hr. rewrite !elem_of_cons, elem_of_nil in Hr.
  repeat destruct Hr as [Hr|Hr]; [injection Hr as -> -> ->..|done]; vm_compute in Hb; injection Hb as <-.
  - passes rules3 ex3_program H IH.
  - passes rules3 ex3_program H IH.
  - binary rules3 ex3_program H IH Add (fun l r => checked (l + r)) (fun u v => agrees_checked (operate Add u v) (u + v) eq_refl).
  - binary rules3 ex3_program H IH Sub (fun l r => checked (l - r)) (fun u v => agrees_checked (operate Sub u v) (u - v) eq_refl).
  - passes rules3 ex3_program H IH.
  - binary rules3 ex3_program H IH Mul (fun l r => checked (l * r)) (fun u v => agrees_checked (operate Mul u v) (u * v) eq_refl).
  - binary rules3 ex3_program H IH Div i64_div agrees_div.
  - passes rules3 ex3_program H IH.
  - paren rules3 ex3_program H IH.
  - eapply ld_num with (d := Basic) (l_int := ex3_R_Integer) (l_sign := ex3_R_Sign) (f_sign := ex3_f_sign) (f_one := ex3_f_onenine) (f_dig := ex3_f_digit) in H; [|vm_compute; reflexivity..|done].
    destruct H as (j' & sg & ds & fr & ex & DI & F & -> & W & S1 & S2 & F1 & F2). by eapply good_number.
Qed.

Lemma sound_4 s Pl : utf8 s -> forall t, sound_tree ex4_program rules4 Full ex4_action ex4_R_Number ex4_R_Integer s Pl t.
Proof.
  intros Hu. induction t as [r0 i0 j0 b0 D0 IH] using ptree_ind'. intros r f l body i j D Hr [= -> -> -> -> ->] Hb H.
  unfold rules4 in Hr. rewrite !elem_of_cons, elem_of_nil in Hr.
  repeat destruct Hr as [Hr|Hr]; [injection Hr as -> -> ->..|done]; vm_compute in Hb; injection Hb as <-.
  - passes rules4 ex4_program H IH.
  - passes rules4 ex4_program H IH.
  - binary rules4 ex4_program H IH Add (fun l r => checked (l + r)) (fun u v => agrees_checked (operate Add u v) (u + v) eq_refl).
  - binary rules4 ex4_program H IH Sub (fun l r => checked (l - r)) (fun u v => agrees_checked (operate Sub u v) (u - v) eq_refl).
  - passes rules4 ex4_program H IH.
  - binary rules4 ex4_program H IH Mul (fun l r => checked (l * r)) (fun u v => agrees_checked (operate Mul u v) (u * v) eq_refl).
  - binary rules4 ex4_program H IH Div i64_div agrees_div.
  - passes rules4 ex4_program H IH.
  - binary rules4 ex4_program H IH Pow (fun l r => i64_pow l (i64_as_u32 r)) agrees_pow.
  - passes rules4 ex4_program H IH.
  - paren rules4 ex4_program H IH.
  - eapply ld_num with (d := Full) (l_int := ex4_R_Integer) (l_sign := ex4_R_Sign) (f_sign := ex4_f_sign) (f_one := ex4_f_onenine) (f_dig := ex4_f_digit) in H; [|vm_compute; reflexivity..|done].
    destruct H as (j' & sg & ds & fr & ex & DI & F & -> & W & S1 & S2 & F1 & F2). by eapply good_number.
Qed.

(** ** Example 1 *)
Definition rules1 : list (N * N * nat) :=
  [(ex1_R_Grammar, ex1_f_grammar, 0%nat); (ex1_R_Expr, ex1_f_expr, 0%nat); (ex1_R_Addition, ex1_f_addition, 0%nat); (ex1_R_Subtraction, ex1_f_subtraction, 0%nat);
   (ex1_R_Integer, ex1_f_integer, 3%nat)].
Lemma value_range a v : value a = Some v -> (- 2 ^ 63 <= v < 2 ^ 63)%Z.
Proof.
  revert v. induction a as [sg ds fr ex|o l IHl r IHr|a IH]; intros v H; cbn [value] in H.
  - destruct fr, ex; try done. apply fits_ok in H as [-> H]. done.
  - destruct (value l), (value r); try done. destruct o; cbn [operate] in H; try (by apply fits_ok in H as [-> H]).
    revert H. destruct (_ =? 0)%Z; [done|]. by intros [-> H]%fits_ok.
  - by apply IH.
Qed.
Section example_1.
  Context (s : list N) (Hu : utf8 s).
  Definition arm1 (p : publisher) (fuel : nat) (child : node) : res Z :=
    if n_rule child =? ex1_R_Integer then let! l := node_get_string child s in expect_i64 l else ex1_kernel p s fuel child.
  Definition evaluates1 (t : ptree) (a : arith) : Prop := forall p k, unfolds nothing p k (prune t) ->
    exists f0, forall fuel n, (f0 <= fuel)%nat -> get_node p k = Ok n -> agrees (arm1 p fuel n) (value a).
  Definition good1 (l : nat) (t : ptree) : Prop := exists a, well_formed Sums a = true /\ (l <= rank a)%nat /\ span s (t_start t) (t_end t) (text a) /\ t_ok t = true /\ evaluates1 t a.
  Lemma good1_keep l t : good1 l t -> keep t = true.
  Proof.
    intros (a & H1 & _ & [H3 _] & H4 & _). unfold keep. rewrite H4. simpl. apply negb_true_iff, N.eqb_neq.
    apply text_nonempty in H1. destruct (text a); [done|]. simpl in H3. lia.
  Qed.
  Lemma good1_weaken l l' t : (l' <= l)%nat -> good1 l t -> good1 l' t.
  Proof. intros Hl (a & H1 & H2 & H3). exists a. split; [done|]. split; [lia|done]. Qed.
  Lemma kernel1_one p fuel n k child : n_children n = [k] -> get_node p k = Ok child -> (n_rule n =? ex1_R_Subtraction) = false ->
    ex1_kernel p s (S fuel) n = let! v := arm1 p fuel child in checked (0 + v).
  Proof.
    intros Hc Hk Hr. cbn [ex1_kernel]. rewrite Hc, Hk, Hr. cbn [rbind]. fold (arm1 p fuel child). by destruct (arm1 p fuel child).
  Qed.
  Lemma kernel1_two p fuel n k k' x y : n_children n = [k; k'] -> get_node p k = Ok x -> get_node p k' = Ok y ->
    ex1_kernel p s (S fuel) n = let! u := arm1 p fuel x in let! v := arm1 p fuel y in ex1_sum (n_rule n =? ex1_R_Subtraction) [u; v].
  Proof.
    intros Hc Hk Hk'. cbn [ex1_kernel]. rewrite Hc, Hk. cbn [rbind]. fold (arm1 p fuel x). destruct (arm1 p fuel x); [|done|done]. cbn [rbind].
    rewrite Hk'. cbn [rbind]. fold (arm1 p fuel y). by destruct (arm1 p fuel y).
  Qed.
  Lemma checked_in v : (- 2 ^ 63 <= v < 2 ^ 63)%Z -> checked v = Ok v.
  Proof. intros H. unfold checked. by rewrite (proj2 (i64_ok_iff v)). Qed.
  Lemma wrap1 r i j c a : (r =? ex1_R_Integer) = false -> (r =? ex1_R_Subtraction) = false -> keep c = true -> evaluates1 c a -> evaluates1 (TNode r i j true [c]) a.
  Proof.
    intros Hr Hr' Hk Hc p k Hunf. cbn [prune] in Hunf. rewrite Hk in Hunf. apply unfolds_inv in Hunf as (n & Hn & Hrn & _ & _ & Hl).
    inversion Hl as [|k1 ks t1 F1 Hu1 Hl1 E1]; subst. inversion Hl1; subst.
    destruct (Hc p k1 Hu1) as [f0 Hf]. exists (S f0). intros fuel m Hfuel Hm. rewrite (get_ok _ _ _ Hn) in Hm. injection Hm as <-.
    destruct fuel as [|fuel]; [lia|]. unfold arm1. rewrite Hr. destruct (prune c) as [rc ic jc bc Fc] eqn:Ec.
    pose proof Hu1 as Hu1'. apply unfolds_inv in Hu1' as (nc & Hnc & _). symmetry in E1.
    rewrite (kernel1_one p fuel n k1 nc E1 (get_ok _ _ _ Hnc) Hr'). specialize (Hf fuel nc ltac:(lia) (get_ok _ _ _ Hnc)).
    destruct (value a) as [v|] eqn:Ev; simpl in Hf.
    - rewrite Hf. cbn [rbind]. rewrite Z.add_0_l. apply checked_in. by apply value_range in Ev.
    - destruct Hf as (e & -> & He). by exists e.
  Qed.
  Lemma good1_wrap l r c : (r =? ex1_R_Integer) = false -> (r =? ex1_R_Subtraction) = false -> good1 l c -> good1 l (TNode r (t_start c) (t_end c) true [c]).
  Proof.
    intros Hr Hr' Hg. pose proof (good1_keep _ _ Hg) as Hk. destruct Hg as (a & H1 & H2 & H3 & H4 & H5). exists a. split_and!; try done. by apply wrap1.
  Qed.
  Definition op1 (r : N) : binop := if r =? ex1_R_Subtraction then Sub else Add.
  Lemma good1_binary r x y : r = ex1_R_Addition \/ r = ex1_R_Subtraction -> good1 0 x -> good1 3 y ->
    s !! N.to_nat (t_end x) = Some (sym (op1 r)) -> t_start y = t_end x + 1 -> good1 0 (TNode r (t_start x) (t_end y) true [x; y]).
  Proof.
    intros Hr Gx Gy Hs Hp. pose proof (good1_keep _ _ Gx) as Kx. pose proof (good1_keep _ _ Gy) as Ky.
    destruct Gx as (a & A1 & A2 & A3 & A4 & A5), Gy as (b & B1 & B2 & B3 & B4 & B5). exists (Bin (op1 r) a b). split_and!; try done.
    - cbn [well_formed]. rewrite A1, B1. unfold op1. destruct Hr as [->| ->]; cbn; destruct (rank b); [lia|done|lia|done].
    - lia.
    - cbn [t_start t_end text]. eapply span_app; [exact A3|]. change (sym (op1 r) :: text b) with ([sym (op1 r)] ++ text b). eapply span_app; [by apply span_char|].
      by rewrite <- Hp.
    - intros p k Hunf. cbn [prune] in Hunf. rewrite Kx, Ky in Hunf. apply unfolds_inv in Hunf as (n & Hn & Hrn & _ & _ & Hl).
      inversion Hl as [|k1 ks t1 F1 Hu1 Hl1 E1]; subst. inversion Hl1 as [|k2 ks2 t2 F2 Hu2 Hl2 E2]; subst. inversion Hl2; subst. symmetry in E1.
      destruct (A5 p k1 Hu1) as [f1 Hf1], (B5 p k2 Hu2) as [f2 Hf2]. exists (S (f1 + f2))%nat. intros fuel m Hfuel Hm.
      rewrite (get_ok _ _ _ Hn) in Hm. injection Hm as <-. destruct fuel as [|fuel]; [lia|].
      destruct x as [rx ix jx bx Fx], y as [ry iy jy by_ Fy]. cbn [prune] in Hu1, Hu2.
      apply unfolds_inv in Hu1 as (nx & Hnx & Rnx & _), Hu2 as (ny & Hny & Rny & _).
      apply get_ok in Hnx, Hny. specialize (Hf1 fuel nx ltac:(lia) Hnx). specialize (Hf2 fuel ny ltac:(lia) Hny).
      unfold arm1. replace (n_rule n =? ex1_R_Integer) with false by (destruct Hr as [-> | ->]; done).
      rewrite (kernel1_two p fuel n k1 k2 nx ny E1 Hnx Hny). cbn [value].
      destruct (value a) as [u|] eqn:Eu; simpl in Hf1; [rewrite Hf1; cbn [rbind]|destruct Hf1 as (e & -> & He); by exists e].
      destruct (value b) as [v|] eqn:Ev; simpl in Hf2; [rewrite Hf2; cbn [rbind]|destruct Hf2 as (e & -> & He); by exists e].
      apply value_range in Eu. assert (Hv : (0 <= v < 2 ^ 63)%Z).
      { destruct b as [sg ds fr ex|o ? ?|]; [|destruct o; simpl in B2; lia|done]. pose proof B1 as B1'. apply wf_number in B1' as [(_ & D & _) _].
        cbn [well_formed] in B1. rewrite !andb_true_iff, !bool_decide_eq_true in B1. destruct B1 as [_ [[[-> ->] ->] _]].
        cbn [value] in Ev. apply fits_ok in Ev as [-> Ev]. unfold signed in *. rewrite bool_decide_eq_false_2 in * by done.
        apply digits_ok in D as [_ D]. pose proof (decimal_grows ds 0 D). unfold decimal in *. lia. }
      unfold ex1_sum, op1. destruct Hr as [->| ->]; cbn [N.eqb].
      + change (ex1_R_Addition =? ex1_R_Subtraction) with false. cbn [rbind foldl operate]. rewrite Z.add_0_l, checked_in by done. cbn [rbind]. by apply agrees_checked.
      + rewrite N.eqb_refl. cbn [rbind foldl operate]. rewrite (checked_in (- v)) by lia. cbn [rbind foldl]. rewrite Z.add_0_l, checked_in by done. cbn [rbind].
        by apply agrees_checked.
  Qed.
  Lemma good1_integer i j ds D : digits ds = true -> no_leading_zero ds = true -> ds <> [48] -> span s i j ds -> good1 3 (TNode ex1_R_Integer i j true D).
  Proof.
    intros Hd Hz Hn Hs. exists (Num [] ds None None). split_and!; try done.
    - cbn [well_formed]. rewrite Hd, Hz. cbn [andb]. by rewrite (bool_decide_eq_false_2 (ds = [48])).
    - cbn [t_start t_end text frac_text expo_text]. by rewrite !app_nil_r.
    - intros p k Hunf. exists 0%nat. intros fuel n _ Hg. cbn [prune] in Hunf. apply unfolds_inv in Hunf as (n' & Hn' & Rn & Sn & En & _).
      rewrite (get_ok _ _ _ Hn') in Hg. injection Hg as ->. unfold arm1. rewrite Rn, N.eqb_refl. unfold node_get_string. rewrite Sn, En.
      pose proof Hd as Hd'. apply digits_ok in Hd' as [Hne Hf]. rewrite (span_slice s Hu i j ds Hs Hne).
      + cbn [rbind value]. unfold expect_i64. rewrite <- (app_nil_l ds) at 1. rewrite parse_i64_value by done. destruct (fits _); [done|]. by eexists.
      + rewrite list.Forall_forall. intros c Hc. rewrite forallb_forall in Hf. apply elem_of_list_In, Hf in Hc.
        unfold digit in Hc. apply andb_true_iff in Hc as [_ Hc%N.leb_le]. lia.
  Qed.
  Lemma sound_1 Pl : forall t r f l body i j D, (r, f, l) ∈ rules1 -> t = TNode r i j true D -> grammar_of ex1_program f = Some body -> lderiv (grammar_of ex1_program) s Pl body i j D -> good1 l t.
  Proof.
    assert (Hsub : forall (D : list ptree) r f l i j D', (forall t, t ∈ D -> forall r f l body i j D, (r, f, l) ∈ rules1 -> t = TNode r i j true D -> grammar_of ex1_program f = Some body -> lderiv (grammar_of ex1_program) s Pl body i j D -> good1 l t) ->
      (r, f, l) ∈ rules1 -> lderiv (grammar_of ex1_program) s Pl (PRef (Some r) f) i j D' -> (forall t, t ∈ D' -> t ∈ D) -> exists D'', D' = [TNode r i j true D''] /\ good1 l (TNode r i j true D'')).
    { intros D r f l i j D' IH Hin H Hsub. apply ld_inv_rule in H as (b & D'' & Hb & -> & H). exists D''. split; [done|].
      eapply IH; [apply Hsub, elem_of_list_here|exact Hin|reflexivity|exact Hb|exact H]. }
    induction t as [r0 i0 j0 b0 D0 IH] using ptree_ind'. intros r f l body i j D Hr [= -> -> -> -> ->] Hb H.
    unfold rules1 in Hr. rewrite !elem_of_cons, elem_of_nil in Hr.
    repeat destruct Hr as [Hr|Hr]; [injection Hr as -> -> ->..|done]; vm_compute in Hb; injection Hb as <-.
    - destruct (Hsub D ex1_R_Expr ex1_f_expr 0%nat i j D IH) as (D' & -> & G); [unfold rules1; set_solver|exact H|done|]. by apply (good1_wrap 0 _ (TNode _ _ _ true _)).
    - apply ld_inv_alt in H as [H|H]; [apply ld_inv_alt in H as [H|H]|].
      + destruct (Hsub D ex1_R_Addition ex1_f_addition 0%nat i j D IH) as (D' & -> & G); [unfold rules1; set_solver|exact H|done|]. by apply (good1_wrap 0 _ (TNode _ _ _ true _)).
      + destruct (Hsub D ex1_R_Subtraction ex1_f_subtraction 0%nat i j D IH) as (D' & -> & G); [unfold rules1; set_solver|exact H|done|]. by apply (good1_wrap 0 _ (TNode _ _ _ true _)).
      + destruct (Hsub D ex1_R_Integer ex1_f_integer 3%nat i j D IH) as (D' & -> & G); [unfold rules1; set_solver|exact H|done|].
        eapply good1_weaken; [|by apply (good1_wrap 3 _ (TNode _ _ _ true _))]. lia.
    - apply ld_inv_seq in H as (j1 & D1 & D2 & -> & (j2 & D3 & D4 & -> & H1 & H2)%ld_inv_seq & H3). apply ld_inv_char in H2 as (-> & -> & Hc).
      destruct (Hsub _ ex1_R_Expr ex1_f_expr 0%nat i j2 D3 IH) as (D5 & -> & G1); [unfold rules1; set_solver|exact H1|intros t Ht; rewrite !elem_of_app; auto|].
      destruct (Hsub _ ex1_R_Integer ex1_f_integer 3%nat (j2 + 1) j D2 IH) as (D6 & -> & G2); [unfold rules1; set_solver|exact H3|intros t Ht; rewrite !elem_of_app; auto|].
      apply (good1_binary ex1_R_Addition (TNode _ _ _ true _) (TNode _ _ _ true _)); try done. by left.
    - apply ld_inv_seq in H as (j1 & D1 & D2 & -> & (j2 & D3 & D4 & -> & H1 & H2)%ld_inv_seq & H3). apply ld_inv_char in H2 as (-> & -> & Hc).
      destruct (Hsub _ ex1_R_Expr ex1_f_expr 0%nat i j2 D3 IH) as (D5 & -> & G1); [unfold rules1; set_solver|exact H1|intros t Ht; rewrite !elem_of_app; auto|].
      destruct (Hsub _ ex1_R_Integer ex1_f_integer 3%nat (j2 + 1) j D2 IH) as (D6 & -> & G2); [unfold rules1; set_solver|exact H3|intros t Ht; rewrite !elem_of_app; auto|].
      apply (good1_binary ex1_R_Subtraction (TNode _ _ _ true _) (TNode _ _ _ true _)); try done. by right.
    - apply ld_inv_seq in H as (m & D1 & D2 & -> & H1 & H2). apply (ld_one _ _ _ ex1_f_onenine) in H1 as (-> & c & Hc & Hne & Hs1); [|vm_compute; reflexivity].
      apply (ld_digits _ _ _ ex1_f_digit) in H2 as (-> & ds & Hds & Hs2); [|vm_compute; reflexivity].
      apply (good1_integer i j (c :: ds)).
      + unfold digits. simpl. by rewrite Hc, Hds.
      + unfold no_leading_zero. apply orb_true_iff. right. apply negb_true_iff, bool_decide_eq_false. simpl. congruence.
      + congruence.
      + by eapply (span_app s _ _ _ [c]).
  Qed.
End example_1.
