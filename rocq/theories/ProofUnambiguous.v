(** Written arithmetic is read in one way only. *)
From Coq Require Import ZArith.
From Verif Require Export SpecCalc.
Local Open Scope N_scope.

(** What may follow an expression of a given rank inside a larger one. *)
Definition closers (l : nat) : list N :=
  match l with 0%nat => [41] | 1%nat => [41; 43; 45] | 2%nat => [41; 43; 45; 42; 47] | _ => [41; 43; 45; 42; 47; 94] end.
Definition follow (l : nat) (r : list N) : Prop := match r with [] => True | c :: _ => c ∈ closers l end.
Lemma closers_mono l l' c : (l <= l')%nat -> c ∈ closers l -> c ∈ closers l'.
Proof. destruct l as [|[|[|l]]], l' as [|[|[|l']]]; cbn [closers]; intros H; try lia; rewrite !elem_of_cons; naive_solver. Qed.
Lemma follow_mono l l' r : (l <= l')%nat -> follow l r -> follow l' r.
Proof. destruct r; [done|]. apply closers_mono. Qed.
Lemma sym_closer o : sym o ∈ closers (S (strength o)).
Proof. destruct o; cbn; rewrite !elem_of_cons; naive_solver. Qed.
Lemma sym_no_closer o l : (l <= strength o)%nat -> sym o ∉ closers l.
Proof. destruct o, l as [|[|[|l]]]; cbn; intros H; try lia; rewrite !elem_of_cons, elem_of_nil; intros Hx; repeat destruct Hx as [Hx|Hx]; done. Qed.
Lemma sym_inj o o' : sym o = sym o' -> o = o'.
Proof. by destruct o, o'. Qed.

Definition stops (P : N -> bool) (r : list N) : Prop := match r with [] => True | c :: _ => P c = false end.
Lemma span_unique P l l' r r' : forallb P l = true -> forallb P l' = true -> stops P r -> stops P r' ->
  l ++ r = l' ++ r' -> l = l' /\ r = r'.
Proof.
  revert l'. induction l as [|c l IH]; intros [|c' l'] H1 H2 S1 S2 E; simpl in *.
  - done.
  - subst r. simpl in S1. apply andb_true_iff in H2 as [H2 _]. congruence.
  - subst r'. simpl in S2. apply andb_true_iff in H1 as [H1 _]. congruence.
  - injection E as <- E. apply andb_true_iff in H1 as [_ H1], H2 as [_ H2]. by destruct (IH l' H1 H2 S1 S2 E) as [-> ->].
Qed.
Lemma digits_ok l : digits l = true -> l <> [] /\ forallb digit l = true.
Proof. unfold digits. rewrite andb_true_iff, negb_true_iff, bool_decide_eq_false. done. Qed.
Lemma digits_head l r : digits l = true -> exists c x, l ++ r = c :: x /\ digit c = true.
Proof. intros [Hn Hd]%digits_ok. destruct l as [|c l]; [done|]. simpl in Hd. apply andb_true_iff in Hd as [Hc _]. by exists c, (l ++ r). Qed.
Lemma closer_not_digit l c : c ∈ closers l -> digit c = false.
Proof. intros H. apply (closers_mono _ (3 + l)) in H; [|lia]. cbn in H. rewrite !elem_of_cons in H. repeat destruct H as [->|H]; try done. by apply elem_of_nil in H. Qed.
Lemma closer_not c l : c = 46 \/ c = 69 \/ c = 101 \/ c = 40 -> c ∈ closers l -> False.
Proof. intros Hc H. apply (closers_mono _ (3 + l)) in H; [|lia]. cbn in H. rewrite !elem_of_cons, elem_of_nil in H. naive_solver lia. Qed.
Lemma sign_cases sg : sign sg = true -> sg = [] \/ sg = [43] \/ sg = [45].
Proof. unfold sign. rewrite !orb_true_iff, !bool_decide_eq_true. tauto. Qed.
Lemma signed_digits_unique sg sg' ds ds' r r' : sign sg = true -> sign sg' = true -> digits ds = true -> digits ds' = true ->
  stops digit r -> stops digit r' -> sg ++ ds ++ r = sg' ++ ds' ++ r' -> sg = sg' /\ ds = ds' /\ r = r'.
Proof.
  intros H1%sign_cases H2%sign_cases D1 D2 S1 S2 E.
  assert (Esg : sg = sg').
  { destruct (digits_head ds r D1) as (c & x & Ex & Hc), (digits_head ds' r' D2) as (c' & x' & Ex' & Hc').
    rewrite Ex, Ex' in E. destruct H1 as [->|[->| ->]], H2 as [->|[->| ->]]; simpl in E; try done; injection E; intros; subst; done. }
  subst sg'. apply app_inv_head in E. apply digits_ok in D1 as [_ D1], D2 as [_ D2].
  destruct (span_unique _ _ _ _ _ D1 D2 S1 S2 E) as [-> ->]. done.
Qed.

Definition number_ok (sg ds : list N) (fr : option (list N)) (ex : option (N * list N * list N)) : Prop :=
  sign sg = true /\ digits ds = true /\ match fr with Some l => digits l = true | None => True end /\
  match ex with Some (c, sg, l) => (c = 69 \/ c = 101) /\ sign sg = true /\ digits l = true | None => True end.
Lemma wf_number d sg ds fr ex : well_formed d (Num sg ds fr ex) = true -> number_ok sg ds fr ex /\ no_leading_zero ds = true.
Proof.
  cbn [well_formed]. rewrite !andb_true_iff. intros [[Hd Hz] H]. split; [|done]. unfold number_ok. destruct d.
  - rewrite !andb_true_iff, !bool_decide_eq_true in H. destruct H as [[[-> ->] ->] _]. done.
  - rewrite !andb_true_iff in H. destruct H as [[H1 H2] H3]. destruct fr, ex as [[[c sg'] l']|]; rewrite ?andb_true_iff, ?orb_true_iff, ?bool_decide_eq_true in *; naive_solver.
  - rewrite !andb_true_iff in H. destruct H as [[H1 H2] H3]. destruct fr, ex as [[[c sg'] l']|]; rewrite ?andb_true_iff, ?orb_true_iff, ?bool_decide_eq_true in *; naive_solver.
Qed.
Lemma follow_digit l r : follow l r -> stops digit r.
Proof. destruct r; [done|]. apply closer_not_digit. Qed.
Lemma number_unique l sg ds fr ex sg' ds' fr' ex' r r' : number_ok sg ds fr ex -> number_ok sg' ds' fr' ex' -> follow l r -> follow l r' ->
  text (Num sg ds fr ex) ++ r = text (Num sg' ds' fr' ex') ++ r' -> Num sg ds fr ex = Num sg' ds' fr' ex' /\ r = r'.
Proof.
  intros (S1 & D1 & F1 & X1) (S2 & D2 & F2 & X2) W1 W2 E. cbn [text] in E. rewrite <- !app_assoc in E.
  assert (HX : forall ex r, follow l r -> match ex with Some (c, sg, l) => (c = 69 \/ c = 101) /\ sign sg = true /\ digits l = true | None => True end ->
    stops digit (expo_text ex ++ r) /\ stops (N.eqb 46) (expo_text ex ++ r)).
  { intros [[[c x] y]|] r0 Hr H; simpl.
    - destruct H as [[->| ->] _]; done.
    - split; [by eapply follow_digit|]. destruct r0 as [|c r0]; [done|]. unfold stops. apply N.eqb_neq. intros <-. simpl in Hr. eapply closer_not; [|exact Hr]. auto. }
  destruct (HX _ _ W1 X1) as [HX1 HX1']. destruct (HX _ _ W2 X2) as [HX2 HX2'].
  assert (HF : forall fr (x : list N), stops digit x -> stops digit (frac_text fr ++ x)).
  { intros [q|] x Hx; done. }
  apply signed_digits_unique in E as (-> & -> & E); [|done|done|done|done|by apply HF|by apply HF].
  assert (Hfr : fr = fr' /\ expo_text ex ++ r = expo_text ex' ++ r').
  { destruct fr as [q|], fr' as [q'|]; simpl in E.
    - injection E as E. apply digits_ok in F1 as [_ F1], F2 as [_ F2]. destruct (span_unique _ _ _ _ _ F1 F2 HX1 HX2 E) as [-> ->]. done.
    - rewrite <- E in HX2'. done.
    - rewrite E in HX1'. done.
    - done. }
  destruct Hfr as [-> E']. clear E.
  assert (HE : forall (c : N) (x r : list N), follow l r -> (c = 69 \/ c = 101) -> r <> c :: x).
  { intros c x r0 Hr Hc ->. simpl in Hr. eapply closer_not; [|exact Hr]. naive_solver. }
  destruct ex as [[[c x] y]|], ex' as [[[c' x'] y']|]; simpl in E'.
  - destruct X1 as (Hc & Hx & Hy), X2 as (Hc' & Hx' & Hy'). injection E' as <- E'. rewrite <- !app_assoc in E'.
    apply signed_digits_unique in E' as (-> & -> & ->); try done; by eapply follow_digit.
  - exfalso. destruct X1 as [Hc _]. symmetry in E'. by eapply HE in E'.
  - exfalso. destruct X2 as [Hc _]. by eapply HE in E'.
  - by rewrite E'.
Qed.

(** ** Chains of operators of the same strength *)
Definition operands : Type := list (binop * arith).
Definition build (a0 : arith) (ops : operands) : arith := foldl (fun l x => Bin (fst x) l (snd x)) a0 ops.
Fixpoint ops_text (ops : operands) : list N := match ops with [] => [] | (o, r) :: ops => sym o :: text r ++ ops_text ops end.
Lemma build_text ops : forall a0, text (build a0 ops) = text a0 ++ ops_text ops.
Proof.
  induction ops as [|[o r] ops IH]; intros a0; [by rewrite app_nil_r|]. unfold build in *. cbn [foldl ops_text fst snd]. rewrite IH. cbn [text].
  by rewrite <- app_assoc.
Qed.
Definition element (d : dialect) (l : nat) (a : arith) : Prop := well_formed d a = true /\ (l <= rank a)%nat.
Definition operand_ok (d : dialect) (l : nat) (x : binop * arith) : Prop := allowed d (fst x) = true /\ strength (fst x) = l /\ element d (S l) (snd x).
Lemma chain_of d l a : (l <= 1)%nat -> element d l a -> exists a0 ops, a = build a0 ops /\ element d (S l) a0 /\ Forall (operand_ok d l) ops.
Proof.
  intros Hl. induction a as [sg ds fr ex|o x IHx y _|a _]; intros [Hw Hr].
  - exists (Num sg ds fr ex), []. split; [done|]. split; [|done]. split; [done|]. simpl. lia.
  - destruct (decide (strength o = l)) as [Ho|Ho].
    + cbn [well_formed] in Hw. rewrite !andb_true_iff in Hw. destruct Hw as [[[Ha Hx] Hy] Ho'].
      assert (Hlx : (l <= rank x)%nat /\ (S l <= rank y)%nat).
      { destruct o; cbn in Ho; subst l; rewrite ?andb_true_iff, ?Nat.leb_le in Ho'; lia. }
      destruct Hlx as [Hlx Hly]. destruct IHx as (a0 & ops & E & H1 & H2); [done|]. exists a0, (ops ++ [(o, y)]). split.
      { unfold build in *. rewrite foldl_app. cbn. by rewrite <- E. }
      split; [done|]. apply Forall_app. split; [done|]. constructor; [|done]. done.
    + exists (Bin o x y), []. split; [done|]. split; [|done]. split; [done|]. simpl in *. lia.
  - exists (Paren a), []. split; [done|]. split; [|done]. split; [done|]. simpl. lia.
Qed.
Lemma ops_follow d l ops r : Forall (operand_ok d l) ops -> follow l r -> follow (S l) (ops_text ops ++ r).
Proof.
  intros H Hr. destruct ops as [|[o x] ops]; simpl; [eapply follow_mono; [|done]; lia|].
  apply list.Forall_cons in H as [(_ & H & _) _]. simpl in H. subst l. apply sym_closer.
Qed.
(** Elements are read in one way up to size [n]. *)
Definition unique_upto (l : nat) (n : nat) : Prop := forall d a b r r', (length (text a) <= n)%nat -> element d l a -> element d l b ->
  follow l r -> follow l r' -> text a ++ r = text b ++ r' -> a = b /\ r = r'.
Lemma chain_unique l n : (l <= 1)%nat -> unique_upto (S l) n -> unique_upto l n.
Proof.
  intros Hl HU d a b r r' Hn Ha Hb Hr Hr' E.
  destruct (chain_of d l a Hl Ha) as (a0 & ops & -> & Ha0 & Hops). destruct (chain_of d l b Hl Hb) as (b0 & ops' & -> & Hb0 & Hops').
  rewrite !build_text, <- !app_assoc in E. rewrite build_text, app_length in Hn. clear Ha Hb.
  assert (HC : forall ops ops' a0 b0, (length (text a0) + length (ops_text ops) <= n)%nat -> element d (S l) a0 -> element d (S l) b0 ->
    Forall (operand_ok d l) ops -> Forall (operand_ok d l) ops' -> text a0 ++ ops_text ops ++ r = text b0 ++ ops_text ops' ++ r' -> a0 = b0 /\ ops = ops' /\ r = r').
  { clear a0 b0 ops ops' Hn Ha0 Hb0 Hops Hops' E. induction ops as [|[o x] ops IH]; intros ops' a0 b0 Hn Ha0 Hb0 Hops Hops' E.
    - apply (HU d) in E as [-> E]; [|simpl in Hn; lia|done|done|by eapply ops_follow|by eapply ops_follow].
      destruct ops' as [|[o' x'] ops']; [done|]. simpl in E. subst r. exfalso. apply list.Forall_cons in Hops' as [(_ & Ho & _) _]. simpl in Ho.
      eapply (sym_no_closer o' l); [lia|done].
    - apply (HU d) in E as [-> E]; [|simpl in Hn; lia|done|done|by eapply ops_follow|by eapply ops_follow].
      apply list.Forall_cons in Hops as [(Ho1 & Ho2 & Ho3) Hops]. simpl in Ho1, Ho2, Ho3.
      destruct ops' as [|[o' x'] ops']; [simpl in E; subst r'; exfalso; eapply (sym_no_closer o l); [lia|done]|].
      apply list.Forall_cons in Hops' as [(Ho1' & Ho2' & Ho3') Hops']. simpl in Ho1', Ho2', Ho3'.
      cbn [ops_text] in E. simpl in E. injection E as Eo E. apply sym_inj in Eo as <-. rewrite <- !app_assoc in E.
      destruct (IH ops' x x') as (-> & -> & ->); try done. simpl in Hn. rewrite app_length in Hn. lia. }
  by destruct (HC ops ops' a0 b0) as (-> & -> & ->).
Qed.
Lemma text_nonempty d a : well_formed d a = true -> text a <> [].
Proof.
  destruct a as [sg ds fr ex|o x y|a]; intros H.
  - apply wf_number in H as [(_ & D & _) _]. apply digits_ok in D as [Hn _]. simpl. destruct sg, ds; done.
  - simpl. by destruct (text x).
  - done.
Qed.
Lemma factor_unique n : (forall m, (m < n)%nat -> unique_upto 0 m) -> unique_upto 3 n.
Proof.
  intros IH d a b r r' Hn [Wa Ra] [Wb Rb] Hr Hr' E.
  assert (HN : forall sg ds fr ex y z, well_formed d (Num sg ds fr ex) = true -> text (Num sg ds fr ex) ++ y <> 40 :: z).
  { intros sg ds fr ex y z H. apply wf_number in H as [(S & D & _) _]. cbn [text]. rewrite <- !app_assoc.
    destruct (digits_head ds (frac_text fr ++ expo_text ex ++ y) D) as (c & x & -> & Hc). apply sign_cases in S as [->|[->| ->]]; simpl; intros [=]; subst; done. }
  destruct a as [sg ds fr ex|o ? ?|a], b as [sg' ds' fr' ex'|o' ? ?|b]; try (by destruct o; simpl in Ra; lia); try (by destruct o'; simpl in Rb; lia).
  - apply wf_number in Wa as [Wa _], Wb as [Wb _]. eapply number_unique in E; [exact E|done|done|exact Hr|exact Hr'].
  - exfalso. cbn [text] in E. revert E. apply (HN sg ds fr ex r). done.
  - exfalso. cbn [text] in E. symmetry in E. revert E. apply (HN sg' ds' fr' ex' r'). done.
  - cbn [text] in E. simpl in E. injection E as E. rewrite <- !app_assoc in E. simpl in Hn. rewrite app_length in Hn. simpl in Hn.
    cbn [well_formed] in Wa, Wb. assert (Hd : well_formed d a = true /\ well_formed d b = true) by (by destruct d). destruct Hd as [Hda Hdb].
    destruct (IH (length (text a)) ltac:(lia) d a b ([41] ++ r) ([41] ++ r')) as [-> E']; [done|split; [done|lia]..| | |done|].
    + simpl. rewrite elem_of_cons; by left.
    + simpl. rewrite elem_of_cons; by left.
    + simpl in E'. by injection E' as ->.
Qed.
Lemma power_unique n : (forall m, (m < n)%nat -> unique_upto 0 m) -> (forall m, (m < n)%nat -> unique_upto 2 m) -> unique_upto 2 n.
Proof.
  intros IH0 IH2 d a b r r' Hn Ha Hb Hr Hr' E. pose proof (factor_unique n IH0) as U3.
  assert (HP : forall a, element d 2 a -> element d 3 a \/ exists x y, a = Bin Pow x y /\ element d 3 x /\ element d 2 y).
  { intros c [Wc Rc]. destruct c as [|o x y|]; [left; done| |left; done]. right. destruct o; simpl in Rc; try lia. exists x, y. split; [done|].
    cbn [well_formed] in Wc. rewrite !andb_true_iff, !Nat.leb_le in Wc. unfold element. naive_solver. }
  assert (F94 : follow 3 [94]) by (simpl; rewrite !elem_of_cons; naive_solver).
  assert (Hno : forall z, follow 2 (94 :: z) -> False) by (intros z; simpl; rewrite !elem_of_cons, elem_of_nil; naive_solver lia).
  destruct (HP a Ha) as [Ha3|(x & y & -> & Hx & Hy)], (HP b Hb) as [Hb3|(x' & y' & -> & Hx' & Hy')].
  - eapply U3; [exact Hn|exact Ha3|exact Hb3|by eapply follow_mono; [|exact Hr]; lia|by eapply follow_mono; [|exact Hr']; lia|done].
  - exfalso. cbn [text sym] in E. rewrite <- app_assoc in E. apply (U3 d) in E as [_ E]; [|done|done|done|by eapply follow_mono; [|exact Hr]; lia|done].
    subst r. by eapply Hno.
  - exfalso. cbn [text sym] in E, Hn. rewrite app_length in Hn. rewrite <- app_assoc in E. apply (U3 d) in E as [_ E]; [|lia|done|done|done|by eapply follow_mono; [|exact Hr']; lia].
    subst r'. by eapply Hno.
  - cbn [text sym] in E, Hn. rewrite app_length in Hn. simpl in Hn. rewrite <- !app_assoc in E. apply (U3 d) in E as [-> E]; [|lia|done|done|done|done].
    simpl in E. injection E as E. by destruct (IH2 (length (text y)) ltac:(lia) d y y' r r') as [-> ->].
Qed.
Lemma all_unique n : unique_upto 0 n /\ unique_upto 2 n.
Proof.
  induction (lt_wf n) as [n _ IH]. assert (U2 : unique_upto 2 n) by (apply power_unique; intros m Hm; by apply IH).
  split; [|done]. apply chain_unique; [lia|]. apply chain_unique; [lia|]. done.
Qed.
Lemma text_unique d a b : well_formed d a = true -> well_formed d b = true -> text a = text b -> a = b.
Proof.
  intros Wa Wb E. destruct (all_unique (length (text a))) as [U _].
  destruct (U d a b [] []) as [-> _]; try done; [split; [done|lia]..|]. by rewrite !app_nil_r.
Qed.
