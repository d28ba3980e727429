(** Boolean checkers for the side conditions of the theorems, so that they can
    be discharged for the concrete generated parsers by computation. *)
From Verif Require Import SpecSafe SpecLR SpecTerm SpecSession Programs.

Lemma table_all {U} table gr (P : N -> expr -> bool) :
  forallb (fun x => P (N.of_nat (fst x)) (snd x)) (imap pair table) = true ->
  forall f e, pr_fn (table_program (U:=U) table gr) f = Some e -> P f e = true.
Proof.
  intros H f e Hf. cbn in Hf. rewrite forallb_forall in H.
  rewrite <-(N2Nat.id f). apply (H (N.to_nat f, e)). apply elem_of_list_In, elem_of_lookup_imap.
  eexists _, _. done.
Qed.

Section checks.
  Context {U : Type} (pr : program U) (fn : N -> N).
  Definition defined (f : N) : bool := match pr_fn pr f with Some _ => true | None => false end.
  Lemma defined_ok f : defined f = true -> is_Some (pr_fn pr f).
  Proof. unfold defined. destruct (pr_fn pr f); [eauto|done]. Qed.

  Fixpoint expr_wfb (e : expr) : bool :=
    match e with
    | ETerminal _ | EString _ | ERange _ _ => true
    | ESeq l r | EChoice l r => expr_wfb l && expr_wfb r
    | EAnd e | ENot e | EPlus e | EStar e | EOpt e | ESub e | EHook _ e => expr_wfb e
    | EVar r f | ELR _ r f => (fn r =? f) && defined f
    | EInline f => defined f
    end.
  Fixpoint plainb (e : expr) : bool :=
    match e with
    | ESeq l r | EChoice l r => plainb l && plainb r
    | EAnd e | ENot e | EPlus e | EStar e | EOpt e | ESub e => plainb e
    | ELR _ _ _ | EHook _ _ => false
    | _ => true
    end.
  Lemma expr_wfb_ok e : expr_wfb e = true -> expr_wf pr fn e.
  Proof.
    induction e; simpl; intros H; try done; try (apply andb_true_iff in H as [H1 H2]); auto.
    - split; [by apply N.eqb_eq|by apply defined_ok].
    - by apply defined_ok.
    - split; [by apply N.eqb_eq|by apply defined_ok].
  Qed.
  Lemma expr_okb_ok e : expr_wfb e && plainb e = true -> expr_ok pr fn e.
  Proof.
    induction e; simpl; intros H; try done; apply andb_true_iff in H as [H1 H2]; try done; auto.
    - apply andb_true_iff in H1 as [? ?], H2 as [? ?]. split; [apply IHe1|apply IHe2]; by apply andb_true_iff.
    - apply andb_true_iff in H1 as [? ?], H2 as [? ?]. split; [apply IHe1|apply IHe2]; by apply andb_true_iff.
    - apply IHe; by apply andb_true_iff.
    - apply IHe; by apply andb_true_iff.
    - apply IHe; by apply andb_true_iff.
    - apply IHe; by apply andb_true_iff.
    - apply IHe; by apply andb_true_iff.
    - apply IHe; by apply andb_true_iff.
    - apply andb_true_iff in H1 as [? ?]. split; [by apply N.eqb_eq|by apply defined_ok].
    - by apply defined_ok.
  Qed.

  Context (nul : N -> bool) (lvl : N -> nat).
  Fixpoint guardedb (n : nat) (start : bool) (e : expr) : bool :=
    match e with
    | ETerminal _ | EString _ | ERange _ _ => true
    | ESeq l r => guardedb n start l && guardedb n (start && nullable nul (pexp_of l)) r
    | EChoice l r => guardedb n start l && guardedb n start r
    | EAnd e | ENot e | EOpt e | ESub e | EHook _ e => guardedb n start e
    | EPlus e | EStar e => negb (nullable nul (pexp_of e)) && guardedb n start e
    | EVar _ f | EInline f => negb start || (lvl f <? n)%nat
    | ELR _ _ _ => true
    end.
  Lemma guardedb_ok e : forall n start, guardedb n start e = true -> guarded nul lvl n start e.
  Proof.
    induction e; intros n sb; simpl; intros H; try done;
      try (apply andb_true_iff in H as [H1 H2]); try (split; [by apply negb_true_iff|]); auto.
    - intros ->. by apply Nat.ltb_lt.
    - intros ->. by apply Nat.ltb_lt.
  Qed.

  Context (S : strat).
  Fixpoint typedb (n : nat) (A : option N) (start : bool) (e : expr) : bool :=
    match e with
    | ETerminal _ | EString _ | ERange _ _ => true
    | ESeq l r => typedb n A start l && typedb n A (start && nullable (st_nul S) (pexp_of l)) r
    | EChoice l r => typedb n A start l && typedb n A start r
    | EAnd e | ENot e | EPlus e | EStar e | EOpt e | ESub e => typedb n A start e
    | EVar r f =>
        bool_decide (st_fn S r = f) && bool_decide (st_lr S f = None) && bool_decide (st_sat S r = None) && defined f &&
        (negb start || (st_lvl S f <? n)%nat) && (match A with Some a => st_av S f a | None => true end)
    | EInline f =>
        bool_decide (st_lr S f = None) && defined f &&
        (negb start || (st_lvl S f <? n)%nat) && (match A with Some a => st_av S f a | None => true end)
    | ELR inv r f =>
        bool_decide (st_fn S r = f) && bool_decide (st_lr S f = Some r) && bool_decide (inv = st_group S r) && defined f &&
        (negb start || (st_lvl S f <? n)%nat) && (match A with Some a => bool_decide (r ∉ st_group S a) | None => true end)
    | EHook _ _ => false
    end.
  Lemma start_ok n start f : negb start || (st_lvl S f <? n)%nat = true -> start = true -> (st_lvl S f < n)%nat.
  Proof. intros H ->. by apply Nat.ltb_lt. Qed.
  Lemma typedb_ok e : forall n A start, typedb n A start e = true -> typed pr S n A start e.
  Proof.
    induction e; intros n A sb; simpl; intros H; try done;
      try (apply andb_true_iff in H as [H1 H2]); auto.
    - repeat (apply andb_true_iff in H1 as [H1 ?]). repeat match goal with H : bool_decide _ = true |- _ => apply bool_decide_eq_true in H end.
      split_and!; try done; [by apply defined_ok|by apply start_ok|by destruct A].
    - repeat (apply andb_true_iff in H1 as [H1 ?]). repeat match goal with H : bool_decide _ = true |- _ => apply bool_decide_eq_true in H end.
      split_and!; try done; [by apply defined_ok|by apply start_ok|by destruct A].
    - repeat (apply andb_true_iff in H1 as [H1 ?]). repeat match goal with H : bool_decide _ = true |- _ => apply bool_decide_eq_true in H end.
      split_and!; try done; [by apply defined_ok|by apply start_ok|].
      destruct A; [|done]. by apply bool_decide_eq_true in H2.
  Qed.

  Definition lr_rule_okb (r f : N) (body : expr) : bool :=
    (st_fn S r =? f) && bool_decide (st_sat S r = None) && bool_decide (r ∈ st_group S r) &&
    forallb (fun b => (b =? r) || bool_decide (st_sat S b = Some r)) (st_group S r) &&
    forallb (fun b => (st_lvl S (st_fn S b) =? st_lvl S f)%nat) (st_group S r) &&
    match lr_body pr (st_fn S) (st_group S r) r f body with
    | Some (t, sd) =>
      negb (nullable (st_nul S) (pexp_of t)) && negb (nullable (st_nul S) (pexp_of sd)) &&
      typedb (st_lvl S f) (Some r) false t && typedb (st_lvl S f) (Some r) true sd
    | None => false
    end.
  Lemma lr_rule_okb_ok r f body : lr_rule_okb r f body = true -> lr_rule_ok pr S r f body.
  Proof.
    unfold lr_rule_okb. intros H. apply andb_true_iff in H as [H Hsh]. apply andb_true_iff in H as [H Hlv].
    apply andb_true_iff in H as [H Hsat]. apply andb_true_iff in H as [H Hin]. apply andb_true_iff in H as [Hfn Hns].
    destruct (lr_body pr (st_fn S) (st_group S r) r f body) as [[t sd]|] eqn:E; [|done].
    apply andb_true_iff in Hsh as [Hsh Ht2]. apply andb_true_iff in Hsh as [Hsh Ht1]. apply andb_true_iff in Hsh as [Hn1 Hn2].
    split.
    - by apply N.eqb_eq.
    - by apply bool_decide_eq_true in Hns.
    - by apply bool_decide_eq_true in Hin.
    - intros b Hb Hne. rewrite forallb_forall in Hsat. apply elem_of_list_In, Hsat in Hb.
      apply orb_true_iff in Hb as [Hb|Hb]; [by apply N.eqb_eq in Hb|]. by apply bool_decide_eq_true in Hb.
    - intros b Hb. rewrite forallb_forall in Hlv. apply elem_of_list_In, Hlv in Hb. by apply Nat.eqb_eq.
    - exists t, sd. split; [done|]. split; [by apply negb_true_iff|]. split; [by apply negb_true_iff|].
      split; by apply typedb_ok.
  Qed.
End checks.

(** ** Whole tables *)
Section tables.
  Context {U : Type} (table : list expr) (gr : N).
  Notation pr := (table_program (U:=U) table gr).

  Lemma check_wf fn : forallb (fun x => expr_wfb pr fn (snd x)) (imap pair table) = true -> program_wf pr fn.
  Proof. intros H f e He. apply expr_wfb_ok. by apply (table_all (U:=U) table gr (fun _ e => expr_wfb pr fn e) H f). Qed.
  Lemma check_ok fn : forallb (fun x => expr_wfb pr fn (snd x) && plainb (snd x)) (imap pair table) = true -> program_ok pr fn.
  Proof. intros H f e He. apply expr_okb_ok. by apply (table_all (U:=U) table gr (fun _ e => expr_wfb pr fn e && plainb e) H f). Qed.
  Lemma check_guarded nul lvl :
    forallb (fun x => guardedb nul lvl (lvl (N.of_nat (fst x))) true (snd x) &&
      (negb (nullable nul (pexp_of (snd x))) || nul (N.of_nat (fst x)))) (imap pair table) = true ->
    well_founded_program pr nul lvl.
  Proof.
    intros H f e He.
    pose proof (table_all (U:=U) table gr (fun f e => guardedb nul lvl (lvl f) true e && (negb (nullable nul (pexp_of e)) || nul f)) H f e He) as Hc.
    simpl in Hc. apply andb_true_iff in Hc as [H1 H2]. split; [by apply guardedb_ok|]. intros Hn. by rewrite Hn in H2.
  Qed.
  Lemma check_labels (R : gset N) : forallb (fun x => forallb (fun r => bool_decide (r ∈ R)) (labels (snd x))) (imap pair table) = true -> labels_in pr R.
  Proof.
    intros H f e He r Hr. pose proof (table_all (U:=U) table gr (fun _ e => forallb (fun r => bool_decide (r ∈ R)) (labels e)) H f e He) as Hc.
    simpl in Hc. rewrite forallb_forall in Hc. apply elem_of_list_In, Hc in Hr. by apply bool_decide_eq_true in Hr.
  Qed.
  Definition strat_checkb (S : strat) (As : list N) (f : N) (body : expr) : bool :=
      match st_lr S f with
      | Some r => lr_rule_okb pr S r f body
      | None => typedb pr S (Datatypes.S (st_lvl S f)) None true body &&
                forallb (fun a => negb (st_av S f a) || typedb pr S (Datatypes.S (st_lvl S f)) (Some a) true body) As &&
                (negb (nullable (st_nul S) (pexp_of body)) || st_nul S f)
      end.
  Lemma check_strat (S : strat) (As : list N) :
    (forall f a, st_av S f a = true -> a ∈ As) ->
    forallb (fun x => strat_checkb S As (N.of_nat (fst x)) (snd x)) (imap pair table) = true ->
    stratified pr S.
  Proof.
    intros HA H f body Hf. pose proof (table_all (U:=U) table gr (strat_checkb S As) H f body Hf) as Hc. unfold strat_checkb in Hc.
    destruct (st_lr S f) as [r|]; [by apply lr_rule_okb_ok|].
    apply andb_true_iff in Hc as [Hc H3]. apply andb_true_iff in Hc as [H1 H2].
    split; [by apply typedb_ok|]. split.
    - intros a Ha. apply typedb_ok. rewrite forallb_forall in H2. pose proof (HA f a Ha) as Hin.
      apply elem_of_list_In, H2 in Hin. by rewrite Ha in Hin.
    - intros Hn. by rewrite Hn in H3.
  Qed.

  Lemma table_no_hooks : no_hooks pr.
  Proof. by intros h src f. Qed.
End tables.

Lemma no_hooks_veto {U} (pr : program U) : no_hooks pr -> veto_hooks pr.
Proof.
  intros H h src. exists (fun _ _ r => mret r). split; [|split].
  - intros f parent pos st. rewrite H. unfold mbind', mret. by destruct (f parent pos st) as [[? ?]| |].
  - done.
  - intros parent pos r st r' st' [= <- <-]. split; [done|by left].
Qed.

(** ** Computing nullability and levels of a table *)
Definition of_list {A} (d : A) (l : list A) (f : N) : A := match l !! N.to_nat f with Some x => x | None => d end.
Fixpoint iter {A} (n : nat) (F : A -> A) (x : A) : A := match n with O => x | S n => iter n F (F x) end.
Definition table_nul (table : list expr) : list bool :=
  iter (length table) (fun nu => map (fun e => nullable (of_list false nu) (pexp_of e)) table) (map (fun _ => false) table).
(** The functions that may be called before anything is consumed. *)
Fixpoint first_calls (nul : N -> bool) (e : expr) : list N :=
  match e with
  | ETerminal _ | EString _ | ERange _ _ | ELR _ _ _ => []
  | ESeq l r => first_calls nul l ++ (if nullable nul (pexp_of l) then first_calls nul r else [])
  | EChoice l r => first_calls nul l ++ first_calls nul r
  | EAnd e | ENot e | EOpt e | ESub e | EHook _ e | EPlus e | EStar e => first_calls nul e
  | EVar _ f | EInline f => [f]
  end.
Definition table_lvl (table : list expr) : list nat :=
  let nu := of_list false (table_nul table) in
  iter (length table) (fun lv => map (fun e => S (foldr max 0%nat (map (of_list 0%nat lv) (first_calls nu e)))) table) (map (fun _ => 0%nat) table).
Definition nul_of table := of_list false (table_nul table).
Definition lvl_of table := of_list 0%nat (table_lvl table).
Fixpoint label_map (e : expr) : list (N * N) :=
  match e with
  | ETerminal _ | EString _ | ERange _ _ | EInline _ => []
  | ESeq l r | EChoice l r => label_map l ++ label_map r
  | EAnd e | ENot e | EPlus e | EStar e | EOpt e | ESub e | EHook _ e => label_map e
  | EVar r f | ELR _ r f => [(r, f)]
  end.
(** Label -> function, read off the table. *)
Definition fn_of (table : list expr) (entry : list (N * N)) (r : N) : N :=
  match List.find (fun p => fst p =? r) (entry ++ concat (map label_map table)) with Some (_, f) => f | None => 0 end.
