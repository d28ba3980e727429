(** Theorems C54: left-recursive parsers and the supply of node keys. *)
From Verif Require Import ProofComplete ProofFuel ProofSafe SpecSession SpecTerm SpecKeys SpecLR Programs SpecExamples.
From Verif Require Import Checks Stratify ProofTerm ProofLR ProofKeys TheoremsLR TheoremsExamples.
Local Open Scope N_scope.

Section key_supply.
  Context {U : Type} (pr : program U) (fn : N -> N) (nul : N -> bool) (lvl rk : N -> nat) (s : list N) (u0 : U).
  Context (Hs : N.of_nat (length s) < u32_modulus).
  Context (Hpr : program_wf pr fn) (Hwf : well_founded_program pr nul lvl) (Hnh : no_hooks pr).
  Notation L := (N.of_nat (length s)).
  Context (V R : gset N) (I C E : N) (entry : expr) (n m : nat).
  Context (Hrk : ranked_program pr nul rk) (HB : key_budget pr L V R I C).
  Context (He : expr_wf pr fn entry) (Hge : guarded nul lvl m true entry) (Hre : ranked nul rk n true entry).
  Context (HV : forall r, r ∈ var_labels entry -> r ∈ V) (HR : forall r, r ∈ lr_labels entry -> r ∈ R)
    (HI : forall inv, inv ∈ involved_sets entry -> N.of_nat (length inv) <= I) (HE : lr_calls pr L entry E).

  (** No run makes more nodes than that. *)
  Theorem C54_node_bound fuel r st : run_entry pr u0 fuel entry s = Ok (r, st) ->
    p_len (cx_pub (st_ctx st)) <= key_bound L (size V) (size R) I C E.
  Proof using All.
    intros H. refine (wp_Ok (fun _ => True) _ _ (fun _ st => p_len (cx_pub (st_ctx st)) <= _) r st _ H).
    eapply (run_keys pr s fn nul lvl rk Hs Hpr Hwf Hnh V R I C E entry n Hrk HB He Hre HV HR HI HE _ (key_bound L (size V) (size R) I C E)); [|done].
    split; [done|by right].
  Qed.

  (** If the keys suffice for it, the parser answers. *)
  Theorem C54_answers : key_bound L (size V) (size R) I C E <= u32_modulus ->
    exists fuel0 r st, forall fuel, (fuel0 <= fuel)%nat -> run_entry pr u0 fuel entry s = Ok (r, st).
  Proof using All.
    intros Hk.
    destruct (C27_answers_or_key_exhaustion pr fn nul lvl s u0 Hs Hpr Hwf R _ entry m 0 Hnh (kb_lr _ _ _ _ _ _ HB) HR
      (session_fresh _ _ _ _) He Hge ltac:(lia)) as [f0 [(r & st & H)|H]]; [by exists f0, r, st|].
    specialize (H f0 ltac:(done)). exfalso.
    pose proof (run_keys pr s fn nul lvl rk Hs Hpr Hwf Hnh V R I C E entry n Hrk HB He Hre HV HR HI HE (fun p => p <> PKeyOverflow)
      u32_modulus u0 f0 ltac:(split; [done|by left]) Hk) as Hw.
    unfold wp in Hw. rewrite H in Hw. by apply Hw.
  Qed.
End key_supply.

(** ** Checking a table *)
Section ranks.
  Context (nul : N -> bool) (rk : N -> nat).
  Fixpoint rankedb (n : nat) (start : bool) (e : expr) : bool :=
    match e with
    | ETerminal _ | EString _ | ERange _ _ => true
    | ESeq l r => rankedb n start l && rankedb n (start && nullable nul (pexp_of l)) r
    | EChoice l r => rankedb n start l && rankedb n start r
    | EAnd e | ENot e | EOpt e | ESub e | EHook _ e => rankedb n start e
    | EPlus e | EStar e => negb (nullable nul (pexp_of e)) && rankedb n start e
    | EVar _ f => negb start || (rk f <? n)%nat
    | EInline f | ELR _ _ f => negb start || (rk f <=? n)%nat
    end.
  Lemma rankedb_ok e : forall n start, rankedb n start e = true -> ranked nul rk n start e.
  Proof.
    induction e; intros n sb; simpl; intros H; try done;
      try (apply andb_true_iff in H as [H1 H2]); try (split; [by apply negb_true_iff|]); auto.
    - intros ->. by apply Nat.ltb_lt.
    - intros ->. by apply Nat.leb_le.
    - intros ->. by apply Nat.leb_le.
  Qed.
End ranks.
(** Calls before anything is consumed, with their weight. *)
Fixpoint first_ranked (nul : N -> bool) (e : expr) : list (nat * N) :=
  match e with
  | ETerminal _ | EString _ | ERange _ _ => []
  | ESeq l r => first_ranked nul l ++ (if nullable nul (pexp_of l) then first_ranked nul r else [])
  | EChoice l r => first_ranked nul l ++ first_ranked nul r
  | EAnd e | ENot e | EOpt e | ESub e | EHook _ e | EPlus e | EStar e => first_ranked nul e
  | EVar _ f => [(1%nat, f)]
  | EInline f | ELR _ _ f => [(0%nat, f)]
  end.
Definition table_rank (table : list expr) : list nat :=
  let nu := of_list false (table_nul table) in
  iter (length table) (fun lv => map (fun e => foldr max 0%nat (map (fun c => (fst c + of_list 0%nat lv (snd c))%nat) (first_ranked nu e))) table) (map (fun _ => 0%nat) table).
Definition rank_of table := of_list 0%nat (table_rank table).

Section calls.
  Context {U : Type} (pr : program U) (L : N).
  (** Direct calls of left-recursive rules, if inlined calls nest less than [n] deep. *)
  Fixpoint direct (n : nat) : expr -> option N :=
    match n with
    | O => fun _ => None
    | S n => fix go (e : expr) : option N :=
      match e with
      | ETerminal _ | EString _ | ERange _ _ | EVar _ _ => Some 0
      | ELR _ _ _ => Some 1
      | ESeq l r | EChoice l r => match go l, go r with Some a, Some b => Some (a + b) | _, _ => None end
      | EAnd e | ENot e | EOpt e | ESub e | EHook _ e => go e
      | EPlus e | EStar e => match go e with Some a => Some (a * (L + 1)) | None => None end
      | EInline f => match pr_fn pr f with Some body => direct n body | None => None end
      end
    end.
  Lemma direct_ok n : forall e c, direct n e = Some c -> lr_calls pr L e c.
  Proof.
    induction n as [|n IH]; [done|]. induction e; intros c H; cbn in H; simplify_eq; try (by constructor; auto).
    - destruct (direct (S n) e1) as [a|] eqn:E1; cbn in E1; rewrite E1 in H; [|done].
      destruct (direct (S n) e2) as [b|] eqn:E2; cbn in E2; rewrite E2 in H; [|done]. simplify_eq. constructor; auto.
    - destruct (direct (S n) e1) as [a|] eqn:E1; cbn in E1; rewrite E1 in H; [|done].
      destruct (direct (S n) e2) as [b|] eqn:E2; cbn in E2; rewrite E2 in H; [|done]. simplify_eq. constructor; auto.
    - destruct (direct (S n) e) as [a|] eqn:E1; cbn in E1; rewrite E1 in H; [|done]. simplify_eq. constructor; auto.
    - destruct (direct (S n) e) as [a|] eqn:E1; cbn in E1; rewrite E1 in H; [|done]. simplify_eq. constructor; auto.
    - destruct (pr_fn pr f) as [body|] eqn:Eb; [|done]. by econstructor; eauto.
  Qed.
End calls.

Lemma in_concat_map {A} (F : expr -> list A) (table : list expr) (f : nat) body a : table !! f = Some body -> a ∈ F body -> a ∈ concat (map F table).
Proof.
  intros Hf Ha. apply elem_of_list_In, in_concat. exists (F body). split; [|by apply elem_of_list_In].
  apply in_map, elem_of_list_In, elem_of_list_lookup. eauto.
Qed.
Lemma le_width (l : list (list N)) inv : inv ∈ l -> (length inv <= foldr max 0 (map length l))%nat.
Proof.
  induction l as [|a l IH]; intros H; [by apply elem_of_nil in H|]. simpl. apply elem_of_cons in H as [->|H]; [lia|]. specialize (IH H). lia.
Qed.

Lemma inj_le' a b : (a <= b)%nat -> N.of_nat a <= N.of_nat b.
Proof. lia. Qed.

Section table_keys.
  Context {U : Type} (table : list expr) (gr : N) (entries : list (N * N)) (entry : expr) (depth : nat) (C E : N).
  Notation pr := (table_program (U:=U) table gr).
  Notation fn := (fn_of table entries).
  Notation nul := (nul_of table).
  Notation rk := (rank_of table).
  Context (H1 : forallb (fun x => expr_wfb pr fn (snd x)) (imap pair table) = true).
  Context (H2 : forallb (fun x => guardedb nul (lvl_of table) (lvl_of table (N.of_nat (fst x))) true (snd x) &&
      (negb (nullable nul (pexp_of (snd x))) || nul (N.of_nat (fst x)))) (imap pair table) = true).
  Context (H3 : forallb (fun x => rankedb nul rk (rk (N.of_nat (fst x))) true (snd x)) (imap pair table) = true).
  Context (H4 : expr_wfb pr fn entry = true) (H5 : guardedb nul (lvl_of table) 100 true entry = true) (H6 : rankedb nul rk 100 true entry = true).
  Context (s : list N).
  Notation L := (N.of_nat (length s)).
  Context (H7 : forallb (fun x => match direct pr L depth (snd x) with Some c => c <=? C | None => false end) (imap pair table) = true).
  Context (H8 : direct pr L depth entry = Some E).

  Lemma table_answers u0 : N.of_nat (length s) < u32_modulus ->
    key_bound L (size (vars_of table entry)) (size (lrs_of table entry)) (width_of table entry) C E <= u32_modulus ->
    exists fuel0 r st, forall fuel, (fuel0 <= fuel)%nat -> run_entry pr u0 fuel entry s = Ok (r, st).
  Proof using H1 H2 H3 H4 H5 H6 H7 H8.
    intros Hs Hk.
    eapply (C54_answers pr fn nul (lvl_of table) rk s u0 Hs (check_wf table gr fn H1) (check_guarded table gr nul (lvl_of table) H2) (table_no_hooks table gr)
      (vars_of table entry) (lrs_of table entry) (width_of table entry) C E entry 100 100); [..|done].
    - intros f body Hf. apply rankedb_ok. exact (table_all (U:=U) table gr (fun f e => rankedb nul rk (rk f) true e) H3 f body Hf).
    - split.
      + intros f body r Hf Hr. apply elem_of_list_to_set, elem_of_app. right. by apply (in_concat_map var_labels table (N.to_nat f) body).
      + intros f body r Hf Hr. apply elem_of_list_to_set, elem_of_app. right. by apply (in_concat_map lr_labels table (N.to_nat f) body).
      + intros f body inv Hf Hr. unfold width_of. apply inj_le', le_width, elem_of_app. right. by apply (in_concat_map involved_sets table (N.to_nat f) body).
      + intros f body Hf. pose proof (table_all (U:=U) table gr (fun f e => match direct pr L depth e with Some c => c <=? C | None => false end) H7 f body Hf) as Hd.
        simpl in Hd. destruct (direct pr L depth body) as [c|] eqn:Ed; [|done]. exists c. split; [by eapply direct_ok|by apply N.leb_le].
    - by apply expr_wfb_ok.
    - by apply guardedb_ok.
    - by apply rankedb_ok.
    - intros r Hr. apply elem_of_list_to_set, elem_of_app. by left.
    - intros r Hr. apply elem_of_list_to_set, elem_of_app. by left.
    - intros inv Hr. unfold width_of. apply inj_le', le_width, elem_of_app. by left.
    - by eapply direct_ok.
  Qed.
End table_keys.
Lemma key_bound_mono L L' V R I C E : L <= L' -> key_bound L V R I C E <= key_bound L' V R I C E.
Proof.
  intros H. unfold key_bound.
  assert (HW : growth_keys L I <= growth_keys L' I).
  { unfold growth_keys. apply N.add_le_mono_l, N.mul_le_mono_r. lia. }
  apply N.add_le_mono; [apply N.add_le_mono; [apply N.add_le_mono_l|]|].
  - apply N.mul_le_mono; [apply N.mul_le_mono_l; lia|]. apply N.add_le_mono_l. by apply N.mul_le_mono_l.
  - apply N.mul_le_mono; [apply N.mul_le_mono_l; lia|done].
  - by apply N.mul_le_mono_l.
Qed.

(** [pr], started with [entry], answers on every text of at most [n] bytes what
    the grammar [G] says. *)
Definition answers_up_to {U} (n : N) (pr : program U) (G : pgrammar) (entry : expr) : Prop := forall s u0,
  N.of_nat (length s) <= n -> exists fuel0 b q st,
    (forall fuel, (fuel0 <= fuel)%nat -> run_entry pr u0 fuel entry s = Ok ((b, q), st)) /\
    peg G s (pexp_of entry) 0 (if b then Some q else None).

Lemma example_answers {U} table gr entries entry depth n C E G :
  let pr := table_program (U:=U) table gr in
  let fn := fn_of table entries in
  let nul := nul_of table in let rk := rank_of table in
  means pr G entry -> n < u32_modulus ->
  forallb (fun x => expr_wfb pr fn (snd x)) (imap pair table) = true ->
  forallb (fun x => guardedb nul (lvl_of table) (lvl_of table (N.of_nat (fst x))) true (snd x) &&
      (negb (nullable nul (pexp_of (snd x))) || nul (N.of_nat (fst x)))) (imap pair table) = true ->
  forallb (fun x => rankedb nul rk (rk (N.of_nat (fst x))) true (snd x)) (imap pair table) = true ->
  expr_wfb pr fn entry = true -> guardedb nul (lvl_of table) 100 true entry = true -> rankedb nul rk 100 true entry = true ->
  (forall L, forallb (fun x => match direct pr L depth (snd x) with Some c => c <=? C | None => false end) (imap pair table) = true) ->
  (forall L, direct pr L depth entry = Some E) ->
  key_bound n (size (vars_of table entry)) (size (lrs_of table entry)) (width_of table entry) C E <= u32_modulus ->
  answers_up_to n pr G entry.
Proof.
  intros pr fn nul rk HM Hn H1 H2 H3 H4 H5 H6 H7 H8 Hk s u0 Hs.
  destruct (table_answers (U:=U) table gr entries entry depth C E H1 H2 H3 H4 H5 H6 s (H7 _) (H8 _) u0 ltac:(lia)) as (f1 & r1 & st1 & R1).
  { etrans; [by apply key_bound_mono|done]. }
  destruct (HM s u0 ltac:(lia)) as [f0 [(b & q & st & R0 & HP)|R0]]; [by exists f0, b, q, st|].
  exfalso. specialize (R0 (f0 `max` f1)%nat ltac:(lia)). specialize (R1 (f0 `max` f1)%nat ltac:(lia)). pose proof (eq_trans (eq_sym R0) R1). discriminate.
Qed.

Theorem C54_example_1 : answers_up_to 12000 ex1_program s1_spec ex1_entry.
Proof. eapply (example_answers _ _ [(ex1_R_Grammar, ex1_f_grammar)] _ 5 _ 2 0); [exact C41_example_1|done|vm_compute; reflexivity..|intros L; vm_compute; reflexivity|intros L; vm_compute; reflexivity|vm_compute; discriminate]. Qed.
Theorem C54_example_3 : answers_up_to 5000 ex3_program s3_spec ex3_entry.
Proof. eapply (example_answers _ _ [(ex3_R_Grammar, ex3_f_grammar)] _ 5 _ 3 0); [exact C41_example_3|done|vm_compute; reflexivity..|intros L; vm_compute; reflexivity|intros L; vm_compute; reflexivity|vm_compute; discriminate]. Qed.
Theorem C54_example_4 : answers_up_to 5000 ex4_program s4_spec ex4_entry.
Proof. eapply (example_answers _ _ [(ex4_R_Grammar, ex4_f_grammar)] _ 5 _ 3 0); [exact C41_example_4|done|vm_compute; reflexivity..|intros L; vm_compute; reflexivity|intros L; vm_compute; reflexivity|vm_compute; discriminate]. Qed.
Theorem C54_example_5 : answers_up_to 26000 ex5_program s5_spec ex5_entry.
Proof. eapply (example_answers _ _ [(ex5_R_Grammar, ex5_f_grammar)] _ 5 _ 1 0); [exact C41_example_5|done|vm_compute; reflexivity..|intros L; vm_compute; reflexivity|intros L; vm_compute; reflexivity|vm_compute; discriminate]. Qed.
Theorem C54_example_6 : answers_up_to 13000 ex6_program s6_spec ex6_entry.
Proof. eapply (example_answers _ _ [(ex6_R_Grammar, ex6_f_grammar)] _ 5 _ 5 0); [exact C41_example_6|done|vm_compute; reflexivity..|intros L; vm_compute; reflexivity|intros L; vm_compute; reflexivity|vm_compute; discriminate]. Qed.
Theorem C54_example_10 : answers_up_to 26000 ex10_program s10_spec ex10_entry.
Proof. eapply (example_answers _ _ [(ex10_R_Grammar, ex10_f_grammar)] _ 5 _ 1 0); [exact C41_example_10|done|vm_compute; reflexivity..|intros L; vm_compute; reflexivity|intros L; vm_compute; reflexivity|vm_compute; discriminate]. Qed.
