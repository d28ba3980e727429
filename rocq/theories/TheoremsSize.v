(** Theorems C54, second part: the size of cleaned trees, and parsers and
    calculators that answer on every input up to a given length. *)
From Coq Require Import ZArith.
From Verif Require Import SpecExact SpecSafe SpecSession SpecUtf8 SpecExamples ProofPeg ProofSound ProofSafe ProofFuel ProofTree ProofTree2 Checks TheoremsKernel TheoremsPackrat
  TheoremsExamples TheoremsGenerator TheoremsExact.
From Verif Require Import SpecCalc Calc ProofArith ProofUnambiguous ProofCalcPeg ProofCalcTree ProofCalcSound TheoremsCalc.
From Verif Require Import SpecKeys ProofSize TheoremsKeys.
Local Open Scope N_scope.

Section size.
  Context {U : Type} (pr : program U) (fn : N -> N) (s : list N) (u0 : U) (Pl Nr : N -> bool).
  Context (Hs : N.of_nat (length s) < u32_modulus) (Hwf : program_wf pr fn) (Hnh : no_hooks pr) (HPl : plain_ok pr Pl).
  Context (HT : tidy_program Nr pr).
  Context (h : N -> N) (nul : N -> bool) (H : N) (Hlow : low h nul H (grammar_of pr)).
  Context (entry : expr) (He : expr_wf pr fn entry) (Ht : forall f, f ∈ lr_targets entry -> Pl f = false) (Htd : tidy Nr entry = true).

  (** The tree that parse returns for a match is linear in the length of the match. *)
  Theorem C54_tree_size fuel q p' r i j b G :
    parse_with pr u0 fuel entry s = Ok (true, q, p') -> denotes p' (TNode r i j b G) -> fsize G <= 2 * (1 + H) * q.
  Proof using Hs Hwf Hnh HPl HT Hlow He Ht Htd.
    intros Hp Hd. destruct (C52_core pr fn s u0 Pl Nr Hs Hwf Hnh HPl HT entry fuel true q p' r i j b G He Ht Htd Hp Hd) as [HD _].
    destruct (HD eq_refl) as (D & HL & ->). pose proof (ld_linear _ _ _ _ _ _ Hlow _ _ _ _ HL) as Hx. by rewrite N.sub_0_r in Hx.
  Qed.

  (** So cleaning up does not run out of keys. *)
  Lemma C54_clears fuel b0 q st : fails_clean Nr entry = true -> 2 + 2 * (1 + H) * N.of_nat (length s) <= u32_modulus ->
    run_entry pr u0 fuel entry s = Ok ((b0, q), st) -> exists fuel0 p' G,
    (forall fuel, (fuel0 <= fuel)%nat -> clear_false fuel (pr_grammar pr) (cx_pub (st_ctx st)) = Ok p') /\ denotes p' (TNode (pr_grammar pr) 0 0 true G).
  Proof using Hs Hwf Hnh HPl HT Hlow He Ht Htd.
    intros Hfc Hk Er. destruct (C52_raw pr fn s u0 Pl Nr Hs Hwf Hnh HPl HT entry fuel b0 q st He Ht Htd Er) as (l & i & j & F & Hd & HA & HB).
    assert (Hq : (b0 = false -> q = 0) /\ (b0 = true -> 0 <= q <= N.of_nat (length s))).
    { eapply (C01_positions pr fn s u0); [done|done|done|apply session_fresh|done|lia|exact Er]. }
    assert (Hsz : fsize (prune_forest F) <= 2 * (1 + H) * N.of_nat (length s)).
    { destruct b0.
      - destruct (HA eq_refl) as (D & HL & ->). pose proof (ld_linear _ _ _ _ _ _ Hlow _ _ _ _ HL) as Hx. rewrite N.sub_0_r in Hx.
        etrans; [exact Hx|]. apply N.mul_le_mono_l. destruct Hq as [_ Hq]. by apply Hq.
      - rewrite (HB eq_refl Hfc). cbn [fsize]. lia. }
    destruct (C17_clear_false_prunes _ (pr_grammar pr) _ _ _ _ Hd ltac:(lia)) as (f0 & p' & Hc & Hd'). by exists f0, p', (prune_forest F).
  Qed.

  (** With enough keys for the parser, parse answers. *)
  Theorem C54_parse_answers (lvl rk : N -> nat) (V R : gset N) (I C E : N) (n m : nat) :
    let L := N.of_nat (length s) in
    well_founded_program pr nul lvl -> ranked_program pr nul rk -> key_budget pr L V R I C ->
    guarded nul lvl m true entry -> ranked nul rk n true entry ->
    (forall r, r ∈ var_labels entry -> r ∈ V) -> (forall r, r ∈ lr_labels entry -> r ∈ R) ->
    (forall inv, inv ∈ involved_sets entry -> N.of_nat (length inv) <= I) -> lr_calls pr L entry E ->
    fails_clean Nr entry = true ->
    key_bound L (size V) (size R) I C E <= u32_modulus -> 2 + 2 * (1 + H) * L <= u32_modulus ->
    exists fuel0 b q p', forall fuel, (fuel0 <= fuel)%nat -> parse_with pr u0 fuel entry s = Ok (b, q, p').
  Proof using Hs Hwf Hnh HPl HT Hlow He Ht Htd.
    intros L Hwfp Hrk HB Hg Hre HV HR HI HE Hfc Hk1 Hk2.
    destruct (C54_answers pr fn nul lvl rk s u0 Hs Hwf Hwfp Hnh V R I C E entry n m Hrk HB He Hg Hre HV HR HI HE Hk1) as (f1 & [b q] & st & Hr).
    destruct (C54_clears f1 b q st Hfc Hk2 (Hr f1 (Nat.le_refl _))) as (f2 & p' & G & Hc & _).
    exists (f1 `max` f2)%nat, b, q, p'. intros fuel Hf. unfold parse_with. rewrite Hr by lia. cbn [rbind]. by rewrite Hc by lia.
  Qed.
End size.

(** ** Checking a table *)
Definition table_tower (table : list expr) : list N :=
  let nu := of_list false (table_nul table) in
  Checks.iter (length table) (fun hs => map (fun e => tower (of_list 0 hs) nu (pexp_of e)) table) (map (fun _ => 0) table).
Definition tower_of table := of_list 0 (table_tower table).
Definition tower_max table := foldr N.max 0 (table_tower table).
Definition low_table (table : list expr) : bool :=
  forallb (fun x => (tower (tower_of table) (nul_of table) (pexp_of (snd x)) <=? tower_of table (N.of_nat (fst x))) &&
    (negb (nullable (nul_of table) (pexp_of (snd x))) || nul_of table (N.of_nat (fst x)))) (imap pair table).
Lemma max_le l x : x ∈ l -> x <= foldr N.max 0 l.
Proof. induction 1; simpl; lia. Qed.
Lemma low_table_ok {U} table gr : low_table table = true -> low (tower_of table) (nul_of table) (tower_max table) (grammar_of (table_program (U:=U) table gr)).
Proof.
  intros HL. split.
  - intros A body HA. unfold grammar_of in HA. apply fmap_Some in HA as (e & HA & ->).
    pose proof (table_all (U:=U) table gr (fun f e => (tower (tower_of table) (nul_of table) (pexp_of e) <=? tower_of table f) &&
      (negb (nullable (nul_of table) (pexp_of e)) || nul_of table f)) HL A e HA) as [H1%N.leb_le H2]%andb_true_iff.
    split; [done|]. intros Hn. by rewrite Hn in H2.
  - intros A. unfold tower_of, of_list, tower_max. destruct (_ !! _) as [x|] eqn:E; [|lia]. apply max_le, elem_of_list_lookup. eauto.
Qed.

(** ** Parsers that answer *)
(** [parse] answers on every text of at most [n] bytes, and the answer is
    the match and the tree the grammar says. *)
Definition parses_up_to (n : N) (pr : program unit) (G : pgrammar) (Pl : list N) (entry : expr) : Prop := forall s,
  N.of_nat (length s) <= n -> exists fuel0 b q p',
    (forall fuel, (fuel0 <= fuel)%nat -> parse_with pr tt fuel entry s = Ok (b, q, p')) /\
    peg G s (pexp_of entry) 0 (if b then Some q else None) /\
    exists T, denotes p' (TNode (pr_grammar pr) 0 0 true T) /\
      if b then exists D, lderiv (grammar_of pr) s (in_list Pl) (pexp_of entry) 0 q D /\ T = prune_forest D else T = [].

Lemma table_clears table gr entries Nr Pl entry s fuel b q st : N.of_nat (length s) < u32_modulus ->
  tidy_table Nr table = true -> plain_table Pl table = true ->
  forallb (fun x => expr_wfb (table_program (U:=unit) table gr) (fn_of table entries) (snd x)) (imap pair table) = true ->
  expr_wfb (table_program (U:=unit) table gr) (fn_of table entries) entry = true ->
  lr_targets entry = [] -> tidy (in_list Nr) entry = true -> fails_clean (in_list Nr) entry = true ->
  low_table table = true -> 2 + 2 * (1 + tower_max table) * N.of_nat (length s) <= u32_modulus ->
  run_entry (table_program table gr) tt fuel entry s = Ok ((b, q), st) -> exists fuel0 p' G,
    (forall fuel, (fuel0 <= fuel)%nat -> clear_false fuel gr (cx_pub (st_ctx st)) = Ok p') /\ denotes p' (TNode gr 0 0 true G).
Proof.
  intros Hs H1 H2 H3 H4 H5 H6 H7 H8 Hk Hr.
  eapply (C54_clears (table_program table gr) (fn_of table entries) s tt (in_list Pl) (in_list Nr) Hs) with (H := tower_max table); try done.
  - by apply check_wf.
  - by apply plain_table_ok.
  - by apply tidy_table_ok.
  - by apply low_table_ok.
  - by apply expr_wfb_ok.
  - intros f Hf. rewrite H5 in Hf. by apply elem_of_nil in Hf.
Qed.

Lemma parses_ok n table gr entries Nr Pl entry G : n < u32_modulus ->
  answers_up_to n (table_program (U:=unit) table gr) G entry -> exact_example table gr entries Pl entry ->
  tidy_table Nr table = true -> plain_table Pl table = true ->
  forallb (fun x => expr_wfb (table_program (U:=unit) table gr) (fn_of table entries) (snd x)) (imap pair table) = true ->
  expr_wfb (table_program (U:=unit) table gr) (fn_of table entries) entry = true ->
  lr_targets entry = [] -> tidy (in_list Nr) entry = true -> fails_clean (in_list Nr) entry = true ->
  low_table table = true -> 2 + 2 * (1 + tower_max table) * n <= u32_modulus ->
  parses_up_to n (table_program table gr) G Pl entry.
Proof.
  intros Hn HA HX H1 H2 H3 H4 H5 H6 H7 H8 Hk s Hl. destruct (HA s tt Hl) as (f1 & b & q & st & Hr & HP).
  assert (Hs : N.of_nat (length s) < u32_modulus) by lia.
  destruct (table_clears table gr entries Nr Pl entry s f1 b q st Hs H1 H2 H3 H4 H5 H6 H7 H8) as (f2 & p' & T & Hc & Hd); [|by apply Hr|].
  { etrans; [|exact Hk]. apply N.add_le_mono_l, N.mul_le_mono_l, Hl. }
  exists (f1 `max` f2)%nat, b, q, p'. assert (HQ : forall fuel, (f1 `max` f2 <= fuel)%nat -> parse_with (table_program table gr) tt fuel entry s = Ok (b, q, p')).
  { intros fuel Hf. unfold parse_with. rewrite Hr by lia. cbn [rbind]. change (pr_grammar (table_program (U:=unit) table gr)) with gr. by rewrite Hc by lia. }
  split; [exact HQ|]. split; [exact HP|]. exists T. split; [exact Hd|]. exact (HX s _ b q p' _ _ _ _ _ Hs (HQ _ (Nat.le_refl _)) Hd).
Qed.
Theorem C54_parses_1 : parses_up_to 12000 ex1_program s1_spec ex1_plain_fns ex1_entry.
Proof. eapply (parses_ok 12000 ex1_table ex1_R_Grammar); [done|exact C54_example_1|exact C52_example_1|exact ex1_tidy|exact ex1_plain_ok|vm_compute; reflexivity..|vm_compute; discriminate]. Qed.
Theorem C54_parses_3 : parses_up_to 5000 ex3_program s3_spec ex3_plain_fns ex3_entry.
Proof. eapply (parses_ok 5000 ex3_table ex3_R_Grammar); [done|exact C54_example_3|exact C52_example_3|exact ex3_tidy|exact ex3_plain_ok|vm_compute; reflexivity..|vm_compute; discriminate]. Qed.
Theorem C54_parses_4 : parses_up_to 5000 ex4_program s4_spec ex4_plain_fns ex4_entry.
Proof. eapply (parses_ok 5000 ex4_table ex4_R_Grammar); [done|exact C54_example_4|exact C52_example_4|exact ex4_tidy|exact ex4_plain_ok|vm_compute; reflexivity..|vm_compute; discriminate]. Qed.

(** ** Calculators that answer *)
(** Every text of at most [n] bytes is either matched up to some point - the
    matched part is then the text of one expression, whose value is returned -
    or rejected; a text that is an expression is matched to its end. *)
Definition calculates_up_to (n : N) (d : dialect) (pr : program unit) (entry : expr) (evaluate : nat -> publisher -> list N -> res Z) (rejected : res Z) : Prop :=
  forall s, utf8 s -> N.of_nat (length s) <= n -> exists fuel0,
    (exists q a, well_formed d a = true /\ q <= N.of_nat (length s) /\ text a = take (N.to_nat q) s /\
       (forall a', well_formed d a' = true -> s = text a' -> a = a') /\
       forall fuel, (fuel0 <= fuel)%nat -> exists v, calculate pr entry evaluate fuel s = Ok (true, q, v) /\ agrees v (value a)) \/
    ((forall a, well_formed d a = true -> s <> text a) /\
       forall fuel, (fuel0 <= fuel)%nat -> calculate pr entry evaluate fuel s = Ok (false, 0, rejected)).
Section assemble.
  Context (n : N) (d : dialect) (table : list expr) (gr : N) (entries : list (N * N)) (Nr Pl : list N) (entry : expr) (spec : pgrammar).
  Notation pr := (table_program (U:=unit) table gr).
  Context (kernel : publisher -> list N -> nat -> node -> res Z) (rejected : res Z).
  Context (Hn : n < u32_modulus).
  Context (H1 : tidy_table Nr table = true) (H2 : plain_table Pl table = true).
  Context (HW : forallb (fun x => expr_wfb pr (fn_of table entries) (snd x)) (imap pair table) = true).
  Context (HE : expr_wfb pr (fn_of table entries) entry = true).
  Context (H5 : lr_targets entry = []) (H6 : tidy (in_list Nr) entry = true) (H7 : fails_clean (in_list Nr) entry = true).
  Context (H8 : low_table table = true) (Hk : 2 + 2 * (1 + tower_max table) * n <= u32_modulus).
  Context (Hexact : exact_example table gr entries Pl entry) (Hmeans : answers_up_to n pr spec entry).
  Context (Hsound : forall s, utf8 s -> forall q D, lderiv (grammar_of pr) s (in_list Pl) (pexp_of entry) 0 q D ->
    exists a, well_formed d a = true /\ span s 0 q (text a) /\
      forall p k n, p_nodes p !! k = Some n -> n_rule n = gr -> unfolds_list nothing p (n_children n) (prune_forest D) ->
        exists f0, forall fuel, (f0 <= fuel)%nat -> agrees (kernel p s fuel n) (value a)).
  Context (Hrej : forall p s fuel n, n_rule n = gr -> n_children n = [] -> kernel p s (S fuel) n = rejected).
  Context (Hcomplete : forall a, well_formed d a = true -> peg spec (text a) (pexp_of entry) 0 (Some (N.of_nat (length (text a))))).
  Lemma assemble_up_to : calculates_up_to n d pr entry (fun fuel => evaluate_tree gr kernel fuel) rejected.
  Proof using All.
    intros s Hu Hl. assert (Hs : N.of_nat (length s) < u32_modulus) by lia. destruct (Hmeans s tt Hl) as (f1 & b & q & st & Hrun & Hpeg).
    destruct (table_clears table gr entries Nr Pl entry s f1 b q st Hs H1 H2 HW HE H5 H6 H7 H8) as (f2 & p' & T & Hc & Hd); [|by apply Hrun|].
    { etrans; [|exact Hk]. apply N.add_le_mono_l, N.mul_le_mono_l, Hl. }
    destruct (assemble_answered d table gr entries Pl entry spec kernel rejected HW HE Hexact Hsound Hrej Hcomplete s b q st f1 f2 p' T Hu Hs Hrun Hpeg Hc Hd)
      as [f0 [(q' & a & Ha & Hq & Ht & Hf)|H]]; [|by exists f0; right].
    exists f0. left. exists q', a. split; [done|]. split; [done|]. split; [done|]. split; [|done].
    intros a' Ha' ->. destruct (Hf (f0 `max` f1)%nat ltac:(lia)) as (v & Hv & _). unfold calculate in Hv. rewrite Hrun in Hv by lia. injection Hv as -> -> _.
    pose proof (peg_det _ _ _ _ _ _ Hpeg (Hcomplete a' Ha')) as [= ->].
    rewrite Nat2N.id, take_ge in Ht by lia. by eapply text_unique.
  Qed.
End assemble.
Theorem C54_calculator_1 : calculates_up_to 12000 Sums ex1_program ex1_entry ex1_evaluate (Ok 0%Z).
Proof.
  eapply (assemble_up_to 12000 Sums ex1_table ex1_R_Grammar [(ex1_R_Grammar, ex1_f_grammar)] _ ex1_plain_fns ex1_entry s1_spec ex1_kernel);
    [done|exact ex1_tidy|exact ex1_plain_ok|vm_compute; reflexivity..|vm_compute; discriminate|exact C52_example_1|exact C54_example_1|exact entry_1| |].
  - intros p s fuel n Hr Hc. cbn [ex1_kernel]. rewrite Hc, Hr. reflexivity.
  - intros a Ha. apply whole. eapply seg_ref; [vm_compute; reflexivity|]. by eapply seg_1.
Qed.
Theorem C54_calculator_3 : calculates_up_to 5000 Basic ex3_program ex3_entry ex3_evaluate (Panic PExplicit).
Proof.
  eapply (assemble_up_to 5000 Basic ex3_table ex3_R_Grammar [(ex3_R_Grammar, ex3_f_grammar)] _ ex3_plain_fns ex3_entry s3_spec (evaluate_tree_kernel ex3_action ex3_R_Number ex3_R_Integer));
    [done|exact ex3_tidy|exact ex3_plain_ok|vm_compute; reflexivity..|vm_compute; discriminate|exact C52_example_3|exact C54_example_3|exact entry_3| |].
  - intros p s fuel n Hr Hc. cbn [evaluate_tree_kernel]. rewrite Hc. reflexivity.
  - intros a Ha. apply whole. eapply seg_ref; [vm_compute; reflexivity|]. by eapply seg_3.
Qed.
Theorem C54_calculator_4 : calculates_up_to 5000 Full ex4_program ex4_entry ex4_evaluate (Panic PExplicit).
Proof.
  eapply (assemble_up_to 5000 Full ex4_table ex4_R_Grammar [(ex4_R_Grammar, ex4_f_grammar)] _ ex4_plain_fns ex4_entry s4_spec (evaluate_tree_kernel ex4_action ex4_R_Number ex4_R_Integer));
    [done|exact ex4_tidy|exact ex4_plain_ok|vm_compute; reflexivity..|vm_compute; discriminate|exact C52_example_4|exact C54_example_4|exact entry_4| |].
  - intros p s fuel n Hr Hc. cbn [evaluate_tree_kernel]. rewrite Hc. reflexivity.
  - intros a Ha. apply whole. eapply seg_ref; [vm_compute; reflexivity|]. by eapply seg_4.
Qed.

(** The trees returned by examples 1, 3 and 4 have at most 6, 12 and 14 nodes
    per byte. *)
Example C54_towers : (tower_max ex1_table, tower_max ex3_table, tower_max ex4_table) = (2, 5, 6).
Proof. vm_compute. reflexivity. Qed.
(** "1+1+1" in example 4: the bound and the nodes actually made, before and
    after cleaning. *)
Example C54_instance :
  key_bound 5 (size (vars_of ex4_table ex4_entry)) (size (lrs_of ex4_table ex4_entry)) (width_of ex4_table ex4_entry) 3 0 = 6325 /\
  (let! (r, st) := run_entry ex4_program tt 200 ex4_entry (bytes "1+1+1") in
   let! p' := clear_false 200 ex4_R_Grammar (cx_pub (st_ctx st)) in
   Ok (r, p_len (cx_pub (st_ctx st)), p_len p')) = Ok (true, 5, 72, 23).
Proof. split; vm_compute; reflexivity. Qed.
