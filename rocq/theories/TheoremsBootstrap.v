(** Theorems C49: the generated crates of the repository are what the generator
    writes for the grammar files of the repository, and mean what the files
    say. *)
From Verif Require Import SpecGenerator SpecMeaning SpecProgram SpecSession SpecLR SpecTerm ProofMeaning ProofFirst DslReader ProofReader GrammarChecks.
From Verif Require Import TheoremsGenerator TheoremsMeaning TheoremsTermination TheoremsLimits DslSources ShippedNames Programs ProofGenTotal ProofGenerate.
From stdpp Require Import relations gmap.
From Verif Require Import SpecMeaning.
Local Open Scope N_scope.

(** Whatever the hash orders, the generator writes for [file] a crate with
    these functions, imports, variants and size. *)
Record regenerates (file : list N) (table : list expr) (fns imports enum : list name) (size : N) : Prop := Regenerates {
  rg_fits : fits file;
  rg_code : forall ho, orders_ok ho -> exists fuel0 c, (forall fuel, (fuel0 <= fuel)%nat -> generate_parser fuel ho file = Ok (GCode c)) /\
    map gf_name (gc_fns c) = fns /\ gc_imports c = imports /\ gc_enum c = enum /\ gc_size c = size /\ code_table c = Some table }.

Global Instance expr_eq_dec : EqDecision expr.
Proof. unfold EqDecision, Decision. repeat decide equality. Defined.

Definition regenerates_b (file : list N) (table : list expr) (fns imports enum : list name) (size : N) : bool :=
  match generate_parser 4000 as_is_orders file with
  | Ok (GCode c) => bool_decide (map gf_name (gc_fns c) = fns) && bool_decide (gc_imports c = imports) && bool_decide (gc_enum c = enum) &&
      (gc_size c =? size) && bool_decide (code_table c = Some table)
  | _ => false
  end && forallb (fun c => c <? 128) file && (1 + 30 * (N.of_nat (length file) + 1) <=? u32_modulus).
Lemma regenerates_ok file table fns imports enum size : regenerates_b file table fns imports enum size = true -> regenerates file table fns imports enum size.
Proof.
  unfold regenerates_b. rewrite !andb_true_iff. intros [[H Ha] Hl]. assert (Hfit : fits file).
  { split; [by apply ascii_utf8|]. by apply N.leb_le. }
  split; [done|]. intros ho Hho. destruct (generate_parser 4000 as_is_orders file) as [[n|c]|x|] eqn:E; try done.
  rewrite !andb_true_iff, !bool_decide_eq_true, N.eqb_eq in H. destruct H as [[[[H1 H2] H3] H4] H5].
  destruct (C33_same_code file Hfit ho as_is_orders Hho as_is_ok) as [f0 Hf]. exists (Nat.max f0 4000), c. split; [|done].
  intros fuel Hfu. rewrite Hf by lia. rewrite <- E. apply generate_mono; [lia|]. by rewrite E.
Qed.

(** ** C49: every shipped crate is regenerated from its grammar file *)
Theorem C49_dsl : regenerates dsl_source dsl_table dsl_fns dsl_imports dsl_enum dsl_size.
Proof. apply regenerates_ok. vm_cast_no_check (eq_refl true). Qed.
Theorem C49_examples :
  regenerates ex1_source ex1_table ex1_fns ex1_imports ex1_enum ex1_size /\
  regenerates ex2_source ex2_table ex2_fns ex2_imports ex2_enum ex2_size /\
  regenerates ex3_source ex3_table ex3_fns ex3_imports ex3_enum ex3_size /\
  regenerates ex4_source ex4_table ex4_fns ex4_imports ex4_enum ex4_size /\
  regenerates ex5_source ex5_table ex5_fns ex5_imports ex5_enum ex5_size /\
  regenerates ex6_source ex6_table ex6_fns ex6_imports ex6_enum ex6_size /\
  regenerates ex7_source ex7_table ex7_fns ex7_imports ex7_enum ex7_size /\
  regenerates ex8_source ex8_table ex8_fns ex8_imports ex8_enum ex8_size /\
  regenerates ex9_source ex9_table ex9_fns ex9_imports ex9_enum ex9_size /\
  regenerates ex10_source ex10_table ex10_fns ex10_imports ex10_enum ex10_size /\
  regenerates ex11_source ex11_table ex11_fns ex11_imports ex11_enum ex11_size.
Proof. split_and!; apply regenerates_ok; vm_cast_no_check (eq_refl true). Qed.

(** The rules a grammar file spells (unique by C25_unambiguous). *)
Definition rules_of (file : list N) : list drule := match read_rules file with Some r => r | None => [] end.
Definition spelled (file : list N) : bool := match read_rules file with Some _ => true | None => false end.
Lemma spelled_ok file : spelled file = true -> file_text file (rules_of file).
Proof. unfold spelled, rules_of. destruct (read_rules file) eqn:E; [|done]. intros _. by apply read_rules_sound. Qed.

Definition regular_b (rules : list drule) : bool := refs_declared_b rules && hook_free_b rules && plain_b rules.
Lemma regular_ok rules : regular_b rules = true -> regular rules.
Proof.
  unfold regular_b. rewrite !andb_true_iff. intros [[H1 H2] H3]. split; [by apply refs_declared_ok|by apply hook_free_ok|by apply plain_ok].
Qed.
Lemma regenerates_crate file table fns imports enum size : regenerates file table fns imports enum size -> spelled file = true ->
  exists c, gc_enum c = enum /\ crate_of file (rules_of file) c table.
Proof.
  intros [Hfit H] Hs. destruct (H _ as_is_ok) as (f0 & c & Hc & _ & _ & He & _ & Ht). exists c. split; [done|]. split; try done.
  - exists f0, as_is_orders. split; [apply as_is_ok|]. by apply Hc.
  - left. by apply spelled_ok.
Qed.
(** How the shipped parse.rs starts: _var_name with the variant [v] and
    function [f] of the rule named [n]. *)
Definition entry_b (rules : list drule) (enum : list name) (n : name) (v f : N) : bool :=
  match rules !! N.to_nat f with Some r => bool_decide (dr_name r = n) | None => false end &&
  bool_decide (enum !! N.to_nat v = Some (first_upper n)).
Lemma entry_ok rules c n v f : entry_b rules (gc_enum c) n v f = true -> entry_for rules c n (EVar v f).
Proof.
  unfold entry_b. rewrite andb_true_iff, bool_decide_eq_true. intros [H1 H2]. destruct (rules !! N.to_nat f) as [r|] eqn:E; [|done].
  apply bool_decide_eq_true in H1. exists (N.to_nat f), r. split; [done|]. split; [done|]. right. exists (N.to_nat v). rewrite !N2Nat.id. done.
Qed.
Definition grammar_name : name := bytes "Grammar".

(** *** The grammar of grammars *)
Definition dsl_rules : list drule := rules_of dsl_source.
Lemma dsl_spelled : spelled dsl_source = true.
Proof. vm_cast_no_check (eq_refl true). Qed.
Lemma dsl_checks : regular_b dsl_rules && no_empty_loops_b dsl_rules && not_left_recursive_b dsl_rules && first_acyclic_b dsl_rules &&
  entry_b dsl_rules dsl_enum grammar_name dsl_R_Grammar dsl_f_grammar = true.
Proof. vm_cast_no_check (eq_refl true). Qed.
Lemma five_checks a b c d e : a && b && c && d && e = true -> a = true /\ b = true /\ c = true /\ d = true /\ e = true.
Proof. rewrite !andb_true_iff. tauto. Qed.
Lemma dsl_checked : regular dsl_rules /\ no_empty_loops dsl_rules /\ (forall n, ~ left_recursive dsl_rules n) /\ (forall n, ~ tc (first_calls dsl_rules) n n) /\
  entry_b dsl_rules dsl_enum grammar_name dsl_R_Grammar dsl_f_grammar = true.
Proof.
  destruct (five_checks _ _ _ _ _ dsl_checks) as (H1 & H2 & H3 & H4 & H5).
  exact (conj (regular_ok _ H1) (conj (no_empty_loops_ok _ H2) (conj (not_left_recursive_ok _ H3) (conj (first_acyclic_ok _ H4) H5)))).
Qed.
Lemma dsl_crate : exists c, gc_enum c = dsl_enum /\ crate_of dsl_source dsl_rules c dsl_table.
Proof. eapply regenerates_crate; [apply C49_dsl|apply dsl_spelled]. Qed.

Global Opaque dsl_rules.
Section grammar_of_grammars.
  Context (s : list N) (Hs : N.of_nat (length s) < u32_modulus).
  (** Grammar.dsl spells these rules, and the shipped parser of grammar files
      answers exactly what they mean. *)
  Theorem C49_dsl_means fuel b q st : run_entry dsl_program tt fuel dsl_entry s = Ok ((b, q), st) ->
    file_text dsl_source dsl_rules /\ means dsl_rules s (DRef grammar_name) 0 (if b then Some q else None) /\ (b = false -> q = 0).
  Proof using Hs.
    intros Hr. split; [apply spelled_ok, dsl_spelled|]. destruct dsl_crate as (c & Hc & Hcr). destruct dsl_checked as (H1 & H2 & H3 & H4 & H5).
    eapply (C47_sound _ _ _ _ Hcr H1 dsl_R_Grammar s Hs H3); [|exact Hr]. apply entry_ok. by rewrite Hc.
  Qed.
  Theorem C49_dsl_total : 1 + 31 * (N.of_nat (length s) + 1) <= u32_modulus ->
    exists fuel0 (b : bool) q st, means dsl_rules s (DRef grammar_name) 0 (if b then Some q else None) /\
      forall fuel, (fuel0 <= fuel)%nat -> run_entry dsl_program tt fuel dsl_entry s = Ok ((b, q), st).
  Proof using Hs.
    intros Hb. destruct dsl_crate as (c & Hc & Hcr). destruct dsl_checked as (H1 & H2 & H3 & H4 & H5).
    eapply (C48_total _ _ _ _ Hcr H1 dsl_R_Grammar H2 s Hs _ dsl_entry H4 H3); [by rewrite Hc|]. apply entry_ok. by rewrite Hc.
  Qed.
End grammar_of_grammars.
(** The grammar of grammars, read as a grammar file, describes the concrete
    syntax of grammar files. *)
Theorem C49_self_description s : fits s -> (exists rules, file_text s rules) <-> means dsl_rules s (DRef grammar_name) 0 (Some (N.of_nat (length s))).
Proof.
  intros Hfit. pose proof (fits_len _ Hfit) as Hs. destruct dsl_crate as (c & Hc & Hcr). destruct dsl_checked as (H1 & H2 & H3 & H4 & H5).
  assert (He : entry_for dsl_rules c grammar_name (EInline dsl_f_grammar)).
  { rewrite <- Hc in H5. apply entry_ok in H5 as (k & r & Hk & Hn & _). unfold entry_b in *. exists (N.to_nat dsl_f_grammar).
    destruct (five_checks _ _ _ _ _ dsl_checks) as (_ & _ & _ & _ & H). unfold entry_b in H. apply andb_true_iff in H as [H _].
    destruct (dsl_rules !! N.to_nat dsl_f_grammar) as [r'|]; [|done]. apply bool_decide_eq_true in H. exists r'. split; [done|]. split; [done|].
    left. by rewrite N2Nat.id. }
  destruct (C25_answers s Hfit) as (f0 & b & q & st & Hrun). specialize (Hrun f0 (Nat.le_refl _)).
  destruct (C47_sound _ _ _ _ Hcr H1 dsl_R_Grammar s Hs H3 _ _ _ _ _ _ He Hrun) as [Hm _].
  rewrite <- (C25_grammar_files s Hfit _ _ _ _ Hrun). split.
  - by intros [-> ->].
  - intros H. pose proof (C47_functional _ _ _ _ _ _ Hm H) as E. clear -E. destruct b; [|discriminate E]. injection E as ->. split; reflexivity.
Qed.

(** *** The left-recursive examples *)
Definition lr_checks (file : list N) (enum : list name) (v f : N) : bool :=
  let rules := rules_of file in
  spelled file && regular_b rules && no_empty_loops_b rules && cycles_visible_b rules && entry_b rules enum grammar_name v f.
(** On every input the crate's parser answers (or runs out of node keys), and
    what it matches can be derived from the rules its grammar file spells. *)
Definition answers_with_derivation (file : list N) (table : list expr) (gr v f : N) : Prop :=
  file_text file (rules_of file) /\ forall s, N.of_nat (length s) < u32_modulus ->
  exists fuel0, (exists (b : bool) q st, (b = true -> derives (rules_of file) s (DRef grammar_name) 0 q) /\
      forall fuel, (fuel0 <= fuel)%nat -> run_entry (table_program table gr : program unit) tt fuel (EVar v f) s = Ok ((b, q), st)) \/
    (forall fuel, (fuel0 <= fuel)%nat -> run_entry (table_program table gr : program unit) tt fuel (EVar v f) s = Panic PKeyOverflow).
Lemma lr_checks_ok file table fns imports enum size gr v f : regenerates file table fns imports enum size -> lr_checks file enum v f = true ->
  answers_with_derivation file table gr v f.
Proof.
  intros Hg H. unfold lr_checks in H. rewrite !andb_true_iff in H. destruct H as [[[[H1 H2] H3] H4] H5]. split; [by apply spelled_ok|]. intros s Hs.
  destruct (regenerates_crate _ _ _ _ _ _ Hg H1) as (c & Hc & Hcr). apply regular_ok in H2. apply no_empty_loops_ok in H3. rewrite <- Hc in H5.
  apply entry_ok in H5. destruct (C35_answers _ _ _ _ Hcr H2 gr H3 s Hs _ _ (cycles_visible_ok _ H4) H5) as (fuel0 & [(b & q & st & H)|H]).
  - exists fuel0. left. exists b, q, st. split; [|done]. intros ->. eapply (C47_derivable _ _ _ _ Hcr H2 gr s Hs); [exact H5|]. by apply H.
  - exists fuel0. by right.
Qed.
Theorem C49_examples_answer :
  answers_with_derivation ex1_source ex1_table ex1_R_Grammar ex1_R_Grammar ex1_f_grammar /\
  answers_with_derivation ex2_source ex2_table ex2_R_Grammar ex2_R_Grammar ex2_f_grammar /\
  answers_with_derivation ex3_source ex3_table ex3_R_Grammar ex3_R_Grammar ex3_f_grammar /\
  answers_with_derivation ex4_source ex4_table ex4_R_Grammar ex4_R_Grammar ex4_f_grammar /\
  answers_with_derivation ex5_source ex5_table ex5_R_Grammar ex5_R_Grammar ex5_f_grammar /\
  answers_with_derivation ex6_source ex6_table ex6_R_Grammar ex6_R_Grammar ex6_f_grammar /\
  answers_with_derivation ex7_source ex7_table ex7_R_Grammar ex7_R_Grammar ex7_f_grammar /\
  answers_with_derivation ex8_source ex8_table ex8_R_Grammar ex8_R_Grammar ex8_f_grammar /\
  answers_with_derivation ex9_source ex9_table ex9_R_Grammar ex9_R_Grammar ex9_f_grammar /\
  answers_with_derivation ex10_source ex10_table ex10_R_Grammar ex10_R_Grammar ex10_f_grammar.
Proof.
  destruct C49_examples as (H1 & H2 & H3 & H4 & H5 & H6 & H7 & H8 & H9 & H10 & _).
  split_and!; (eapply lr_checks_ok; [eassumption|vm_cast_no_check (eq_refl true)]).
Qed.

(** ** The side conditions matter *)
(** '' spells the empty string but is compiled to two double quotes. *)
Definition quotes : list N := bytes "<Grammar>='';".
Theorem C47_empty_literal_wrong : exists c table, crate_of quotes (rules_of quotes) c table /\
  means (rules_of quotes) [] (DRef grammar_name) 0 (Some 0) /\
  forall fuel, (10 <= fuel)%nat -> exists st, run_entry (table_program table 0 : program unit) tt fuel (EVar 0 0) [] = Ok ((false, 0), st).
Proof.
  exists (match generate_parser 300 as_is_orders quotes with Ok (GCode c) => c | _ => GenCode [] [] [] 0 end), [ESeq (ETerminal 34) (ETerminal 34)].
  split_and!.
  - split.
    + split; [apply ascii_utf8; vm_compute; done|]. vm_compute. done.
    + exists 300%nat, as_is_orders. split; [apply as_is_ok|]. vm_compute. done.
    + left. apply spelled_ok. vm_compute. done.
    + vm_compute. done.
  - eapply m_ref; [vm_compute; done|]. by apply (m_literal _ _ (DQuoted []) [] 0).
  - intros fuel Hf. do 10 (destruct fuel as [|fuel]; [lia|]). eexists. vm_compute. done.
Qed.
(** ['\n'..'\r'] means the control characters 10 to 13 but is compiled to the
    backslash. *)
Definition controls : list N := bytes "<Grammar>=['\n'..'\r'];".
Theorem C47_escaped_bound_wrong : exists c table, crate_of controls (rules_of controls) c table /\
  means (rules_of controls) [10] (DRef grammar_name) 0 (Some 1) /\
  forall fuel, (10 <= fuel)%nat -> exists st, run_entry (table_program table 0 : program unit) tt fuel (EVar 0 0) [10] = Ok ((false, 0), st).
Proof.
  exists (match generate_parser 300 as_is_orders controls with Ok (GCode c) => c | _ => GenCode [] [] [] 0 end), [ERange 92 92].
  split_and!.
  - split.
    + split; [apply ascii_utf8; vm_compute; done|]. vm_compute. done.
    + exists 300%nat, as_is_orders. split; [apply as_is_ok|]. vm_compute. done.
    + left. apply spelled_ok. vm_compute. done.
    + vm_compute. done.
  - eapply m_ref; [vm_compute; done|]. by eapply (m_range _ _ _ _ 10 13 10).
  - intros fuel Hf. do 10 (destruct fuel as [|fuel]; [lia|]). eexists. vm_compute. done.
Qed.

(** Left recursion in a last alternative is not seen by the detector: the
    crate generated from this file recurses for ever
    (C35_undetected_diverges is about its rule B). *)
Definition last_alt_file : list N := bytes "<B>='a'/(<B>,'b'); <A>=<B>;".
Theorem C35_missed : exists c, crate_of last_alt_file (rules_of last_alt_file) c last_alt_table /\ regular (rules_of last_alt_file) /\
  no_empty_loops (rules_of last_alt_file) /\
  entry_for (rules_of last_alt_file) c (bytes "B") (EVar 1 0) /\
  first_calls (rules_of last_alt_file) (bytes "B") (bytes "B") /\ (forall n, ~ left_recursive (rules_of last_alt_file) n) /\
  derives (rules_of last_alt_file) (bytes "ab") (DRef (bytes "B")) 0 2 /\
  forall fuel r, run_entry (table_program last_alt_table 1 : program unit) tt fuel (EVar 1 0) (bytes "b") <> Ok r.
Proof.
  exists (match generate_parser 300 as_is_orders last_alt_file with Ok (GCode c) => c | _ => GenCode [] [] [] 0 end).
  split_and!.
  - split.
    + split; [apply ascii_utf8; vm_compute; done|]. vm_compute. done.
    + exists 300%nat, as_is_orders. split; [apply as_is_ok|]. vm_compute. done.
    + left. apply spelled_ok. vm_compute. done.
    + vm_compute. done.
  - apply regular_ok. vm_compute. done.
  - apply no_empty_loops_ok. vm_compute. done.
  - apply entry_ok. vm_compute. done.
  - eexists. split; [vm_compute; done|]. eapply sw_alt; [apply elem_of_cons; right; apply elem_of_cons; by left|].
    apply sw_group. apply (sw_seq _ [] (DRef [66]) _ [66]); constructor.
  - apply not_left_recursive_ok. vm_compute. done.
  - eapply d_ref; [vm_compute; done|]. eapply d_alt; [apply elem_of_cons; right; apply elem_of_cons; by left|]. apply d_group, d_seq.
    apply (ds_cons _ _ _ _ 0 1 2).
    + eapply d_ref; [vm_compute; done|]. eapply d_alt; [apply elem_of_cons; by left|]. by apply (d_literal _ _ (DQuoted [97]) [97] 0).
    + apply (ds_cons _ _ _ _ 1 2 2); [|constructor]. by apply (d_literal _ _ (DQuoted [98]) [98] 1).
  - apply C35_undetected_diverges.
Qed.
