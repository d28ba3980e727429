(** Theorems C50 and C51: the text the generator writes, and the text of the
    shipped crates, read as Rust. *)
From Verif Require Import SpecGenerator SpecMeaning ProofGenerate ProofGenTotal Render SpecRust ProofRender ProofText TheoremsGenerator TheoremsMeaning.
From Verif Require Import ProofLeft DslReader ProofReader TheoremsBootstrap DslSources ShippedNames CrateSources Programs.
From Coq Require Import Sorted.
From stdpp Require Import relations gmap sorting.
From Verif Require Import SpecDsl SpecMeaning.
Local Open Scope N_scope.

(** The generator, given the grammar file [s], writes these two files.  [dbg]
    is Rust's Debug formatting of a vector of characters, about which nothing
    is assumed; [ho] and [fuel] are any hash orders and any sufficient fuel. *)
Definition writes (s parser_rs rules_rs : list N) : Prop :=
  exists fuel ho dbg c, orders_ok ho /\ generate_parser fuel ho s = Ok (GCode c) /\
    parser_rs = parser_file_content dbg c /\ rules_rs = rules_enum_file_content c.

(** ** C50: the files mean the rules *)
Theorem C50_text s rules parser_rs rules_rs : fits s -> file_or_empty s rules -> writes s parser_rs rules_rs ->
  exists involved is_inline enum, refs_resolved rules involved is_inline /\ enum_for rules enum /\
    let fns := map (fun r => to_lowercase (dr_name r)) rules in
    let hooks := concat (map (fun r => hooks_of (dr_body r)) rules) in
    forall table, names_accepted fns enum hooks ->
    all_some (map (fun r => compile (Scope fns enum hooks) involved is_inline (dr_body r)) rules) = Some table ->
    read_crate parser_rs rules_rs = Some (Crate fns hooks enum (N.of_nat (length enum)) table).
Proof.
  intros Hfit Hf (fuel & ho & dbg & c & Hho & Hc & -> & ->).
  pose proof (C38_code s Hfit fuel ho rules c Hho Hc Hf) as [(inv & inl & Hr & HF) Him Hen Hsz].
  exists inv, inl, (gc_enum c). split; [done|]. split; [done|]. cbv zeta. intros table Hn Ht.
  assert (Efn : map gf_name (gc_fns c) = map (fun r => to_lowercase (dr_name r)) rules).
  { clear -HF. induction HF as [|r f rs fs [H _ _] _ IH]; [done|]. simpl. by rewrite H, IH. }
  rewrite <- Efn, <- Him, <- Hsz in *. apply read_back; [by eapply generated_code_ok|].
  unfold code_table. rewrite decide_True by done. rewrite <- Ht. symmetry. eapply all_some_forall2 in HF as ->; [done|].
  intros r f [_ _ H3]. done.
Qed.
(** ... in particular, whatever the generator writes for a crate the other
    theorems speak about ([crate_of]) reads as the table they speak about. *)
Theorem C50_crate file rules c table dbg : crate_of file rules c table ->
  exists fns hooks, read_crate (parser_file_content dbg c) (rules_enum_file_content c) = Some (Crate fns hooks (gc_enum c) (N.of_nat (length (gc_enum c))) table) /\
    fns = map (fun r => to_lowercase (dr_name r)) rules /\ hooks = concat (map (fun r => hooks_of (dr_body r)) rules).
Proof.
  intros [Hfit (fuel & ho & Hho & Hc) Hf Ht]. pose proof (C38_code file Hfit fuel ho rules c Hho Hc Hf) as [(inv & inl & Hr & HF) Him Hen Hsz].
  exists (map gf_name (gc_fns c)), (gc_imports c). split_and!; [|..|done].
  - rewrite <- Hsz. apply read_back; [by eapply generated_code_ok|done].
  - clear -HF. induction HF as [|r f rs fs [H _ _] _ IH]; [done|]. simpl. by rewrite H, IH.
Qed.

(** *** Comments are inert *)
(** Two files whose rules differ in nothing but comments. *)
Definition same_rules (rules rules' : list drule) : Prop :=
  map (fun r => (dr_name r, dr_inline r, dr_body r)) rules = map (fun r => (dr_name r, dr_inline r, dr_body r)) rules'.
Lemma lex_lt_asym a b : lex_lt a b -> lex_lt b a -> False.
Proof. induction 1; inversion 1; subst; try lia; eauto. Qed.
Global Instance lex_le_anti : AntiSymm (=) lex_le.
Proof. intros a b [H|H] [H'|H']; try done. by destruct (lex_lt_asym _ _ H H'). Qed.
Section same_rules.
  Context (rules rules' : list drule) (Hsame : same_rules rules rules').
  Lemma same_elem r : r ∈ rules -> exists r', r' ∈ rules' /\ dr_name r' = dr_name r /\ dr_inline r' = dr_inline r /\ dr_body r' = dr_body r.
  Proof using Hsame.
    intros H. apply (elem_of_list_fmap_1 (fun r => (dr_name r, dr_inline r, dr_body r))) in H. unfold same_rules in Hsame.
    change (fmap ?f rules) with (map f rules) in H. rewrite Hsame in H. apply elem_of_list_fmap in H as (r' & [= H1 H2 H3] & Hr). by exists r'.
  Qed.
  Lemma same_body n : body_of rules' n = body_of rules n.
  Proof using Hsame.
    unfold body_of. assert (E : map (fun r => (dr_name r, dr_inline r, dr_body r)) (rev rules) = map (fun r => (dr_name r, dr_inline r, dr_body r)) (rev rules')).
    { unfold same_rules in Hsame. by rewrite !map_rev, Hsame. }
    revert E. generalize (rev rules) (rev rules'). clear. intros l. induction l as [|r l IH]; intros [|r' l'] E; try done.
    cbn in E. injection E as E1 E2 E3 E. cbn. rewrite <- E1. case_bool_decide; [by rewrite E3|]. by apply IH.
  Qed.
  Lemma same_calls n m : left_calls rules' n m <-> left_calls rules n m.
  Proof using Hsame. unfold left_calls. by rewrite same_body. Qed.
  Lemma same_rtc n m : rtc (left_calls rules) n m <-> rtc (left_calls rules') n m.
  Proof using Hsame. split; apply rtc_congruence with (f := fun x => x); intros; by apply same_calls. Qed.
  Lemma same_tc n m : tc (left_calls rules) n m <-> tc (left_calls rules') n m.
  Proof using Hsame. split; apply tc_congruence with (f := fun x => x); intros; by apply same_calls. Qed.
  Lemma same_lr n : left_recursive rules n <-> left_recursive rules' n.
  Proof using Hsame. unfold left_recursive, reaches, on_left_cycle. split; intros (m & H1 & H2); exists m; (split; [by apply same_rtc|by apply same_tc]). Qed.
  Lemma same_involved n l l' : involved_variants rules n l -> involved_variants rules' n l' -> l = l'.
  Proof using Hsame.
    intros (ms & H1 & H2 & H3 & H4) (ms' & H1' & H2' & H3' & H4'). apply (StronglySorted_unique lex_le); [done..|].
    rewrite H3, H3'. apply Permutation_map, NoDup_Permutation; [done..|]. intros m. rewrite H2, H2', same_lr. unfold reaches. by rewrite same_rtc.
  Qed.
  Lemma same_decl n : declared_name rules n -> declared_name rules' n.
  Proof using Hsame. intros (r & Hr & <-). destruct (same_elem r Hr) as (r' & Hr' & E & _). by exists r'. Qed.
  Lemma same_inline n : declared_inline rules n -> declared_inline rules' n.
  Proof using Hsame. intros (r & Hr & <- & Hi). destruct (same_elem r Hr) as (r' & Hr' & E1 & E2 & _). exists r'. by rewrite E2. Qed.
  Lemma same_names : map (fun r => to_lowercase (dr_name r)) rules = map (fun r => to_lowercase (dr_name r)) rules'.
  Proof using Hsame.
    assert (H := f_equal (map (fun x : name * bool * dexp => to_lowercase x.1.1)) Hsame). rewrite !map_map in H. exact H.
  Qed.
  Lemma same_hooks : map (fun r => hooks_of (dr_body r)) rules = map (fun r => hooks_of (dr_body r)) rules'.
  Proof using Hsame. assert (H := f_equal (map (fun x : name * bool * dexp => hooks_of x.2)) Hsame). rewrite !map_map in H. exact H. Qed.
End same_rules.
Lemma same_rules_sym rules rules' : same_rules rules rules' -> same_rules rules' rules.
Proof. unfold same_rules. by intros ->. Qed.
Lemma compile_ext sc inv inv' inl inl' e : (forall n, inv n = inv' n) -> (forall n, inl n = inl' n) -> compile sc inv inl e = compile sc inv' inl' e.
Proof.
  intros H1 H2. induction e as [c|l|ds|ds|a b|n|e IH|n e IH|e IH|e IH|e IH|e IH|e IH|es IH|es IH] using dexp_ind'; cbn [compile]; try done; try (by rewrite IH).
  - unfold compile_ref. by rewrite H1, H2.
  - f_equal. apply map_ext_in. intros e He. rewrite list.Forall_forall in IH. apply IH. by apply elem_of_list_In.
  - f_equal. apply map_ext_in. intros e He. rewrite list.Forall_forall in IH. apply IH. by apply elem_of_list_In.
Qed.
Theorem C50_comments file rules c table file' rules' c' dbg dbg' : crate_of file rules c table ->
  fits file' -> file_or_empty file' rules' -> (exists fuel ho, orders_ok ho /\ generate_parser fuel ho file' = Ok (GCode c')) -> same_rules rules rules' ->
  read_crate (parser_file_content dbg' c') (rules_enum_file_content c') = read_crate (parser_file_content dbg c) (rules_enum_file_content c).
Proof.
  intros Hcr Hfit' Hf' (fuel' & ho' & Hho' & Hc') Hs. assert (Hs' := same_rules_sym _ _ Hs).
  destruct Hcr as [Hfit (fuel & ho & Hho & Hc) Hf Ht].
  pose proof (C38_code file Hfit fuel ho rules c Hho Hc Hf) as [(inv & inl & [Hri Hrl] & HF) Him Hen Hsz].
  pose proof (C38_code file' Hfit' fuel' ho' rules' c' Hho' Hc' Hf') as [(inv' & inl' & [Hri' Hrl'] & HF') Him' Hen' Hsz'].
  assert (Efn : map gf_name (gc_fns c) = map (fun r => to_lowercase (dr_name r)) rules).
  { clear -HF. induction HF as [|r f rs fs [H _ _] _ IH]; [done|]. simpl. by rewrite H, IH. }
  assert (Efn' : map gf_name (gc_fns c') = map (fun r => to_lowercase (dr_name r)) rules').
  { clear -HF'. induction HF' as [|r f rs fs [H _ _] _ IH]; [done|]. simpl. by rewrite H, IH. }
  assert (E1 : map gf_name (gc_fns c') = map gf_name (gc_fns c)) by (rewrite Efn, Efn'; symmetry; by apply same_names).
  assert (E2 : gc_imports c' = gc_imports c) by (rewrite Him, Him'; f_equal; symmetry; by apply same_hooks).
  assert (E3 : gc_enum c' = gc_enum c).
  { destruct Hen as (ns & Hn1 & Hn2 & ->). destruct Hen' as (ns' & Hn1' & Hn2' & ->). f_equal. 
    assert (Hnd : forall l, StronglySorted lex_lt l -> NoDup l).
    { induction 1 as [|x l _ IH Hx]; constructor; [|done]. intros Hin. pose proof (proj1 (list.Forall_forall _ _) Hx _ Hin) as Hlt.
      by eapply lex_lt_asym. }
    assert (Hle : forall l, StronglySorted lex_lt l -> StronglySorted lex_le l).
    { induction 1 as [|x l _ IH Hx]; constructor; [done|]. eapply list.Forall_impl; [exact Hx|]. intros y. by right. }
    apply (StronglySorted_unique lex_le); [by apply Hle..|]. apply NoDup_Permutation; [by apply Hnd..|]. intros n. rewrite Hn2, Hn2'.
    split; intros [Hd Hi].
    - split; [exact (same_decl _ _ Hs' _ Hd)|]. intros H. exact (Hi (same_inline _ _ Hs _ H)).
    - split; [exact (same_decl _ _ Hs _ Hd)|]. intros H. exact (Hi (same_inline _ _ Hs' _ H)). }
  assert (E4 : gc_size c' = gc_size c) by (by rewrite Hsz, Hsz', E3).
  assert (Ei : forall n, inv' n = inv n).
  { intros n. specialize (Hri n). specialize (Hri' n). destruct (inv n) as [l|], (inv' n) as [l'|]; try done.
    - f_equal. destruct Hri as [_ Hl], Hri' as [_ Hl']. symmetry. exact (same_involved _ _ Hs _ _ _ Hl Hl').
    - exfalso. apply Hri'. apply (same_lr rules rules' Hs). apply Hri.
    - exfalso. apply Hri. apply (same_lr rules rules' Hs). apply Hri'. }
  assert (El : forall n, inl' n = inl n).
  { intros n. apply eq_true_iff_eq. rewrite Hrl, Hrl'. split; [exact (same_inline _ _ Hs' n)|exact (same_inline _ _ Hs n)]. }
  assert (Ht' : code_table c' = Some table).
  { rewrite <- Ht. unfold code_table. rewrite E1, E2, E3. destruct (decide _); [|done].
    rewrite (all_some_forall2 _ (fun r => compile (scope_of c') inv' inl' (dr_body r)) _ _ _ HF') by (intros r f [_ _ H3]; done).
    rewrite (all_some_forall2 _ (fun r => compile (scope_of c) inv inl (dr_body r)) _ _ _ HF) by (intros r f [_ _ H3]; done).
    assert (scope_of c' = scope_of c) as -> by (unfold scope_of; by rewrite E1, E2, E3). f_equal.
    transitivity (map (fun r => compile (scope_of c) inv inl (dr_body r)) rules').
    - apply map_ext. intros r. by apply compile_ext.
    - assert (H := f_equal (map (fun x : name * bool * dexp => compile (scope_of c) inv inl x.2)) Hs). rewrite !map_map in H. by symmetry. }
  assert (Hok := generated_code_ok _ _ _ _ Hfit Hho Hc). assert (Hok' := generated_code_ok _ _ _ _ Hfit' Hho' Hc').
  rewrite (read_back dbg' c' table Hok' Ht'), (read_back dbg c table Hok Ht). by rewrite E1, E2, E3, E4.
Qed.

(** Two such files: one without comments, one whose comments look like Rust. *)
Definition bare_file : list N := bytes "<A>=<B>,'x'; <B>=['0'..'9']+;".
Definition noisy_file : list N := bytes "<A>=<B>,'x';#} */ pub fn b(x:u8){ ""#
<B>=['0'..'9']+;# one
// let closure_1 = _terminal(b'y');
/* two #".
Definition code_for (s : list N) : gen_code := match generate_parser 300 as_is_orders s with Ok (GCode c) => c | _ => GenCode [] [] [] 0 end.
Example noisy_same : exists rules rules' table, crate_of bare_file rules (code_for bare_file) table /\ fits noisy_file /\ file_or_empty noisy_file rules' /\
  generate_parser 300 as_is_orders noisy_file = Ok (GCode (code_for noisy_file)) /\ same_rules rules rules' /\ rules <> rules' /\
  gf_comment <$> gc_fns (code_for noisy_file) = [[bytes "} */ pub fn b(x:u8){ """]; [bytes "one"; bytes "// let closure_1 = _terminal(b'y');"; bytes "/* two"]].
Proof.
  exists (rules_of bare_file), (rules_of noisy_file), [ESeq (EVar 1 1) (ETerminal 120); EPlus (ERange 48 57)]. split_and!; [split|..].
  - split; [apply ascii_utf8; vm_compute; done|]. vm_compute. done.
  - exists 300%nat, as_is_orders. split; [apply as_is_ok|]. vm_compute. done.
  - left. apply spelled_ok. vm_compute. done.
  - vm_compute. done.
  - split; [apply ascii_utf8; vm_compute; done|]. vm_compute. done.
  - left. apply spelled_ok. vm_compute. done.
  - vm_compute. done.
  - vm_compute. done.
  - intros H. apply (f_equal (map dr_comments)) in H. vm_compute in H. done.
  - vm_compute. done.
Qed.

(** *** Literals are not inert *)
(** A backslash before a closing double quote turns what follows into Rust:
    the generator writes a file in which the second literal of this grammar is
    code.  [code_table] rejects it (the first literal alone is no literal). *)
Definition inject : list N := bytes "<Grammar>=""x\"","");let closure_2=_terminal(b'z');//"";".
Definition inject_code : gen_code := match generate_parser 300 as_is_orders inject with Ok (GCode c) => c | _ => GenCode [] [] [] 0 end.
Theorem C50_injection : file_text inject [DRule (bytes "Grammar") false (DSeq [DString (bytes "x\"); DString (bytes ");let closure_2=_terminal(b'z');//")]) []] /\
  generate_parser 300 as_is_orders inject = Ok (GCode inject_code) /\ code_table inject_code = None /\
  forall dbg, exists l, read_crate (parser_file_content dbg inject_code) (rules_enum_file_content inject_code) =
    Some (Crate [bytes "grammar"] [] [bytes "Grammar"] 1 [ESeq (EString l) (ETerminal 122)]).
Proof.
  split_and!.
  - assert (H : read_rules inject = Some [DRule (bytes "Grammar") false (DSeq [DString (bytes "x\"); DString (bytes ");let closure_2=_terminal(b'z');//")]) []]) by (vm_compute; done).
    by apply read_rules_sound in H.
  - vm_compute. done.
  - vm_compute. done.
  - intros dbg. eexists. vm_compute. reflexivity.
Qed.

(** *** A concrete case *)
Example demo_text : exists fns hooks enum size, forall dbg, read_crate (parser_file_content dbg demo_code) (rules_enum_file_content demo_code) =
  Some (Crate fns hooks enum size [ESeq (ELR [1] 1 1) (ETerminal 46);
    EChoice (ESub (ESeq (ESeq (ELR [1] 1 1) (ETerminal 43)) (EInline 2))) (EInline 2); EPlus (ERange 48 57)]).
Proof.
  do 4 eexists. intros dbg. apply read_back.
  - apply (generated_code_ok demo 300 as_is_orders); [apply demo_fits|apply as_is_ok|apply demo_compiled].
  - apply demo_compiled.
Qed.

(** ** C51: the shipped crates *)
(** The text of a shipped crate reads as these items; and whatever the
    generator writes for the grammar file it ships with reads the same. *)
Record ships (file parser_rs rules_rs : list N) (table : list expr) (fns imports enum : list name) (size : N) : Prop := Ships {
  sh_reads : read_crate parser_rs rules_rs = Some (Crate fns imports enum size table);
  sh_writes : exists p r, writes file p r;
  sh_same : forall p r, writes file p r -> read_crate p r = read_crate parser_rs rules_rs }.
Global Instance crate_eq_dec : EqDecision crate.
Proof. solve_decision. Defined.
Definition ships_b parser_rs rules_rs table fns imports enum size : bool :=
  bool_decide (read_crate parser_rs rules_rs = Some (Crate fns imports enum size table)).
Lemma ships_ok file parser_rs rules_rs table fns imports enum size : regenerates file table fns imports enum size ->
  ships_b parser_rs rules_rs table fns imports enum size = true -> ships file parser_rs rules_rs table fns imports enum size.
Proof.
  intros [Hfit Hg] H. unfold ships_b in H. apply bool_decide_eq_true in H. split; [done|..].
  - destruct (Hg _ as_is_ok) as (f0 & c & Hc & _). eexists _, _, f0, as_is_orders, (fun _ => []), c. split; [apply as_is_ok|]. by rewrite Hc.
  - intros p r (fuel & ho & dbg & c & Hho & Hc & -> & ->). rewrite H. destruct (Hg _ Hho) as (f0 & c' & Hc' & <- & <- & <- & <- & Ht).
    assert (c' = c) as ->.
    { specialize (Hc' (Nat.max f0 fuel) ltac:(lia)). assert (E : generate_parser (Nat.max f0 fuel) ho file = Ok (GCode c)).
      { rewrite <- Hc. apply generate_mono; [lia|]. by rewrite Hc. }
      congruence. }
    apply read_back; [by eapply generated_code_ok|done].
Qed.
Theorem C51_dsl : ships dsl_source dsl_parser_rs dsl_rules_rs dsl_table dsl_fns dsl_imports dsl_enum dsl_size.
Proof. apply ships_ok; [apply C49_dsl|vm_cast_no_check (eq_refl true)]. Qed.
Theorem C51_examples :
  ships ex1_source ex1_parser_rs ex1_rules_rs ex1_table ex1_fns ex1_imports ex1_enum ex1_size /\
  ships ex2_source ex2_parser_rs ex2_rules_rs ex2_table ex2_fns ex2_imports ex2_enum ex2_size /\
  ships ex3_source ex3_parser_rs ex3_rules_rs ex3_table ex3_fns ex3_imports ex3_enum ex3_size /\
  ships ex4_source ex4_parser_rs ex4_rules_rs ex4_table ex4_fns ex4_imports ex4_enum ex4_size /\
  ships ex5_source ex5_parser_rs ex5_rules_rs ex5_table ex5_fns ex5_imports ex5_enum ex5_size /\
  ships ex6_source ex6_parser_rs ex6_rules_rs ex6_table ex6_fns ex6_imports ex6_enum ex6_size /\
  ships ex7_source ex7_parser_rs ex7_rules_rs ex7_table ex7_fns ex7_imports ex7_enum ex7_size /\
  ships ex8_source ex8_parser_rs ex8_rules_rs ex8_table ex8_fns ex8_imports ex8_enum ex8_size /\
  ships ex9_source ex9_parser_rs ex9_rules_rs ex9_table ex9_fns ex9_imports ex9_enum ex9_size /\
  ships ex10_source ex10_parser_rs ex10_rules_rs ex10_table ex10_fns ex10_imports ex10_enum ex10_size /\
  ships ex11_source ex11_parser_rs ex11_rules_rs ex11_table ex11_fns ex11_imports ex11_enum ex11_size.
Proof.
  destruct C49_examples as (H1 & H2 & H3 & H4 & H5 & H6 & H7 & H8 & H9 & H10 & H11).
  split_and!; (apply ships_ok; [assumption|vm_cast_no_check (eq_refl true)]).
Qed.
