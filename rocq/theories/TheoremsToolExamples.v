(** C58: the grammar files of the repository, and a run of the tool on each. *)
From Verif Require Import SpecTool SpecUtf8 DslReader ProofReader GrammarChecks DslSources TheoremsGenerator TheoremsMeaning TheoremsBootstrap TheoremsRunner TheoremsTool ProofAccepted ProofGenTotal.
From stdpp Require Import relations gmap.
From Verif Require Import SpecTool SpecMeaning.
Local Open Scope N_scope.

(** ** Checking that a grammar file is accepted *)
Section checks.
  Context (rules : list drule).
  Definition off_cycle_b (m : name) : bool :=
    let l := reach rules lefts (length rules) (targets rules lefts m) in
    forallb (in_names l) (targets rules lefts m) && reach_closed rules lefts l && negb (in_names l m).
  Definition not_inline_lr_b (n : name) : bool :=
    let l := reach rules lefts (length rules) [n] in in_names l n && reach_closed rules lefts l && forallb off_cycle_b l.
  Lemma off_cycle_ok m : off_cycle_b m = true -> ~ on_left_cycle rules m.
  Proof.
    unfold off_cycle_b. rewrite !andb_true_iff, forallb_forall, negb_true_iff. intros [[H1 H2] H3] Hm.
    assert (Hstep : exists p, left_calls rules m p /\ rtc (edge rules lefts) p m).
    { unfold on_left_cycle in Hm. inversion Hm as [? ? Hs|? p ? Hs Ht]; subst; [exists m; split; [done|apply rtc_refl]|exists p; split; [done|]].
      apply tc_rtc in Ht. done. }
    destruct Hstep as (p & (b & Hb & Hp) & Hr). apply bool_decide_eq_false in H3. apply H3. eapply reach_ok; [exact H2| |exact Hr].
    specialize (H1 p). unfold in_names in H1. rewrite bool_decide_eq_true in H1. apply H1. unfold targets. rewrite Hb. by apply elem_of_list_In.
  Qed.
  Lemma not_inline_lr_ok n : not_inline_lr_b n = true -> ~ left_recursive rules n.
  Proof.
    unfold not_inline_lr_b. rewrite !andb_true_iff, forallb_forall. intros [[H1 H2] H3] (m & Hr & Hm). apply bool_decide_eq_true in H1.
    apply (off_cycle_ok m); [|done]. apply H3, elem_of_list_In. by eapply (reach_ok rules lefts).
  Qed.
  Definition accepted_b : bool :=
    refs_declared_b rules && hook_free_b rules && forallb (fun r => rust_literals (dr_body r)) rules &&
    bool_decide (NoDup (map (fun r => to_lowercase (dr_name r)) rules)) &&
    forallb (fun r => bool_decide (to_lowercase (dr_name r) ∉ reserved)) rules &&
    forallb (fun r => implb (dr_inline r) (not_inline_lr_b (dr_name r))) rules &&
    forallb (fun r => forallb (fun c => match c with [] => false | _ => true end) (dr_comments r)) rules.
  Lemma accepted_ok : accepted_b = true -> accepted rules.
  Proof.
    unfold accepted_b. rewrite !andb_true_iff, !forallb_forall, bool_decide_eq_true. intros [[[[[[H1 H2] H3] H4] H5] H6] H7]. split.
    - by apply refs_declared_ok.
    - by apply hook_free_ok.
    - intros r Hr. by apply H3, elem_of_list_In.
    - done.
    - intros r Hr. specialize (H5 r (proj1 (elem_of_list_In _ _) Hr)). by apply bool_decide_eq_true in H5.
    - intros n Hn (r & Hr & <- & Hi). specialize (H6 r (proj1 (elem_of_list_In _ _) Hr)). rewrite Hi in H6. by apply not_inline_lr_ok in H6.
    - intros r c Hr Hc ->. specialize (H7 r (proj1 (elem_of_list_In _ _) Hr)). rewrite forallb_forall in H7.
      apply elem_of_list_In in Hc. by specialize (H7 _ Hc).
  Qed.
End checks.

Definition file_b (file : list N) : bool :=
  spelled file && from_utf8 file && forallb (fun c => c <? 128) file && (1 + 30 * (N.of_nat (length file) + 1) <=? u32_modulus) && accepted_b (rules_of file).
Lemma file_ok file : file_b file = true -> fits file /\ from_utf8 file = true /\ file_or_empty file (rules_of file) /\ accepted (rules_of file).
Proof.
  unfold file_b. rewrite !andb_true_iff. intros [[[[H1 H2] H3] H4%N.leb_le] H5]. split; [split; [by apply ascii_utf8|done]|]. split; [done|].
  split; [left; by apply spelled_ok|by apply accepted_ok].
Qed.
Definition shipped_files : list (list N) :=
  [dsl_source; ex1_source; ex2_source; ex3_source; ex4_source; ex5_source; ex6_source; ex7_source; ex8_source; ex9_source; ex10_source].
Lemma shipped_checks : forallb file_b shipped_files = true.
Proof. vm_cast_no_check (eq_refl true). Qed.

(** Every grammar file of the repository except those of example 11 (it uses a
    hook) and the JSON parser (see C55) is accepted. *)
Theorem C58_shipped file : file ∈ shipped_files -> fits file /\ from_utf8 file = true /\ file_or_empty file (rules_of file) /\ accepted (rules_of file).
Proof.
  intros Hf. apply file_ok. pose proof shipped_checks as H. rewrite forallb_forall in H. apply H. by apply elem_of_list_In.
Qed.

(** ** A disk on which the tool has not been run yet *)
Section run.
  Context (file : list N).
  Definition home : list N := bytes "/home".
  Definition runtime_root : list N := bytes "/repo/parser".
  Definition runtime_src : list N := bytes "/repo/parser/src".
  Definition sample_text : list N := bytes "fn main() {}".
  Definition disk1 : fsys := Runner.FS {[home; runtime_root; runtime_src]}
    (<[(home, bytes "my.dsl") := File file]> (<[(runtime_src, bytes "lib.rs") := File (bytes "pub mod parser;")]>
      (<[(runtime_src, bytes "sample_main.txt") := File sample_text]> (∅ : gmap (list N * list N) inode)))).
  Notation target := (bytes "/home/out").
  Notation src := (package_src (bytes "/home/out") (bytes "my-parser")).
  Lemma disk1_no_dir k : fs_files disk1 !! k <> Some Subdir.
  Proof. unfold disk1. cbn [fs_files]. intros H. repeat (apply lookup_insert_Some in H as [[_ H]|[_ H]]; [done|]). by rewrite lookup_empty in H. Qed.
  Lemma disk1_workspace : workspace home (bytes "my.dsl") target (bytes "my-parser") runtime_root runtime_src disk1 file sample_text.
  Proof.
    split.
    - unfold disk1. cbn [fs_files]. by rewrite lookup_insert.
    - unfold disk1. cbn [fs_dirs]. set_solver.
    - unfold disk1. cbn [fs_dirs]. set_solver.
    - intros n. apply disk1_no_dir.
    - intros n. apply disk1_no_dir.
    - unfold disk1. cbn [fs_files]. rewrite lookup_insert_ne, lookup_insert_ne, lookup_insert; [done|..]; intros [= E].
    - by vm_compute.
  Qed.
  Lemma completes_dirs p s s' o d : completes p s s' o -> d ∈ fs_dirs s -> d ∈ fs_dirs s'.
  Proof. intros H. induction H as [|c k s s1 s2 r o Hd _ IH]; [done|]. intros Hs. apply IH. eapply dirs_grow; [|exact Hs]. by eapply pa_done. Qed.
  (** The tool can be run there, and cargo makes the package. *)
  Lemma disk1_run gen : is_Some (gen file) -> from_utf8 file = true ->
    exists s' o, completes (tool_main gen home (bytes "my.dsl") target (bytes "my-parser") runtime_root runtime_src false) disk1 s' o /\ src ∈ fs_dirs s'.
  Proof.
    intros [[rs ps] Hg] Hu. set (s1 := add_dir disk1 target). set (s2 := add_dir s1 (package target (bytes "my-parser"))). set (s3 := add_dir s2 src).
    destruct (C40_runs (copy_dir_contents_to_dir src runtime_src (write_generated src runtime_src rs ps (sample_main_header (bytes "my-parser")))) s3) as (s' & o & H).
    exists s', o. split; [|eapply completes_dirs; [exact H|unfold s3; simpl; set_solver]].
    assert (Hf : fs_files disk1 !! (home, bytes "my.dsl") = Some (File file)) by apply disk1_workspace.
    unfold tool_main. econstructor; [constructor|]. rewrite bool_decide_eq_true_2 by (by eexists).
    econstructor; [constructor|]. rewrite bool_decide_eq_false_2 by (unfold disk1; cbn [fs_dirs]; rewrite !elem_of_union, !elem_of_singleton; by intros [[?|?]|?]).
    econstructor; [apply do_mkdir; unfold disk1; cbn [fs_dirs]; rewrite !elem_of_union, !elem_of_singleton; by intros [[?|?]|?]|]. fold s1.
    unfold verify_and_generate. econstructor; [constructor|]. rewrite bool_decide_eq_true_2 by (unfold s1, disk1; cbn [fs_dirs add_dir]; set_solver).
    unfold generate. econstructor; [apply do_read; exact Hf|]. cbv beta iota. rewrite Hu, Hg. cbn [run_tool negb]. unfold generate_data. cbv zeta.
    assert (Hm : does (CMkDir (package target (bytes "my-parser"))) s1 s2 RUnit).
    { apply do_mkdir. unfold s1, disk1. cbn [fs_dirs add_dir]. rewrite !elem_of_union, !elem_of_singleton. by intros [?|[[?|?]|?]]. }
    econstructor; [exact Hm|]. econstructor; [|exact H]. apply do_cargo; [done|done|]. intros d Hd. unfold s3. simpl. set_solver.
  Qed.
End run.

(** So on that disk, for every grammar file of the repository, in every run of
    the generator: the tool finishes and the package parses what the file
    says. *)
Theorem C58_shipped_installed file ho dbg : file ∈ shipped_files -> orders_ok ho ->
  exists gen s' cr, generator_run ho dbg file (gen file) /\
    completes (tool_main gen home (bytes "my.dsl") (bytes "/home/out") (bytes "my-parser") runtime_root runtime_src false) (disk1 file) s' Finished /\
    holds_crate s' (bytes "/home/out/my-parser/src") cr /\ parses (rules_of file) cr /\
    fs_files s' !! (bytes "/home/out/my-parser/src", bytes "main.rs") = Some (File (bytes "use my_parser::*;" ++ [10] ++ bytes "fn main() {}")).
Proof.
  intros (Hfit & Hu & Hf & Hac)%C58_shipped Hho. destruct (C58_accepted file _ ho Hfit Hf Hac Hho) as (f0 & c & table & H0 & Hcr).
  set (gen := fun f : list N => Some (rules_enum_file_content c, parser_file_content dbg c)). assert (Hg : generator_run ho dbg file (gen file)).
  { exists f0, c. split; [|done]. by apply H0. }
  destruct (disk1_run file gen) as (s' & o & H & Hd); [by eexists|done|].
  destruct (C58_installs home (bytes "my.dsl") (bytes "/home/out") (bytes "my-parser") runtime_root runtime_src false) with (gen := gen) (ho := ho) (dbg := dbg) (file := file) (rules := rules_of file) (s := disk1 file) (s' := s') (o := o) (main := sample_text)
    as (-> & (cr & Hc & Hp) & (Hm & _)); try done; [apply disk1_workspace|]. exists gen, s', cr. done.
Qed.
