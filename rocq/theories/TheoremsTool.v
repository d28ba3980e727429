(** Theorems C58: the tool as a whole, from the grammar file on disk to what
    the installed parser answers. *)
From Verif Require Import SpecTool SpecUtf8 SpecProgram SpecCfg SpecSession SpecLR SpecTerm ProofLeft ProofMeaning ProofAccepted ProofGenTotal.
From Verif Require Import TheoremsPrint ProofSafe ProofBasics SpecPeg TheoremsKernel TheoremsPackrat SpecSafe ProofTree2 Checks TheoremsGenerator TheoremsMeaning TheoremsTermination TheoremsText TheoremsRunner.
From stdpp Require Import relations gmap.
From Verif Require Import SpecTool SpecMeaning.
Local Open Scope N_scope.

(** ** Accepted grammar files *)
Lemma from_utf8_utf8 l : from_utf8 l = true -> utf8 l.
Proof.
  remember (length l) as n eqn:En. assert (Hn : (length l <= n)%nat) by lia. clear En. revert l Hn.
  assert (Hc : forall c, cont c = true -> continuation c) by (intros c [H1%N.leb_le H2%N.ltb_lt]%andb_true_iff; split; lia).
  induction n as [|n IH]; intros l Hn H; [destruct l; [constructor|simpl in Hn; lia]|]. destruct l as [|a l]; [constructor|].
  cbn [from_utf8] in H. simpl in Hn. destruct (N.ltb_spec a 128); [constructor; [done|apply IH; [lia|done]]|].
  destruct l as [|b l]; [done|]. simpl in Hn. destruct ((194 <=? a) && (a <? 224)) eqn:E2.
  { apply andb_true_iff in E2 as [E1%N.leb_le E2%N.ltb_lt]. apply andb_true_iff in H as [Hb H]. constructor; [lia|auto|apply IH; [lia|done]]. }
  destruct l as [|c l]; [done|]. simpl in Hn. destruct ((224 <=? a) && (a <? 240)) eqn:E3.
  { apply andb_true_iff in E3 as [E1%N.leb_le E3%N.ltb_lt]. rewrite !andb_true_iff in H. destruct H as ((((Hb & Hcc) & _) & _) & H). constructor; [lia|auto|auto|apply IH; [lia|done]]. }
  destruct l as [|d l]; [done|]. simpl in Hn. rewrite !andb_true_iff in H. destruct H as (((((((H1%N.leb_le & H2%N.ltb_lt) & Hb) & Hcc) & Hd) & _) & _) & H).
  constructor; [lia|auto..|apply IH; [lia|done]].
Qed.

(** What may start a rule reaches the detector's leftmost references. *)
Lemma lefts_start rules e m : m ∈ lefts e -> starts_with rules e m.
Proof.
  induction e as [c|l|ds|ds|a b|n|e IH|n e IH|e IH|e IH|e IH|e IH|e IH|es IH|es IH] using dexp_ind'; simpl; intros Hm; try (by apply elem_of_nil in Hm); try (constructor; by apply IH).
  - apply elem_of_list_singleton in Hm as ->. constructor.
  - destruct es as [|e es]; simpl in Hm; [by apply elem_of_nil in Hm|]. apply list.Forall_cons in IH as [IH _].
    apply (sw_seq _ [] e es); [constructor|]. by apply IH.
  - apply elem_of_list_In, in_concat in Hm as (l & Hl & Hm).
    assert (Hl' : In l (map lefts es)).
    { clear -Hl. revert Hl. generalize (map lefts es). intros L. induction L as [|x L IH]; [done|].
      rewrite removelast_cons. destruct L; [done|]. intros [->|H]; [by left|right; auto]. }
    apply in_map_iff in Hl' as (e & <- & He). apply (sw_alt _ es e); [by apply elem_of_list_In|]. rewrite List.Forall_forall in IH. apply IH; [done|by apply elem_of_list_In].
Qed.
Lemma acyclic_not_lr rules : (forall n, ~ tc (first_calls rules) n n) -> forall n, ~ left_recursive rules n.
Proof.
  intros H n (m & _ & Hm). apply (H m). revert Hm. unfold on_left_cycle. generalize m at 2 4. intros k Hm.
  assert (Hs : forall a b, left_calls rules a b -> first_calls rules a b) by (intros a b (e & He & Hb); exists e; split; [done|by apply lefts_start]).
  induction Hm as [a b Hab|a b d Hab _ IH]; [by apply tc_once, Hs|eapply tc_l; [by apply Hs|done]].
Qed.

(** Whatever the hash orders, an accepted grammar file is compiled, and rustc
    accepts the result. *)
Theorem C58_accepted file rules ho : fits file -> file_or_empty file rules -> accepted rules -> orders_ok ho ->
  exists fuel0 c table, (forall fuel, (fuel0 <= fuel)%nat -> generate_parser fuel ho file = Ok (GCode c)) /\ crate_of file rules c table.
Proof.
  intros Hfit Hf Hac Hho. destruct (C46_answers file Hfit ho Hho) as (f0 & o & H0 & [(q & rules' & Hn & _)|(rules' & Hf' & H)]); [by apply Hn in Hf|].
  rewrite (file_or_empty_unique _ _ _ Hf' Hf) in H. destruct H as [(_ & _ & c & -> & Hg)|(Hn & _)].
  2:{ destruct Hn. split; [by apply accepted_lefts|by apply accepted_emits]. }
  destruct (accepted_table rules Hac file c Hf Hg) as [table Ht]. exists f0, c, table. split; [done|]. split; try done. exists f0, ho. split; [done|]. by apply H0.
Qed.

(** The tree of a session can be cleaned and printed. *)
Lemma prints_of (pr : program unit) (fn : N -> N) (s : list N) (u0 : unit) (st : pstate unit) : N.of_nat (length s) < u32_modulus -> program_wf pr fn -> no_hooks pr ->
  session pr (expr_wf pr fn) s u0 st -> exists fuel0, forall fuel, (fuel0 <= fuel)%nat ->
    (exists t lines, clear_false fuel (pr_grammar pr) (cx_pub (st_ctx st)) = Ok t /\ print fuel t 0 (Some true) = Ok lines) \/
    clear_false fuel (pr_grammar pr) (cx_pub (st_ctx st)) = Panic PKeyOverflow.
Proof.
  intros Hs Hwf Hnh HS.
  assert (Hhk : hooks_behave (N.of_nat (length s)) (memo_claim pr s fn) (eq PKeyOverflow) pr (source_new s)) by (by apply no_hooks_behave).
  pose proof (session_usable pr fn s u0 Hs Hwf (eq PKeyOverflow) eq_refl Hhk st HS) as HU.
  destruct (C16_clear_false_terminates pr fn s u0 Hs Hwf (eq PKeyOverflow) eq_refl Hhk st (pr_grammar pr) HS) as [f1 H1].
  destruct (C16_finite_trees pr fn s u0 Hs Hwf (eq PKeyOverflow) eq_refl Hhk st 0 HS) as [[l i j b F] Ht]; [by apply (us_open _ _ _ _ HU)|].
  assert (Hpr : forall p' t, denotes p' t -> forall fuel, (theight t <= fuel)%nat -> exists lines, print fuel p' 0 (Some true) = Ok lines).
  { intros p' t Hd fuel Hf. by eapply print_total. }
  destruct b.
  - exists (Nat.max f1 (theight (TNode (pr_grammar pr) 0 0 true (prune_forest F)))). intros fuel Hf. destruct (H1 fuel ltac:(lia)) as [[p' Hp]|Hp]; [left|by right].
    pose proof (C17_any_answer _ _ _ _ _ _ _ _ Ht Hp) as Hd. destruct (Hpr _ _ Hd fuel ltac:(lia)) as [ls Hl]. eauto.
  - exists (Nat.max f1 1). intros fuel Hf. destruct (H1 fuel ltac:(lia)) as [[p' Hp]|Hp]; [left|by right].
    assert (Ep : p' = publisher_new (pr_grammar pr)).
    { inversion Ht as [k n F' HnO Hn HF Hk [E1 E2 E3 Hb E5]]; subst. unfold clear_false, get_node in Hp. rewrite Hn in Hp. cbn [rbind] in Hp. rewrite Hb in Hp. congruence. }
    subst p'. destruct (Hpr (publisher_new (pr_grammar pr)) (TNode (pr_grammar pr) 0 0 true [])) with (fuel := fuel) as [ls Hl].
    + refine (unf _ _ 0 (Node 0 (pr_grammar pr) 0 0 true []) [] _ _ _); [by intros []|done|constructor].
    + change (theight (TNode (pr_grammar pr) 0 0 true [])) with 1%nat. lia.
    + eauto.
Qed.

Section crate.
  Context (file : list N) (rules : list drule) (c : gen_code) (table : list expr).
  Context (Hcr : crate_of file rules c table) (Hac : accepted rules).
  Notation cr := (Crate (map (fun r => to_lowercase (dr_name r)) rules) (concat (map (fun r => hooks_of (dr_body r)) rules)) (gc_enum c) (N.of_nat (length (gc_enum c))) table).
  Lemma starts_entry r entry : r ∈ rules -> starts_rule cr (dr_name r) entry -> entry_for rules c (dr_name r) entry.
  Proof using Hcr Hac.
    intros [k Hk]%elem_of_list_lookup (f & Hf & He). simpl in Hf, He. apply index_of_lookup in Hf.
    assert (E : N.to_nat f = k).
    { eapply (NoDup_lookup _ _ _ _ (ac_names _ Hac)); [exact Hf|]. by rewrite list_lookup_fmap, Hk. }
    assert (Ef : f = N.of_nat k) by lia. clear E. subst f.
    exists k, r. split; [done|]. split; [done|]. destruct He as [->|(v & Hv & ->)]; [by left|]. right. apply index_of_lookup in Hv. exists (N.to_nat v). split; [done|]. f_equal. lia.
  Qed.
  Lemma enum_length : (length (gc_enum c) <= length rules)%nat.
  Proof using Hcr.
    destruct (crate_parts _ _ _ _ Hcr) as (inv & inl & Hres & (ns & Hs & Hns & ->) & _). rewrite map_length, <- (map_length dr_name rules).
    apply submseteq_length, NoDup_submseteq.
    - assert (Hirr : forall a, ~ lex_lt a a) by (intros a Ha; induction a; inversion Ha; subst; first [lia|auto]).
      clear -Hs Hirr. induction Hs as [|a l _ IH HF]; constructor; [|done]. intros Ha. rewrite list.Forall_forall in HF. by apply (Hirr a), HF.
    - intros n [(r & Hr & <-) _]%Hns. apply elem_of_list_In, in_map, elem_of_list_In. done.
  Qed.
  Lemma crate_run r entry : r ∈ rules -> starts_rule cr (dr_name r) entry -> exists fn, program_wf (crate_program cr) fn /\ expr_wf (crate_program cr) fn entry.
  Proof using Hcr Hac.
    intros Hr Hst. pose proof (accepted_regular _ Hac) as Hreg. pose proof (starts_entry r entry Hr Hst) as He.
    destruct (crate_parts _ _ _ _ Hcr) as (inv & inl & Hres & Hen & Hnd & Htab). cbv zeta in Hnd, Htab.
    set (gr := default 0 (index_of (bytes "Grammar") (rc_variants cr))).
    pose proof (crate_wf rules inv inl _ _ Hnd (re_declared _ Hreg) (re_hooks _ Hreg) (re_literals _ Hreg) table gr Htab) as Hwf.
    destruct (entry_parts _ _ _ _ Hcr Hreg gr inv inl Hnd Htab _ entry He) as (l & k & r' & e & Ep & Hk & En & Ht & Hst' & Hb & Hoke & _ & Hlr).
    eexists. split; [exact Hwf|by apply expr_ok_wf].
  Qed.
  Lemma crate_parses : parses rules cr.
  Proof using Hcr Hac.
    pose proof (accepted_regular _ Hac) as Hreg.
    assert (Hfn : forall r, r ∈ rules -> exists f, index_of (to_lowercase (dr_name r)) (rc_fns cr) = Some f).
    { intros r Hr. apply index_of_in. simpl. apply elem_of_list_In, in_map_iff. exists r. split; [done|by apply elem_of_list_In]. }
    split.
    - done.
    - intros r Hr. destruct (Hfn r Hr) as [f Hf]. exists (EInline f), f. split; [done|by left].
    - intros r Hr Hi. destruct (Hfn r Hr) as [f Hf]. destruct (crate_parts _ _ _ _ Hcr) as (inv & inl & Hres & (ns & Hs & Hns & He) & Hnd & _).
      destruct (index_of_in (first_upper (dr_name r)) (gc_enum c)) as [v Hv].
      { rewrite He. apply elem_of_list_In, in_map, elem_of_list_In, Hns. split; [by exists r|]. intros (r' & Hr' & En & Hi').
        apply elem_of_list_lookup in Hr as [k Hk]. apply elem_of_list_lookup in Hr' as [k' Hk'].
        assert (k = k') as ->; [|congruence]. eapply (NoDup_lookup _ _ _ _ Hnd); [rewrite list_lookup_fmap, Hk; done|rewrite list_lookup_fmap, Hk'; simpl; by rewrite En]. }
      exists v, f, f. split; [done|]. right. by exists v.
    - intros r entry s fuel q st Hr Hst Hs Hrun. eapply (C47_derivable file rules c table Hcr Hreg _ s Hs); [by apply starts_entry|exact Hrun].
    - intros r entry s fuel b q st Hr Hst Hs Hrun. destruct (crate_run _ _ Hr Hst) as (fn & Hwf & He).
      eapply (C01_positions _ fn s tt) in Hrun as [H1 H2]; [|done|done|apply table_no_hooks|apply session_fresh|done|lia].
      split; [done|]. destruct b; [by apply H2|rewrite H1 by done; lia].
    - intros r entry s fuel b q st Hr Hst Hs Hrun. destruct (crate_run _ _ Hr Hst) as (fn & Hwf & He).
      refine (prints_of (crate_program cr) fn s tt st Hs Hwf (table_no_hooks _ _) _). eapply session_call; [apply session_fresh|exact He| |exact Hrun]. lia.
    - intros r entry s fuel b q st t lines Hr Hst Hs Hrun Hc Hpr. destruct (crate_run _ _ Hr Hst) as (fn & Hwf & He).
      assert (Hhk : hooks_behave (N.of_nat (length s)) (memo_claim (crate_program cr) s fn) (eq PKeyOverflow) (crate_program cr) (source_new s)) by (apply no_hooks_behave, table_no_hooks).
      destruct (returned_lines (crate_program cr) fn s tt Hs Hwf (eq PKeyOverflow) eq_refl Hhk st fuel t fuel lines) as (F & Hd & Hl); [|exact Hc|exact Hpr|].
      { eapply session_call; [apply session_fresh|exact He| |exact Hrun]. lia. }
      exists F. split; [exact Hl|]. intros Hacy v u Hv Hu.
      destruct (C47_nodes file rules c table Hcr Hreg (pr_grammar (crate_program cr)) s Hs (acyclic_not_lr _ Hacy) (dr_name r) entry fuel b q t (pr_grammar (crate_program cr)) 0 0 true F v u) as (m & H1 & (r' & Hr' & <-) & H3 & H4 & H5 & H6).
      + by apply starts_entry.
      + unfold parse_with. change (table_program table (pr_grammar (crate_program cr))) with (crate_program cr). rewrite Hrun. cbn [rbind]. by rewrite Hc.
      + exact Hd.
      + done.
      + done.
      + exists r'. split; [done|]. split; [|done]. destruct (dr_inline r') eqn:Ei; [|done]. destruct H3. by exists r'.
    - intros Hloops Hdet r entry s Hr Hst Hs. eapply (C48_answers file rules c table Hcr Hreg _ Hloops s Hs); [done|by apply starts_entry].
    - intros Hacy r entry s fuel b q st Hr Hst Hs Hrun. eapply (C47_sound file rules c table Hcr Hreg _ s Hs); [by apply acyclic_not_lr|by apply starts_entry|exact Hrun].
    - intros Hloops Hacy r entry s Hr Hst Hb. pose proof enum_length as Hel.
      assert (Hs : N.of_nat (length s) < u32_modulus).
      { destruct rules as [|r0 rs]; [by apply elem_of_nil in Hr|]. simpl length in Hb. nia. }
      eapply (C48_total file rules c table Hcr Hreg _ Hloops s Hs); [done|by apply acyclic_not_lr| |by apply starts_entry].
      etrans; [|exact Hb]. apply N.add_le_mono_l, N.mul_le_mono_r. lia.
  Qed.
End crate.

(** ** On disk *)
Lemma join_longer d n : (length d < length (join_path d n))%nat.
Proof. unfold join_path. rewrite !app_length. simpl. lia. Qed.

(** When cargo makes the src directory during the run, it might as well have
    been there before. *)
Lemma first_run root src core rules_rs parser_rs header with_cargo s s' o : src <> root ->
  completes (generate_data root src core rules_rs parser_rs header with_cargo) s s' o -> src ∈ fs_dirs s' ->
  completes (generate_data root src core rules_rs parser_rs header with_cargo) (add_dir s src) s' o.
Proof.
  intros Hne H Hd. assert (Hrest : forall sb, completes (copy_dir_contents_to_dir src core (write_generated src core rules_rs parser_rs header)) sb s' o -> src ∈ fs_dirs sb).
  { intros sb Hb. assert (Hdirs : forall p s s' o, completes p s s' o -> (forall I : fsys -> Prop, (forall c s s', I s -> (forall d, c <> CMkDir d) -> (forall r s, c <> CCargo r s) -> partially c s s' -> I s') -> keeps I p) -> fs_dirs s' = fs_dirs s).
    { intros p s1 s2 o1 Hc Hk. apply completes_visits in Hc. eapply (keeps_visits (fun x => fs_dirs x = fs_dirs s1)); [|exact Hc|done]. apply Hk.
      intros c x x' Hx Hm Hca Hp. rewrite <- Hx. destruct Hp as [|c x x' r Hdo| |]; try done. destruct Hdo; try done; [by destruct (Hm d)|by destruct (Hca root0 src0)]. }
    rewrite <- (Hdirs _ _ _ _ Hb); [done|]. clear. intros I HI.
    Local Ltac stp := let Hi := fresh in let Hp := fresh in intros ? ? Hi Hp; match goal with HI : forall c s s', _ -> _ |- _ => eapply HI; [exact Hi| | |exact Hp]; done end.
    assert (Hg : keeps I (write_generated src core rules_rs parser_rs header)).
    { constructor; [by stp|]. intros r1 _. constructor; [by stp|]. intros r2 _. constructor; [by stp|].
      intros [| | | |c] _; try constructor. destruct (from_utf8 c); [|constructor]. constructor; [by stp|]. intros r3 _.
      constructor; [by stp|]. intros [] _; constructor. }
    constructor; [by stp|]. intros [| |[]| |] _; try constructor; [by stp|].
    intros [| | |l|] _; try done. induction l as [|n l IH]; [done|]. cbn [copy_entries].
    assert (Hc : keeps I (Call (CCreate src n) (fun _ => Call (CCopy core n src n) (fun r => match r with RErr => write_generated src core rules_rs parser_rs header | _ => copy_entries src core l (write_generated src core rules_rs parser_rs header) end)))).
    { constructor; [by stp|]. intros _ _. constructor; [by stp|]. by intros [] _. }
    destruct (is_handwritten n); [|done]. constructor; [by stp|]. by intros [| |[]| |] _. }
  unfold generate_data in *. inversion H as [|c1 k1 ? sa ? r1 ? D1 H1]; subst; clear H.
  assert (Hmk : exists r, does (CMkDir root) (add_dir s src) (add_dir sa src) r /\ r1 = RUnit /\ r = RUnit).
  { inversion D1; subst; exists RUnit; split_and!; try done.
    - replace (add_dir (add_dir s root) src) with (add_dir (add_dir s src) root); [constructor; simpl; set_solver|]. unfold add_dir. simpl. f_equal. set_solver.
    - constructor. simpl. set_solver. }
  destruct Hmk as (r & Hmk & -> & ->). econstructor; [exact Hmk|]. cbv zeta in *. destruct with_cargo.
  - inversion H1 as [|c2 k2 ? sb ? r2 ? D2 H2]; subst; clear H1. econstructor; [|exact H2]. inversion D2 as [| |? ? ? ? F1 F2 F3| | | | | | | | | | | | |]; subst.
    constructor; [done|done|]. simpl. intros d [->%elem_of_singleton|Hx]%elem_of_union; [by apply Hrest|by apply F3].
  - assert (E : add_dir sa src = sa); [|by rewrite E]. apply Hrest in H1. unfold add_dir. destruct sa as [ds fs]. simpl in *. f_equal. set_solver.
Qed.

Section disk.
  Context (sd sn target name core_root core : list N) (offline : bool).
  Notation root := (package target name).
  Notation src := (package_src target name).
  Notation sample := (bytes "sample_main.txt").
  Notation header := (sample_main_header name).
  (** The runtime is not the target. *)
  Context (Hcs : core <> src) (Hcroot : core <> root).
  Lemma src_root : src <> root.
  Proof using. intros H. apply (f_equal length) in H. pose proof (join_longer root (bytes "src")). unfold package_src in H. lia. Qed.

  (** The situation the tool is made for: the grammar file exists, ./parser is
      there, runtime and target (if it exists) hold regular files. *)
  Record workspace (s : fsys) (file main : list N) : Prop := {
    ws_source : fs_files s !! (sd, sn) = Some (File file);
    ws_core_root : core_root ∈ fs_dirs s;
    ws_core : core ∈ fs_dirs s;
    ws_files : forall n, fs_files s !! (core, n) <> Some Subdir;
    ws_free : forall n, fs_files s !! (src, n) <> Some Subdir;
    ws_sample : fs_files s !! (core, sample) = Some (File main);
    ws_utf8 : from_utf8 main = true }.

  Lemma main_completes gen s s' o file : fs_files s !! (sd, sn) = Some (File file) -> core_root ∈ fs_dirs s -> from_utf8 file = true ->
    completes (tool_main gen sd sn target name core_root core offline) s s' o ->
    exists s0, (s0 = s \/ s0 = add_dir s target) /\ completes (run_tool root src core header (negb offline) (gen file)) s0 s' o.
  Proof using.
    clear Hcs Hcroot. intros Hf Hcr Hu H. unfold tool_main in H. inversion H as [|? ? ? s1 ? r1 ? D1 H1]; subst; clear H. inversion D1; subst. rewrite bool_decide_eq_true_2 in H1 by (by eexists).
    assert (Hv : forall sx, fs_files sx = fs_files s1 -> core_root ∈ fs_dirs sx -> completes (verify_and_generate gen sd sn target name core_root core offline) sx s' o ->
      completes (run_tool root src core header (negb offline) (gen file)) sx s' o).
    { intros sx Ex Hx H. unfold verify_and_generate in H. inversion H as [|? ? ? s2 ? r2 ? D2 H2]; subst; clear H. inversion D2; subst. rewrite bool_decide_eq_true_2 in H2 by done.
      unfold generate in H2. inversion H2 as [|? ? ? s3 ? r3 ? D3 H3]; subst; clear H2. rewrite <- Ex in Hf.
      inversion D3 as [| | | | | | | | | | | |? ? ? ? Hx3|? ? ? Hx3| |]; subst; [|by destruct (Hx3 file)]. rewrite Hf in Hx3. injection Hx3 as <-. by rewrite Hu in H3. }
    inversion H1 as [|? ? ? s2 ? r2 ? D2 H2]; subst; clear H1. inversion D2; subst. case_bool_decide.
    - exists s2. split; [by left|]. by apply Hv.
    - inversion H2 as [|? ? ? s3 ? r3 ? D3 H3]; subst; clear H2. inversion D3; subst; [|done]. exists (add_dir s2 target). split; [by right|]. apply Hv; [done|simpl; set_solver|done].
  Qed.
  Lemma main_visits gen s s' : visits (tool_main gen sd sn target name core_root core offline) s s' ->
    s' = s \/ s' = add_dir s target \/ exists s0 file, (s0 = s \/ s0 = add_dir s target) /\ visits (run_tool root src core header (negb offline) (gen file)) s0 s'.
  Proof using.
    clear Hcs Hcroot. assert (Hid : forall c s s', match c with CIsDir _ | CExists _ _ | CRead _ _ => True | _ => False end -> partially c s s' -> s' = s).
    { intros c x x' Hc Hp. destruct Hp as [|c x x' r Hd| |]; try done. by destruct Hd. }
    assert (Hmk : forall c s s', c = CMkDir target -> partially c s s' -> s' = s \/ s' = add_dir s target).
    { intros c x x' Hc Hp. destruct Hp as [|c x x' r Hd| |]; try done; [by left|]. destruct Hd; try done; injection Hc as ->; [by right|by left]. }
    assert (Hv : forall s, visits (verify_and_generate gen sd sn target name core_root core offline) s s' -> s' = s \/ exists file, visits (run_tool root src core header (negb offline) (gen file)) s s').
    { clear s. intros s H. unfold verify_and_generate in H. inversion H as [|? ? ? ? Hp|? ? ? s1 ? r1 D1 H1|? ? ? s1 ? r1 Hp F1 H1]; subst; clear H; [by left|left; by eapply Hid; [|exact Hp]| |].
      - inversion D1; subst. case_bool_decide; [|inversion H1; subst; by left]. unfold generate in H1.
        inversion H1 as [|? ? ? ? Hp|? ? ? s2 ? r2 D2 H2|? ? ? s2 ? r2 Hp F2 H2]; subst; clear H1; [by left|left; by eapply Hid; [|exact Hp]| |].
        + inversion D2; subst; [|inversion H2; subst; by left]. destruct (from_utf8 c); [right; eauto|inversion H2; subst; by left].
        + apply Hid in Hp as ->; [|done]. inversion F2; subst. inversion H2; subst. by left.
      - apply Hid in Hp as ->; [|done]. inversion F1; subst. inversion H1; subst. by left. }
    intros H. unfold tool_main in H. inversion H as [|? ? ? ? Hp|? ? ? s1 ? r1 D1 H1|? ? ? s1 ? r1 Hp F1 H1]; subst; clear H; [by left|left; by eapply Hid; [|exact Hp]| |].
    2:{ apply Hid in Hp as ->; [|done]. inversion F1; subst. inversion H1; subst. by left. }
    inversion D1; subst. case_bool_decide; [|inversion H1; subst; by left].
    assert (Hd : forall x y, (y = s1 \/ y = add_dir s1 target) -> visits (match (x : reply) with RErr => Stop Panicked | _ => verify_and_generate gen sd sn target name core_root core offline end) y s' ->
      s' = s1 \/ s' = add_dir s1 target \/ exists s0 file, (s0 = s1 \/ s0 = add_dir s1 target) /\ visits (run_tool root src core header (negb offline) (gen file)) s0 s').
    { intros x y Hy H2. assert (Hy' : s' = y \/ exists file, visits (run_tool root src core header (negb offline) (gen file)) y s').
      { destruct x; try (by apply Hv in H2). inversion H2; subst. by left. }
      destruct Hy' as [->|[f Hf]]; [tauto|]. right. right. eauto. }
    assert (Hmkdir : forall y, y = s1 -> visits (Call (CMkDir target) (fun r => match r with RErr => Stop Panicked | _ => verify_and_generate gen sd sn target name core_root core offline end)) y s' ->
      s' = s1 \/ s' = add_dir s1 target \/ exists s0 file, (s0 = s1 \/ s0 = add_dir s1 target) /\ visits (run_tool root src core header (negb offline) (gen file)) s0 s').
    { intros y -> H2. inversion H2 as [|? ? ? ? Hp|? ? ? s3 ? r2 D2 H3|? ? ? s3 ? r2 Hp F2 H3]; subst; [by left|apply Hmk in Hp; [tauto|done]| |].
      - eapply Hd; [|exact H3]. eapply Hmk; [done|]. by eapply pa_done.
      - eapply Hd; [|exact H3]. by eapply Hmk. }
    inversion H1 as [|? ? ? ? Hp|? ? ? s2 ? r2 D2 H2|? ? ? s2 ? r2 Hp F2 H2]; subst; clear H1; [by left|left; by eapply Hid; [|exact Hp]| |].
    - inversion D2; subst. case_bool_decide; [|by apply (Hmkdir s2)]. destruct (Hv _ H2) as [->|[f Hf]]; [by left|]. right. right. exists s2, f. split; [by left|done].
    - apply Hid in Hp as ->; [|done]. apply (Hmkdir s1 eq_refl). inversion F2; subst; done.
  Qed.

  (** *** A complete run *)
  Lemma workspace_add s file main d : workspace s file main -> workspace (add_dir s d) file main.
  Proof using. clear Hcs Hcroot. intros [H1 H2 H3 H4 H5 H6 H7]. split; simpl; try done; set_solver. Qed.
  Lemma ready_of s file main : workspace s file main -> ready src core (add_dir s src).
  Proof using. clear Hcs Hcroot. intros [H1 H2 H3 H4 H5 H6 H7]. split; simpl; try done; set_solver. Qed.

  Section run.
    Context (ho : hash_orders) (dbg : list N -> list N) (gen : list N -> option (list N * list N)) (Hho : orders_ok ho).
    Context (file : list N) (rules : list drule) (Hgen : generator_run ho dbg file (gen file)) (Hfit : fits file) (Hu : from_utf8 file = true) (Hf : file_or_empty file rules).
    (** What the generator gives for an accepted file. *)
    Lemma gen_accepted : accepted rules -> exists c table, gen file = Some (rules_enum_file_content c, parser_file_content dbg c) /\ crate_of file rules c table.
    Proof using Hho Hgen Hfit Hf.
      intros Hac. destruct (C58_accepted file rules ho Hfit Hf Hac Hho) as (f0 & c & table & H0 & Hcr). unfold generator_run in Hgen.
      destruct (gen file) as [[r p]|].
      - destruct Hgen as (fuel & c' & Hc' & -> & ->). assert (c' = c) as ->; [|eauto].
        pose proof (H0 (Nat.max f0 fuel) ltac:(lia)) as E. rewrite (generate_mono fuel (Nat.max f0 fuel)) in E; [congruence|lia|by rewrite Hc'].
      - destruct (Hgen f0 c). by apply H0.
    Qed.
    (** Running the tool on an accepted grammar file installs a package whose
        parser does what the file says, in the runtime of the repository. *)
    Theorem C58_installs s s' o main : accepted rules -> workspace s file main ->
      completes (tool_main gen sd sn target name core_root core offline) s s' o -> src ∈ fs_dirs s' ->
      o = Finished /\ (exists cr, holds_crate s' src cr /\ parses rules cr) /\ holds_runtime s s' core src name main.
    Proof using Hcs Hcroot Hho Hgen Hfit Hu Hf.
      intros Hac W H Hd. destruct (gen_accepted Hac) as (c & table & Eg & Hcr).
      destruct (main_completes gen s s' o file) as (s0 & Hs0 & H0); [apply W|apply W|done|done|]. rewrite Eg in H0. cbn [run_tool] in H0.
      assert (W0 : workspace s0 file main) by (destruct Hs0 as [->| ->]; [done|by apply workspace_add]).
      assert (E0 : fs_files s0 = fs_files s) by (by destruct Hs0 as [->| ->]).
      apply first_run in H0; [|apply src_root|done].
      destruct (C40_complete_run root src core _ _ header (negb offline) src_root Hcroot Hcs _ _ _ main (ready_of _ _ _ W0) (ws_sample _ _ _ W0) (ws_utf8 _ _ _ W0) H0) as (-> & Hreg & _).
      split; [done|]. split.
      - destruct (C50_crate file rules c table dbg Hcr) as (fns & hooks & Hrc & -> & ->).
        eexists. split; [|by eapply crate_parses]. exists (parser_file_content dbg c), (rules_enum_file_content c). split_and!; [| |exact Hrc]; by rewrite Hreg.
      - assert (Hhw : forall n, is_handwritten n = true <-> n ∈ [bytes "hooked_calls.rs"; bytes "user_state.rs"]).
        { intros n. unfold is_handwritten. rewrite orb_true_iff, !bool_decide_eq_true, !elem_of_cons, elem_of_nil. tauto. }
        split; [by rewrite Hreg|]. split.
        + intros n i Hn Hi Hh. unfold generated_files in Hn. simpl in Hn. rewrite !not_elem_of_cons in Hn. destruct Hn as (N1 & N2 & N3 & N4 & _).
          rewrite Hreg. unfold regenerated. rewrite !bool_decide_eq_false_2 by done. simpl. rewrite E0.
          destruct Hh as [Hh|Hh]; [|rewrite Hh, Hi, (bool_decide_eq_false_2 (is_Some None)) by (by intros []); by rewrite andb_false_r].
          destruct (is_handwritten n) eqn:E; [by apply Hhw in E|]. simpl. by rewrite Hi.
        + intros n i Hn Hi. rewrite Hreg. apply Hhw in Hn as E. unfold regenerated. simpl. rewrite E0.
          rewrite !elem_of_cons, elem_of_nil in Hn. rewrite !bool_decide_eq_false_2 by (by destruct Hn as [->|[->|]]). rewrite E, Hi. by rewrite bool_decide_eq_true_2 by (by eexists).
    Qed.
    (** A file the generator does not compile: the tool panics, no file is
        written. *)
    Theorem C58_rejects s s' o : fs_files s !! (sd, sn) = Some (File file) -> core_root ∈ fs_dirs s ->
      ~ (exists rules, file_or_empty file rules /\ lefts_declared rules /\ forallb rule_emits rules = true) ->
      completes (tool_main gen sd sn target name core_root core offline) s s' o -> o = Panicked /\ fs_files s' = fs_files s.
    Proof using Hho Hgen Hfit Hu.
      intros Hs Hc Hn H. destruct (main_completes gen s s' o file) as (s0 & Hs0 & H0); [done..|].
      assert (Eg : gen file = None).
      { unfold generator_run in Hgen. destruct (gen file) as [[r p]|]; [|done]. destruct Hgen as (fuel & c & Hc' & _). destruct Hn. apply (C38_compiled file Hfit ho Hho). eauto. }
      rewrite Eg in H0. inversion H0; subst. split; [done|]. by destruct Hs0 as [->| ->].
    Qed.
  End run.

  (** *** Killed or failing runs *)
  (** Wherever an earlier run was killed, and whatever failed in it, the
      workspace is still one; hand-written files survive. *)
  Lemma workspace_visits gen s s' file main : sd <> src -> sd <> root -> workspace s file main ->
    visits (tool_main gen sd sn target name core_root core offline) s s' -> workspace s' file main.
  Proof using Hcs Hcroot.
    intros Hs1 Hs2 W Hv. apply main_visits in Hv as [->|[->|(s0 & f & Hs0 & Hv)]]; [done|by apply workspace_add|].
    assert (W0 : workspace s0 file main) by (destruct Hs0 as [->| ->]; [done|by apply workspace_add]). clear W Hs0.
    destruct (gen f) as [[r p]|]; cbn [run_tool] in Hv; [|by inversion Hv; subst].
    pose proof (C39_outside root src core r p header (negb offline) s0 s' core) as Hout.
    destruct W0 as [H1 H2 H3 H4 H5 H6 H7].
    assert (Hco : forall n, fs_files s' !! (core, n) = fs_files s0 !! (core, n)) by (intros n; by apply Hout).
    split; try (by rewrite ?Hco).
    - rewrite (C39_outside root src core r p header (negb offline) _ _ sd sn Hv); done.
    - by eapply (visits_dirs root src core r p header (negb offline)).
    - by eapply (visits_dirs root src core r p header (negb offline)).
    - intros n. rewrite Hco. apply H4.
    - intros n. specialize (H5 n). revert Hv H5. apply (keeps_visits (fun s => fs_files s !! (src, n) <> Some Subdir)).
      apply tool_keeps; intros; (eapply (no_subdir_step root src core src_root Hcroot Hcs); [done| |done]); eauto 10. Unshelve. all: exact [].
  Qed.
  (** Running the tool again after a run that was killed anywhere (with any
      other grammar in it, any hash orders) installs the package. *)
  Theorem C58_installs_after_crash ho dbg gen gen0 file rules s s1 s2 o main : orders_ok ho -> generator_run ho dbg file (gen file) ->
    fits file -> from_utf8 file = true -> file_or_empty file rules -> accepted rules -> sd <> src -> sd <> root -> workspace s file main ->
    visits (tool_main gen0 sd sn target name core_root core offline) s s1 ->
    completes (tool_main gen sd sn target name core_root core offline) s1 s2 o -> src ∈ fs_dirs s2 ->
    o = Finished /\ (exists cr, holds_crate s2 src cr /\ parses rules cr) /\ holds_runtime s1 s2 core src name main.
  Proof using Hcs Hcroot.
    intros Hho Hgen Hfit Hu Hf Hac Hs1 Hs2 W Hv Hc Hd. eapply C58_installs; try done. by eapply workspace_visits.
  Qed.
  (** Run --offline before the package exists: nothing is written, and the
      process still reports success to the shell. *)
  Theorem C58_offline_first gen s s' o file main : offline = true -> workspace s file main -> from_utf8 file = true -> is_Some (gen file) ->
    target <> src -> src ∉ fs_dirs s -> (forall n, fs_files s !! (src, n) = None) ->
    completes (tool_main gen sd sn target name core_root core offline) s s' o ->
    o = Failed /\ exit_code o = 0 /\ fs_files s' = fs_files s.
  Proof using Hcs Hcroot.
    intros Hoff W Hu [[r p] Hg] Ht Hns Hnone H. destruct (main_completes gen s s' o file) as (s0 & Hs0 & H0); [apply W|apply W|done|done|]. rewrite Hg in H0. cbn [run_tool] in H0.
    assert (E0 : fs_files s0 = fs_files s) by (by destruct Hs0 as [->| ->]).
    assert (N0 : src ∉ fs_dirs s0) by (destruct Hs0 as [->| ->]; [done|simpl; set_solver]).
    assert (C0 : core ∈ fs_dirs s0) by (destruct W; destruct Hs0 as [->| ->]; [done|simpl; set_solver]).
    assert (Hgoal : o = Failed /\ fs_files s' = fs_files s0); [|destruct Hgoal as [-> ->]; done].
    assert (Hn0 : forall n, fs_files s0 !! (src, n) = None) by (by rewrite E0). assert (Hm0 : fs_files s0 !! (core, sample) = Some (File main)) by (rewrite E0; apply W).
    assert (Hu0 : from_utf8 main = true) by apply W. rewrite Hoff in H0. simpl negb in H0. clear W Hs0 H Hg E0 Hns Hnone Hoff Hu. unfold generate_data in H0.
    inversion H0 as [|? ? ? sa ? r1 ? D1 H1]; subst; clear H0.
    assert (Ha : r1 = RUnit /\ fs_files sa = fs_files s0 /\ src ∉ fs_dirs sa /\ core ∈ fs_dirs sa).
    { inversion D1; subst; simpl; split_and!; try done; [|set_solver]. pose proof src_root. set_solver. }
    destruct Ha as (-> & Ea & Na & Ca). rewrite <- Ea in *. clear D1 N0 C0 Ea s0. cbv zeta in H1. simpl in H1.
    inversion H1 as [|? ? ? sb ? r2 ? D2 H2]; subst; clear H1. inversion D2; subst. rewrite bool_decide_eq_true_2 in H2 by done.
    inversion H2 as [|? ? ? sc ? r3 ? D3 H3]; subst; clear H2. inversion D3 as [| | | |? ? l Hnd Hl| | | | | | | | | | |]; subst.
    assert (W : forall n, writable sc src n = false) by (intros n; unfold writable; by rewrite bool_decide_eq_false_2).
    assert (Hw : completes (write_generated src core r p header) sc s' o).
    { clear -H3 W Hn0 Hl. destruct l as [|n l]; [done|]. cbn [copy_entries] in H3.
      assert (Hcopy : completes (Call (CCreate src n) (fun _ => Call (CCopy core n src n) (fun x => match x with RErr => write_generated src core r p header | _ => copy_entries src core l (write_generated src core r p header) end))) sc s' o ->
        completes (write_generated src core r p header) sc s' o).
      { intros H. inversion H as [|? ? ? sd' ? r4 ? D4 H4]; subst; clear H. inversion D4 as [| | | | | |? ? ? W1| | | | | | | | |]; subst; [by rewrite W in W1|].
        inversion H4 as [|? ? ? se ? r5 ? D5 H5]; subst; clear H4. inversion D5 as [| | | | | | | |? ? ? ? ? ? _ W1| | | | | | |]; subst; [by rewrite W in W1|done]. }
      destruct (is_handwritten n); [|by apply Hcopy]. inversion H3 as [|? ? ? sd' ? r4 ? D4 H4]; subst; clear H3. inversion D4; subst.
      rewrite Hn0, bool_decide_eq_false_2 in H4 by (by intros []). by apply Hcopy. }
    clear H3. unfold write_generated in Hw.
    inversion Hw as [|? ? ? s3 ? r4 ? D4 H4]; subst; clear Hw. inversion D4 as [| | | | | | | | | |? ? ? ? W1| | | | |]; subst; [by rewrite W in W1|].
    inversion H4 as [|? ? ? s4 ? r5 ? D5 H5]; subst; clear H4. inversion D5 as [| | | | | | | | | |? ? ? ? W1| | | | |]; subst; [by rewrite W in W1|].
    inversion H5 as [|? ? ? s5 ? r6 ? D6 H6]; subst; clear H5. inversion D6 as [| | | | | | | | | | | |? ? ? ? Hx|? ? ? Hx| |]; subst; [|by destruct (Hx main)].
    rewrite Hm0 in Hx. injection Hx as <-. rewrite Hu0 in H6.
    inversion H6 as [|? ? ? s6 ? r7 ? D7 H7]; subst; clear H6. inversion D7 as [| | | | | | | | | |? ? ? ? W1| | | | |]; subst; [by rewrite W in W1|].
    inversion H7 as [|? ? ? s7 ? r8 ? D8 H8]; subst; clear H7. inversion D8 as [| | | | | | | | | | | | | |? ? ? ? Hx|? ? ? Hx]; subst; [by rewrite Hn0 in Hx|].
    inversion H8; subst. done.
  Qed.
End disk.

(** ** The installed program *)
Section main.
  Context (rules : list drule) (cr : crate) (Hp : parses rules cr).
  Context (r : drule) (Hr : r ∈ rules) (Hname : dr_name r = bytes "Grammar").
  Lemma parse_entry_starts entry : parse_entry cr = Some entry -> starts_rule cr (dr_name r) entry.
  Proof using Hname.
    rewrite Hname. unfold parse_entry. destruct (index_of (bytes "Grammar") (rc_variants cr)) as [v|] eqn:Ev; [|done].
    destruct (index_of (bytes "grammar") (rc_fns cr)) as [f|] eqn:Ef; [|done]. intros [= <-]. exists f. split; [done|]. right. by exists v.
  Qed.
  (** parse() compiles. *)
  Theorem C58_entry : dr_inline r = false -> exists entry, parse_entry cr = Some entry.
  Proof using Hp Hr Hname.
    intros Hi. destruct (pa_variants _ _ Hp r Hr Hi) as (v & f & f' & Hf & [He|(v' & Hv & He)]); [done|]. rewrite Hname in *. unfold parse_entry.
    change (first_upper (bytes "Grammar")) with (bytes "Grammar") in Hv. change (to_lowercase (bytes "Grammar")) with (bytes "grammar") in Hf. rewrite Hv, Hf. eauto.
  Qed.
  (** What it prints is what the grammar file says about the input. *)
  Theorem C58_main entry fuel content out code : parse_entry cr = Some entry ->
    (forall s, content = Some s -> N.of_nat (length s) < u32_modulus) ->
    installed_main (crate_program cr) tt entry fuel content = Ok (out, code) -> reports rules cr content out code.
  Proof using Hp Hr Hname.
    intros He%parse_entry_starts Hs. unfold installed_main, reports. destruct content as [s|]; [|by intros [= <- <-]]. specialize (Hs s eq_refl).
    destruct (from_utf8 s); [|intros [= <- <-]; done]. intros H. split; [done|]. intros _. unfold parse_with in H.
    destruct (run_entry (crate_program cr) tt fuel entry s) as [[[b q] st]| |] eqn:Erun; cbn [rbind] in H; [|done..].
    destruct (clear_false fuel _ _) as [t| |] eqn:Ec; cbn [rbind] in H; [|done..]. destruct (print fuel t 0 (Some true)) as [ls| |] eqn:Epr; cbn [rbind] in H; [|done..].
    destruct (pa_positions _ _ Hp r entry s fuel b q st Hr He Hs Erun) as [P1 P2].
    cbv zeta in H. rewrite N.mod_small in H by done. injection H as <- <-. split; [done|]. exists ls, b, q. rewrite <- Hname. split_and!.
    - f_equal. simpl. f_equal. destruct (N.eqb_spec (N.of_nat (length s)) q), (N.ltb_spec q (N.of_nat (length s))); try done; lia.
    - eapply (pa_shows _ _ Hp r entry s fuel b q st t ls Hr He Hs Erun Ec Epr).
    - done.
    - intros ->. by eapply (pa_derivable _ _ Hp).
    - done.
    - intros Hac. by destruct (pa_means _ _ Hp Hac r entry s fuel b q st Hr He Hs Erun).
  Qed.
  (** It prints something on every input, or keys run out. *)
  Theorem C58_main_answers entry s : parse_entry cr = Some entry -> N.of_nat (length s) < u32_modulus -> from_utf8 s = true ->
    no_empty_loops rules -> (forall n, tc (first_calls rules) n n -> left_recursive rules n) ->
    exists fuel0, forall fuel, (fuel0 <= fuel)%nat -> (exists out, installed_main (crate_program cr) tt entry fuel (Some s) = Ok (out, 0)) \/
      installed_main (crate_program cr) tt entry fuel (Some s) = Panic PKeyOverflow.
  Proof using Hp Hr Hname.
    intros He%parse_entry_starts Hs Hu Hl Hd. destruct (pa_answers _ _ Hp Hl Hd r entry s Hr He Hs) as (f0 & [(b & q & st & H)|H]).
    - destruct (pa_prints _ _ Hp r entry s f0 b q st Hr He Hs (H f0 ltac:(lia))) as [f1 H1]. exists (Nat.max f0 f1). intros fuel Hf.
      unfold installed_main, parse_with. rewrite Hu, H by lia. cbn [rbind]. destruct (H1 fuel ltac:(lia)) as [(t & ls & Ht & Hls)|Ht]; rewrite Ht; cbn [rbind].
      + left. rewrite Hls. cbn [rbind]. eauto.
      + by right.
    - exists f0. intros fuel Hf. right. unfold installed_main, parse_with. rewrite Hu, H by lia. done.
  Qed.
  (** Without left recursion: the message is there exactly when rule Grammar
      does not match the whole input; an empty input that is not matched gives
      no message. *)
  Theorem C58_message entry fuel s out code : parse_entry cr = Some entry -> N.of_nat (length s) < u32_modulus -> from_utf8 s = true ->
    (forall n, ~ tc (first_calls rules) n n) -> installed_main (crate_program cr) tt entry fuel (Some s) = Ok (out, code) ->
    (exists parsed total, ONotToEnd parsed total ∈ out) <-> s <> [] /\ ~ means rules s (DRef (bytes "Grammar")) 0 (Some (N.of_nat (length s))).
  Proof using Hp Hr Hname.
    intros He Hs Hu Hac H. apply C58_main in H; [|done|by intros ? [= <-]]. destruct H as [_ H]. destruct (H Hu) as (_ & nodes & b & q & -> & _ & Hq & _ & Hb & Hm).
    specialize (Hm Hac). assert (Hdet : forall q', means rules s (DRef (bytes "Grammar")) 0 (Some q') -> b = true /\ q' = q).
    { intros q' Hq'. pose proof (C47_functional rules s _ _ _ _ Hq' Hm) as E. destruct b; [|done]. by injection E as ->. }
    assert (Hno : forall x y, ONotToEnd x y ∉ map ONode nodes) by (intros x y Hx; apply elem_of_list_In, in_map_iff in Hx as (? & ? & _); done).
    split.
    - intros (x & y & Hin). apply elem_of_app in Hin as [Hin|Hin]; [by apply Hno in Hin|]. apply elem_of_cons in Hin as [Hin|Hin]; [done|].
      destruct (N.ltb_spec q (N.of_nat (length s))) as [Hlt|_]; [|by apply elem_of_nil in Hin]. split; [by intros ->; simpl in Hlt; lia|].
      intros [_ E]%Hdet. lia.
    - intros [Hne Hn]. exists q, (N.of_nat (length s)). apply elem_of_app. right. apply elem_of_cons. right.
      destruct (N.ltb_spec q (N.of_nat (length s))) as [Hlt|Hge]; [by apply elem_of_list_singleton|]. exfalso. assert (q = N.of_nat (length s)) as -> by lia.
      destruct b; [done|]. specialize (Hb eq_refl). destruct s; [done|]. simpl in Hb. lia.
  Qed.
End main.
