(** Theorems C39, C40: what the runner does to the disk. *)
From stdpp Require Import base list option gmap.
From Verif Require Import Runner.
Local Open Scope N_scope.

(** ** Invariants of runs *)
Inductive keeps (I : fsys -> Prop) : prog -> Prop :=
  | ke_stop o : keeps I (Stop o)
  | ke_call c k : (forall s s', I s -> partially c s s' -> I s') ->
      (forall r, (exists s, I s /\ (failure s c r \/ exists s', does c s s' r)) -> keeps I (k r)) -> keeps I (Call c k).
Lemma keeps_visits I p s s' : keeps I p -> visits p s s' -> I s -> I s'.
Proof.
  intros Hk Hv. induction Hv as [|c k s s' Hp|c k s s1 s2 r Hd _ IH|c k s s1 s2 r Hp Hf _ IH]; intros HI; [done| | |]; inversion Hk as [|? ? H1 H2]; subst.
  - by eapply H1.
  - apply IH; [apply H2; eauto|]. eapply H1; [done|]. by eapply pa_done.
  - apply IH; [apply H2; eauto|]. by eapply H1.
Qed.
Lemma completes_visits p s s' o : completes p s s' o -> visits p s s'.
Proof. induction 1; [constructor|by eapply vi_call]. Qed.

Definition handwritten (n : list N) : Prop := n = bytes "hooked_calls.rs" \/ n = bytes "user_state.rs".
Lemma is_handwritten_spec n : is_handwritten n = true <-> handwritten n.
Proof. unfold is_handwritten, handwritten. rewrite orb_true_iff, !bool_decide_eq_true. done. Qed.

Lemma lookup_set s d n i d' n' : (d, n) <> (d', n') -> fs_files (set_file s d n i) !! (d', n') = fs_files s !! (d', n').
Proof. intros H. simpl. by rewrite lookup_insert_ne. Qed.
Lemma lookup_set_eq s d n i : fs_files (set_file s d n i) !! (d, n) = Some i.
Proof. simpl. by rewrite lookup_insert. Qed.
Lemma lookup_del s d n d' n' : (d, n) <> (d', n') -> fs_files (del_file s d n) !! (d', n') = fs_files s !! (d', n').
Proof. intros H. simpl. by rewrite lookup_delete_ne. Qed.

(** The paths a call may change. *)
Definition touches (c : call) (d n : list N) : Prop :=
  match c with
  | CCargo root src => d = root \/ (d = src /\ n = bytes "main.rs")
  | CCreate d' n' | CCopy _ _ d' n' | CWrite d' n' _ | CRemove d' n' => d = d' /\ n = n'
  | _ => False
  end.
Global Instance touches_dec c d n : Decision (touches c d n).
Proof. destruct c; simpl; apply _. Defined.
Lemma untouched c s s' d n : partially c s s' -> ~ touches c d n -> fs_files s' !! (d, n) = fs_files s !! (d, n).
Proof.
  intros Hp Ht. destruct Hp as [|c s s' r Hd| |]; simpl in Ht; try done; try (apply lookup_set; intros [= ? ?]; by apply Ht).
  destruct Hd; simpl in *; try done; try (apply lookup_set; intros [= ? ?]; by apply Ht).
  - match goal with H : _ |- _ => apply H end; [tauto|]. destruct (decide (d = src)); [|by left]. right. left. tauto.
  - apply lookup_del. intros [= ? ?]. by apply Ht.
Qed.
Lemma dirs_grow c s s' d : partially c s s' -> d ∈ fs_dirs s -> d ∈ fs_dirs s'.
Proof.
  intros Hp Hd. destruct Hp as [|c s s' r H| |]; try done. destruct H; simpl in *; try done; auto. set_solver.
Qed.

Section runs.
  Context (root src core rules_rs parser_rs header : list N) (with_cargo : bool).
  Context (Hroot : src <> root) (Hcroot : core <> root).
  Notation tool := (generate_data root src core rules_rs parser_rs header with_cargo).

  (** To show that an invariant is kept, look at the calls one by one. *)
  Lemma tool_keeps (I : fsys -> Prop) :
    (forall s s', I s -> partially (CMkDir root) s s' -> I s') ->
    (forall s s', I s -> partially (CCargo root src) s s' -> I s') ->
    (forall n s s', (exists s, I s /\ is_Some (fs_files s !! (core, n))) -> (handwritten n -> exists s0, I s0 /\ fs_files s0 !! (src, n) = None) -> I s -> partially (CCreate src n) s s' -> I s') ->
    (forall n s s', (exists s, I s /\ is_Some (fs_files s !! (core, n))) -> (handwritten n -> exists s0, I s0 /\ fs_files s0 !! (src, n) = None) -> I s -> partially (CCopy core n src n) s s' -> I s') ->
    (forall s s' c, I s -> partially (CWrite src (bytes "rules.rs") c) s s' -> I s') ->
    (forall s s' c, I s -> partially (CWrite src (bytes "parser.rs") c) s s' -> I s') ->
    (forall s s' c, I s -> partially (CWrite src (bytes "main.rs") c) s s' -> I s') ->
    (forall s s', I s -> partially (CRemove src (bytes "sample_main.txt")) s s' -> I s') ->
    keeps I tool.
  Proof using.
    intros Hmk Hca Hcr Hco Hw1 Hw2 Hw3 Hrm.
    assert (Hid : forall c, (forall d n, ~ touches c d n) -> (forall d, c <> CMkDir d) -> forall s s', partially c s s' -> s = s').
    { intros c Ht Hm s s' Hp. destruct Hp as [|c s s' r Hd| |]; try done; try (by destruct (Ht d' n')); try (by destruct (Ht d n)).
      destruct Hd; simpl in *; try done; try (by destruct (Ht d n)); try (by destruct (Ht d' n')); try (by edestruct Hm); try (by destruct (Ht root0 []); left). }
    assert (Hgen : keeps I (write_generated src core rules_rs parser_rs header)).
    { constructor; [intros ? ?; by apply Hw1|]. intros r1 _. constructor; [intros ? ?; by apply Hw2|]. intros r2 _. constructor.
      { intros s s' HI Hp. apply Hid in Hp; [by subst|by intros ? ? []|done]. }
      intros [| | | |c] _; try constructor. destruct (from_utf8 c); [|constructor]. constructor; [intros ? ?; by apply Hw3|]. intros r3 _.
      constructor; [by apply Hrm|]. intros [] _; constructor. }
    assert (Hcp : forall l, (forall n, n ∈ l -> exists s, I s /\ is_Some (fs_files s !! (core, n))) -> keeps I (copy_entries src core l (write_generated src core rules_rs parser_rs header))).
    { induction l as [|n l IH]; intros Hl; [done|]. cbn [copy_entries].
      assert (Hl' : forall n, n ∈ l -> exists s, I s /\ is_Some (fs_files s !! (core, n))) by (intros m Hm; apply Hl; by right).
      specialize (IH Hl'). specialize (Hl n (elem_of_list_here _ _)).
      assert (Hcopy : (handwritten n -> exists s0, I s0 /\ fs_files s0 !! (src, n) = None) -> keeps I (Call (CCreate src n) (fun _ =>
        Call (CCopy core n src n) (fun r => match r with RErr => write_generated src core rules_rs parser_rs header | _ => copy_entries src core l (write_generated src core rules_rs parser_rs header) end)))).
      { intros Hh. constructor; [intros; by eapply Hcr|]. intros r1 _. constructor; [intros; by eapply Hco|]. intros [] _; done. }
      destruct (is_handwritten n) eqn:Eh; [|apply Hcopy; intros H; apply is_handwritten_spec in H; congruence].
      constructor.
      { intros s s' HI Hp. apply Hid in Hp; [by subst|by intros ? ? []|done]. }
      intros r (s & HI & Hr). destruct Hr as [Hf|(s' & Hd)]; [inversion Hf; subst; done|]. inversion Hd; subst. case_bool_decide as Hs; [done|].
      apply Hcopy. intros _. exists s'. split; [done|]. by apply eq_None_not_Some. }
    assert (Hrest : keeps I (copy_dir_contents_to_dir src core (write_generated src core rules_rs parser_rs header))).
    { constructor.
      { intros s s' HI Hp. apply Hid in Hp; [by subst|by intros ? ? []|done]. }
      intros [| |[]| |] _; try constructor.
      { intros s s' HI Hp. apply Hid in Hp; [by subst|by intros ? ? []|done]. }
      intros r (s & HI & Hr). destruct Hr as [Hf|(s' & Hd)].
      - inversion Hf as [|? l Hn Hl]; subst; [done|]. apply Hcp. intros n Hn'. exists s. split; [done|]. by apply Hl.
      - inversion Hd as [| | | |? ? l Hn Hl| | | | | | | | | | |]; subst. apply Hcp. intros n Hn'. exists s'. split; [done|]. by apply Hl. }
    constructor; [by apply Hmk|]. intros r _. assert (keeps I (if with_cargo then Call (CCargo root src) (fun _ => copy_dir_contents_to_dir src core (write_generated src core rules_rs parser_rs header)) else copy_dir_contents_to_dir src core (write_generated src core rules_rs parser_rs header))).
    { destruct with_cargo; [|done]. constructor; [by apply Hca|]. by intros _ _. }
    destruct r; try done. constructor.
  Qed.

  (** ** C39: hand-written files survive, whatever fails and wherever the
      process is killed; also when the target is the runtime itself. *)
  Theorem C39_handwritten_survive s s' n i : visits tool s s' -> handwritten n ->
    fs_files s !! (src, n) = Some i -> fs_files s' !! (src, n) = Some i.
  Proof using Hroot.
    intros Hv Hn. eapply (keeps_visits (fun s => fs_files s !! (src, n) = Some i)); [|done]. apply tool_keeps;
      try (intros ? ? HI Hp; rewrite <- HI; eapply untouched; [done|]); try (intros ? ? ? HI Hp; rewrite <- HI; eapply untouched; [done|]);
      try (by intros []); try (by intros [_ ->]; destruct Hn); try (by intros [->|[_ ->]]; [|destruct Hn]).
    - intros m s1 s2 _ Hh HI Hp. destruct (decide (m = n)) as [->|]; [destruct (Hh Hn) as (s0 & H0 & H1); congruence|].
      rewrite <- HI. eapply untouched; [done|]. by intros [_ ->].
    - intros m s1 s2 _ Hh HI Hp. destruct (decide (m = n)) as [->|]; [destruct (Hh Hn) as (s0 & H0 & H1); congruence|].
      rewrite <- HI. eapply untouched; [done|]. by intros [_ ->].
  Qed.
  (** Nothing outside the target package changes. *)
  Theorem C39_outside s s' d n : visits tool s s' -> d <> root -> d <> src -> fs_files s' !! (d, n) = fs_files s !! (d, n).
  Proof using.
    intros Hv H1 H2. pattern s'. eapply keeps_visits; [|exact Hv|done]. apply tool_keeps;
      try (intros ? ? HI Hp; rewrite <- HI; eapply untouched; [done|]); try (intros ? ? ? HI Hp; rewrite <- HI; eapply untouched; [done|]);
      try (intros ? ? ? _ _ HI Hp; rewrite <- HI; eapply untouched; [done|]); simpl; naive_solver.
  Qed.
  (** Files of the target that are neither generated nor in the runtime stay. *)
  Theorem C39_other_files s s' n : visits tool s s' -> core <> src -> fs_files s !! (core, n) = None ->
    n ∉ [bytes "rules.rs"; bytes "parser.rs"; bytes "main.rs"; bytes "sample_main.txt"] ->
    fs_files s' !! (src, n) = fs_files s !! (src, n).
  Proof using Hroot Hcroot.
    intros Hv Hcs Hn Ho. rewrite !not_elem_of_cons in Ho. destruct Ho as (Ho1 & Ho2 & Ho3 & Ho4 & _).
    assert (H : fs_files s' !! (src, n) = fs_files s !! (src, n) /\ fs_files s' !! (core, n) = None); [|by destruct H].
    pattern s'. eapply keeps_visits; [|exact Hv|done]. apply tool_keeps;
      try (intros ? ? [<- <-] Hp; split; (eapply untouched; [done|]); simpl; naive_solver);
      try (intros ? ? ? [<- <-] Hp; split; (eapply untouched; [done|]); simpl; naive_solver).
    - intros m s1 s2 (s0 & [_ H0] & Hm) _ [<- <-] Hp. destruct (decide (m = n)) as [->|]; [rewrite H0 in Hm; by destruct Hm|].
      split; (eapply untouched; [done|]); simpl; naive_solver.
    - intros m s1 s2 (s0 & [_ H0] & Hm) _ [<- <-] Hp. destruct (decide (m = n)) as [->|]; [rewrite H0 in Hm; by destruct Hm|].
      split; (eapply untouched; [done|]); simpl; naive_solver.
  Qed.

  (** ** C40: complete runs *)
  Notation sample := (bytes "sample_main.txt").
  (** The situation the tool is meant for: target and runtime are different
      directories that exist, and both hold regular files only. *)
  Record ready (s : fsys) : Prop := {
    rd_core : core ∈ fs_dirs s;
    rd_src : src ∈ fs_dirs s;
    rd_files : forall n, fs_files s !! (core, n) <> Some Subdir;
    rd_free : forall n, fs_files s !! (src, n) <> Some Subdir }.
  (** What the target must hold afterwards, by file name. *)
  Definition regenerated (s : fsys) (main : list N) (n : list N) : option inode :=
    if bool_decide (n = bytes "rules.rs") then Some (File rules_rs)
    else if bool_decide (n = bytes "parser.rs") then Some (File parser_rs)
    else if bool_decide (n = bytes "main.rs") then Some (File (header ++ main))
    else if bool_decide (n = sample) then None
    else if is_handwritten n && bool_decide (is_Some (fs_files s !! (src, n))) then fs_files s !! (src, n)
    else match fs_files s !! (core, n) with Some i => Some i | None => fs_files s !! (src, n) end.

  Lemma writable_free s n : src ∈ fs_dirs s -> fs_files s !! (src, n) <> Some Subdir -> writable s src n = true.
  Proof using.
    intros H1 H2. unfold writable. rewrite bool_decide_eq_true_2 by done. simpl. destruct (fs_files s !! (src, n)) as [[]|]; done.
  Qed.

  Section distinct.
    Context (Hcs : core <> src).
    Lemma copy_entries_completes k s' o : forall l s, NoDup l -> src ∈ fs_dirs s ->
      (forall n, n ∈ l -> exists c, fs_files s !! (core, n) = Some (File c)) -> (forall n, fs_files s !! (src, n) <> Some Subdir) ->
      completes (copy_entries src core l k) s s' o ->
      exists s1, completes k s1 s' o /\ fs_dirs s1 = fs_dirs s /\ (forall d n, d <> src -> fs_files s1 !! (d, n) = fs_files s !! (d, n)) /\
        forall n, fs_files s1 !! (src, n) = if bool_decide (n ∈ l) then
            if is_handwritten n && bool_decide (is_Some (fs_files s !! (src, n))) then fs_files s !! (src, n) else fs_files s !! (core, n)
          else fs_files s !! (src, n).
    Proof using Hcs.
      clear Hroot Hcroot. induction l as [|m l IH]; intros s Hnd Hsrc Hco Hfree H.
      { exists s. split; [done|]. split; [done|]. split; [done|]. intros n. rewrite bool_decide_eq_false_2; [done|by intros ?%elem_of_nil]. }
      apply list.NoDup_cons in Hnd as [Hm Hnd].
      assert (Hskip : completes (copy_entries src core l k) s s' o -> is_handwritten m = true -> is_Some (fs_files s !! (src, m)) ->
        exists s1, completes k s1 s' o /\ fs_dirs s1 = fs_dirs s /\ (forall d n, d <> src -> fs_files s1 !! (d, n) = fs_files s !! (d, n)) /\
        forall n, fs_files s1 !! (src, n) = if bool_decide (n ∈ m :: l) then
            if is_handwritten n && bool_decide (is_Some (fs_files s !! (src, n))) then fs_files s !! (src, n) else fs_files s !! (core, n)
          else fs_files s !! (src, n)).
      { intros Hc Hh Hs. destruct (IH s) as (s1 & H1 & H2 & H3 & H4); try done; [intros; apply Hco; by right|]. exists s1. split_and!; try done.
        intros n. rewrite H4. destruct (decide (n = m)) as [->|Hne].
        - rewrite (bool_decide_eq_false_2 _ Hm), (bool_decide_eq_true_2 (m ∈ m :: l)) by (apply elem_of_list_here). by rewrite Hh, bool_decide_eq_true_2.
        - assert (E : bool_decide (n ∈ m :: l) = bool_decide (n ∈ l)) by (apply bool_decide_ext; rewrite elem_of_cons; naive_solver). by rewrite E. }
      assert (Hcopy : completes (Call (CCreate src m) (fun _ => Call (CCopy core m src m) (fun r => match r with RErr => k | _ => copy_entries src core l k end))) s s' o ->
        (is_handwritten m = true -> fs_files s !! (src, m) = None) ->
        exists s1, completes k s1 s' o /\ fs_dirs s1 = fs_dirs s /\ (forall d n, d <> src -> fs_files s1 !! (d, n) = fs_files s !! (d, n)) /\
        forall n, fs_files s1 !! (src, n) = if bool_decide (n ∈ m :: l) then
            if is_handwritten n && bool_decide (is_Some (fs_files s !! (src, n))) then fs_files s !! (src, n) else fs_files s !! (core, n)
          else fs_files s !! (src, n)).
      { intros Hc Hh. inversion Hc as [|c1 k1 ? s2 ? r1 ? D1 Hc1]; subst; clear Hc. destruct (Hco m (elem_of_list_here _ _)) as [cm Hcm].
        inversion D1 as [| | | | | |? ? ? W1|? ? ? W1| | | | | | | |]; subst; [|by rewrite writable_free in W1].
        inversion Hc1 as [|c2 k2 ? s3 ? r2 ? D2 Hc2]; subst; clear Hc1.
        assert (W2 : writable (set_file s src m (File [])) src m = true).
        { apply writable_free; [done|]. by rewrite lookup_set_eq. }
        assert (Hcm' : fs_files (set_file s src m (File [])) !! (core, m) = Some (File cm)).
        { rewrite lookup_set; [done|]. by intros [= ->]. }
        inversion D2 as [| | | | | | | |? ? ? ? c ? Hc W|? ? ? ? ? [Hc|W]| | | | | |]; subst; [| by destruct (Hc cm)|congruence].
        rewrite Hcm' in Hc. injection Hc as <-. set (s2 := set_file (set_file s src m (File [])) src m (File (copied core m src m cm))) in *.
        assert (Ecp : copied core m src m cm = cm) by (unfold copied; rewrite bool_decide_eq_false_2; [done|]; by intros [= ->]).
        assert (Hs2 : forall d n, (d, n) <> (src, m) -> fs_files s2 !! (d, n) = fs_files s !! (d, n)).
        { intros d n Hne. subst s2. rewrite !lookup_set; congruence. }
        assert (Hs2m : fs_files s2 !! (src, m) = Some (File cm)) by (subst s2; by rewrite lookup_set_eq, Ecp).
        destruct (IH s2) as (s1 & H1 & H2 & H3 & H4); try done.
        { intros n Hn. rewrite Hs2; [apply Hco; by right|]. by intros [= ->]. }
        { intros n. destruct (decide (n = m)) as [->|]; [by rewrite Hs2m|]. rewrite Hs2; [apply Hfree|]. by intros [= ->]. }
        exists s1. split_and!; try done.
        { intros d n Hd. rewrite H3, Hs2; [done| |done]. by intros [= ->]. }
        intros n. rewrite H4. destruct (decide (n = m)) as [->|Hne].
        - rewrite (bool_decide_eq_false_2 _ Hm), (bool_decide_eq_true_2 (m ∈ m :: l)) by (apply elem_of_list_here). rewrite Hs2m, Hcm.
          destruct (is_handwritten m) eqn:Eh; [|done]. rewrite (Hh eq_refl). done.
        - rewrite !Hs2 by congruence. assert (E : bool_decide (n ∈ m :: l) = bool_decide (n ∈ l)) by (apply bool_decide_ext; rewrite elem_of_cons; naive_solver). by rewrite E. }
      cbn [copy_entries] in H. destruct (is_handwritten m) eqn:Eh; [|by apply Hcopy].
      inversion H as [|c0 k0 ? s2 ? r0 ? D0 Hc]; subst. inversion D0; subst. case_bool_decide as Hex; [by apply Hskip|].
      apply Hcopy; [done|]. intros _. by apply eq_None_not_Some.
    Qed.

    (** After the directory is made and cargo was run. *)
    Lemma prelude_completes s s' o : ready s -> completes tool s s' o ->
      exists sb, completes (copy_dir_contents_to_dir src core (write_generated src core rules_rs parser_rs header)) sb s' o /\
        (forall d, d ∈ fs_dirs s -> d ∈ fs_dirs sb) /\ (forall n, fs_files sb !! (core, n) = fs_files s !! (core, n)) /\
        (forall n, n <> bytes "main.rs" \/ is_Some (fs_files s !! (src, n)) -> fs_files sb !! (src, n) = fs_files s !! (src, n)) /\
        (forall n, fs_files sb !! (src, n) <> Some Subdir).
    Proof using Hcs Hroot Hcroot.
      intros R H. unfold generate_data in H. inversion H as [|c1 k1 ? sa ? r1 ? D1 H1]; subst; clear H.
      assert (Hr1 : r1 = RUnit /\ fs_files sa = fs_files s /\ forall d, d ∈ fs_dirs s -> d ∈ fs_dirs sa) by (inversion D1; subst; simpl; set_solver).
      destruct Hr1 as (-> & Ea & Da). clear D1. cbv zeta in H1. destruct with_cargo.
      - inversion H1 as [|c2 k2 ? sb ? r2 ? D2 H2]; subst; clear H1. exists sb. split; [done|].
        inversion D2 as [| |? ? ? ? F1 F2 F3| | | | | | | | | | | | |]; subst. rewrite Ea in *.
        assert (Hsame : forall n, n <> bytes "main.rs" \/ is_Some (fs_files s !! (src, n)) -> fs_files sb !! (src, n) = fs_files s !! (src, n)).
        { intros n Hn. rewrite F1; [done|done|]. by right. }
        split_and!; [auto| |done|].
        + intros n. rewrite F1; [done|done|by left].
        + intros n Hn. destruct (decide (n = bytes "main.rs")) as [->|Hne]; [apply F2 in Hn|rewrite Hsame in Hn by (by left)]; by apply (rd_free _ R) in Hn.
      - exists sa. rewrite Ea. split_and!; try done. apply (rd_free _ R).
    Qed.
    Theorem C40_complete_run s s' o main : ready s -> fs_files s !! (core, sample) = Some (File main) -> from_utf8 main = true -> completes tool s s' o ->
      o = Finished /\ (forall n, fs_files s' !! (src, n) = regenerated s main n) /\
      (forall d n, d <> src -> d <> root -> fs_files s' !! (d, n) = fs_files s !! (d, n)).
    Proof using Hcs Hroot Hcroot.
      intros R Rsm Ru H. assert (Hout : forall d n, d <> src -> d <> root -> fs_files s' !! (d, n) = fs_files s !! (d, n)).
      { intros d n Hd1 Hd2; eapply C39_outside; [by eapply completes_visits|done|done]. }
      destruct (prelude_completes _ _ _ R H) as (sb & Hb & Db & Fc & Fs & Fr). clear H.
      unfold copy_dir_contents_to_dir in Hb. inversion Hb as [|c1 k1 ? sc ? r1 ? D1 H1]; subst; clear Hb.
      inversion D1; subst; clear D1. rewrite bool_decide_eq_true_2 in H1 by (apply Db, (rd_core _ R)).
      inversion H1 as [|c2 k2 ? sd ? r2 ? D2 H2]; subst; clear H1.
      inversion D2 as [| | | |? ? l Hnd Hl| | | | | | | | | | |]; subst; clear D2. rename sd into sb.
      apply copy_entries_completes in H2; [|done|apply Db, (rd_src _ R)| |done].
      2:{ intros n Hn. apply Hl in Hn as [i Hi]. rewrite Fc in Hi. destruct i as [c|]; [|by apply (rd_files _ R) in Hi]. exists c. by rewrite Fc. }
      destruct H2 as (s1 & H2 & D1 & Fo & F1).
      assert (Rs1 : src ∈ fs_dirs s1) by (rewrite D1; apply Db, (rd_src _ R)).
      assert (N1 : forall n, fs_files s1 !! (src, n) <> Some Subdir).
      { intros n. rewrite F1. case_bool_decide; [|done]. destruct (_ && _); [done|]. rewrite Fc. apply (rd_files _ R). }
      unfold write_generated in H2.
      inversion H2 as [|c3 k3 ? s2 ? r3 ? D3 H3]; subst; clear H2.
      inversion D3 as [| | | | | | | | | |? ? ? ? W|? ? ? ? W| | | |]; subst; clear D3; [|rewrite writable_free in W; done].
      clear W. inversion H3 as [|c4 k4 ? s3 ? r4 ? D4 H4]; subst; clear H3.
      assert (N2 : forall n, fs_files (set_file s1 src (bytes "rules.rs") (File rules_rs)) !! (src, n) <> Some Subdir).
      { intros n. destruct (decide (n = bytes "rules.rs")) as [->|]; [by rewrite lookup_set_eq|]. rewrite lookup_set by congruence. apply N1. }
      inversion D4 as [| | | | | | | | | |? ? ? ? W|? ? ? ? W| | | |]; subst; clear D4; [|rewrite writable_free in W; done]. clear W.
      set (s3 := set_file _ src (bytes "parser.rs") _) in *.
      assert (N3 : forall n, fs_files s3 !! (src, n) <> Some Subdir).
      { intros n. unfold s3. destruct (decide (n = bytes "parser.rs")) as [->|]; [by rewrite lookup_set_eq|]. rewrite lookup_set by congruence. apply N2. }
      assert (Hc3 : fs_files s3 !! (core, sample) = Some (File main)).
      { unfold s3. rewrite !lookup_set by congruence. rewrite Fo by done. by rewrite Fc. }
      inversion H4 as [|c5 k5 ? s4 ? r5 ? D5 H5]; subst; clear H4.
      inversion D5 as [| | | | | | | | | | | |? ? ? ? Hc|? ? ? Hc| |]; subst; clear D5; [|by destruct (Hc main)].
      rewrite Hc3 in Hc. injection Hc as <-. rewrite Ru in H5.
      inversion H5 as [|c6 k6 ? s5 ? r6 ? D6 H6]; subst; clear H5.
      inversion D6 as [| | | | | | | | | |? ? ? ? W|? ? ? ? W| | | |]; subst; clear D6; [|rewrite writable_free in W; done]. clear W.
      inversion H6 as [|c7 k7 ? s6 ? r7 ? D7 H7]; subst; clear H6.
      assert (Hlookup : fs_files (set_file s3 src (bytes "main.rs") (File (header ++ main))) !! (src, sample) = Some (File main)).
      { unfold s3. rewrite !lookup_set by (intros [=]). rewrite F1, bool_decide_eq_true_2 by (apply Hl; rewrite Fc, Rsm; by eexists).
        replace (is_handwritten sample) with false by done. simpl. by rewrite Fc. }
      inversion D7 as [| | | | | | | | | | | | | |? ? ? ? Hd|? ? ? Hd]; subst; clear D7; [|by destruct (Hd main)].
      inversion H7; subst; clear H7. split; [done|]. split; [|done]. intros n. unfold regenerated.
      case_bool_decide as E1; [subst; rewrite lookup_del by (intros [=]); rewrite lookup_set by (intros [=]); unfold s3; rewrite lookup_set by (intros [=]); by rewrite lookup_set_eq|].
      case_bool_decide as E2; [subst; rewrite lookup_del by (intros [=]); rewrite lookup_set by (intros [=]); unfold s3; by rewrite lookup_set_eq|].
      case_bool_decide as E3; [subst; rewrite lookup_del by (intros [=]); by rewrite lookup_set_eq|].
      case_bool_decide as E4; [subst; simpl; by rewrite lookup_delete|].
      rewrite lookup_del by congruence. rewrite lookup_set by congruence. unfold s3. rewrite !lookup_set by congruence.
      rewrite F1, !(Fs n) by (by left). rewrite Fc. case_bool_decide as E5.
      - destruct (_ && _) eqn:E6; [done|]. apply Hl in E5 as [i Hi]. rewrite Fc in Hi. by rewrite Hi.
      - destruct (fs_files s !! (core, n)) as [i|] eqn:Ei; [destruct E5; apply Hl; rewrite Fc; by eexists|]. by destruct (_ && _).
    Qed.

    Lemma regenerated_no_dir s main n : ready s -> regenerated s main n <> Some Subdir.
    Proof using.
      intros R. unfold regenerated. repeat case_bool_decide; try done; try (destruct (is_handwritten n); simpl); try apply (rd_free _ R);
        destruct (fs_files s !! (core, n)) as [[]|] eqn:E; try done; try apply (rd_free _ R); by apply (rd_files _ R) in E.
    Qed.
    Lemma visits_dirs s s' d : visits tool s s' -> d ∈ fs_dirs s -> d ∈ fs_dirs s'.
    Proof using.
      intros Hv. eapply (keeps_visits (fun s => d ∈ fs_dirs s)); [|done]. apply tool_keeps; intros; by eapply dirs_grow.
    Qed.
    Lemma visits_core s s' n : visits tool s s' -> fs_files s' !! (core, n) = fs_files s !! (core, n).
    Proof using Hcs Hcroot. intros Hv. by eapply C39_outside. Qed.
    Lemma no_subdir_step c s s' n : partially c s s' -> (c = CCargo root src \/ ~ touches c src n \/ exists n' x, c = CCreate src n' \/ c = CCopy core x src n' \/ c = CWrite src n' x \/ c = CRemove src n') ->
      fs_files s !! (src, n) <> Some Subdir -> fs_files s' !! (src, n) <> Some Subdir.
    Proof using Hcs Hroot Hcroot.
      intros Hp Hc Hs. destruct (decide (touches c src n)) as [Ht|Ht]; [|by rewrite (untouched _ _ _ _ _ Hp Ht)].
      - destruct Hp as [|c s s' r Hd|d m d' m' c k s _ _|d m c k s _]; simpl in Ht; try done; try (destruct Ht as [-> ->]; by rewrite lookup_set_eq).
        destruct Hd; simpl in Ht; try done; try (destruct Ht as [-> ->]; by rewrite lookup_set_eq).
        + destruct Hc as [[= -> ->]|[Hc|(? & ? & [?|[?|[?|?]]])]]; try done. destruct Ht as [->|[_ ->]]; [done|]. intros E. by apply Hs, H0.
        + destruct Ht as [-> ->]. simpl. by rewrite lookup_delete.
    Qed.
    Lemma visits_ready s s' : ready s -> visits tool s s' -> ready s'.
    Proof using Hcs Hroot Hcroot.
      intros R Hv. split.
      - eapply visits_dirs; [done|apply (rd_core _ R)].
      - eapply visits_dirs; [done|apply (rd_src _ R)].
      - intros n. rewrite (visits_core _ _ _ Hv). apply (rd_files _ R).
      - intros n. pose proof (rd_free _ R n) as Hf. revert Hv Hf. apply (keeps_visits (fun s => fs_files s !! (src, n) <> Some Subdir)). apply tool_keeps; intros; (eapply no_subdir_step; [done| |done]); eauto 10. Unshelve. all: exact [].
    Qed.
    (** Running the tool twice on the same grammar gives the files of one run. *)
    Theorem C40_idempotent s s1 s2 o1 o2 main : ready s -> fs_files s !! (core, sample) = Some (File main) -> from_utf8 main = true ->
      completes tool s s1 o1 -> completes tool s1 s2 o2 -> forall n, fs_files s2 !! (src, n) = fs_files s1 !! (src, n).
    Proof using Hcs Hroot Hcroot.
      intros R Hm Hu H1 H2 n. pose proof (visits_ready _ _ R (completes_visits _ _ _ _ H1)) as R1.
      destruct (C40_complete_run _ _ _ _ R Hm Hu H1) as (_ & E1 & _).
      assert (Hc : forall n, fs_files s1 !! (core, n) = fs_files s !! (core, n)) by (intros; eapply visits_core, completes_visits, H1).
      assert (Hm1 : fs_files s1 !! (core, sample) = Some (File main)) by (by rewrite Hc).
      destruct (C40_complete_run _ _ _ _ R1 Hm1 Hu H2) as (_ & E2 & _). rewrite E2. unfold regenerated at 1. rewrite (E1 n), Hc. unfold regenerated.
      repeat (case_bool_decide; try done). all: destruct (is_handwritten n) eqn:Eh; simpl in *; try done; destruct (fs_files s !! (core, n)); done.
    Qed.
    (** A run that was killed at any point, or in which calls failed, is
        repaired by a complete run, except that a hand-written file that did
        not exist before may be a cut-off copy of the template. *)
    Theorem C40_crash_then_rerun s s1 s2 o main : ready s -> fs_files s !! (core, sample) = Some (File main) -> from_utf8 main = true ->
      visits tool s s1 -> completes tool s1 s2 o -> o = Finished /\ forall n,
      fs_files s2 !! (src, n) = regenerated s main n \/
      (handwritten n /\ fs_files s !! (src, n) = None /\ exists c k, fs_files s !! (core, n) = Some (File c) /\ fs_files s2 !! (src, n) = Some (File (take k c))).
    Proof using Hcs Hroot Hcroot.
      intros R Hm Hu H1 H2. pose proof (visits_ready _ _ R H1) as R1.
      assert (Hc : forall n, fs_files s1 !! (core, n) = fs_files s !! (core, n)) by (intros; eapply visits_core, H1).
      assert (Hm1 : fs_files s1 !! (core, sample) = Some (File main)) by (by rewrite Hc).
      destruct (C40_complete_run _ _ _ _ R1 Hm1 Hu H2) as (-> & E2 & _). split; [done|]. intros n. rewrite E2. unfold regenerated. rewrite Hc.
      do 4 (case_bool_decide; [by left|]). clear E2.
      destruct (is_handwritten n) eqn:Eh; simpl.
      2:{ left. destruct (fs_files s !! (core, n)) eqn:Ec; [done|]. eapply C39_other_files; try done. set_solver. }
      destruct (fs_files s !! (src, n)) as [i|] eqn:Es.
      { left. rewrite (C39_handwritten_survive _ _ _ _ H1) by (try done; by apply is_handwritten_spec). rewrite !bool_decide_eq_true_2 by (by eexists). done. }
      rewrite (bool_decide_eq_false_2 (is_Some None)) by (by intros []).
      destruct (fs_files s !! (core, n)) as [i|] eqn:Ec.
      2:{ left. rewrite (C39_other_files _ _ n H1); try done; [|set_solver]. rewrite Es. by destruct (bool_decide _). }
      destruct i as [c|]; [|by apply (rd_files _ R) in Ec].
      assert (Hpre : fs_files s1 !! (src, n) = None \/ exists k, fs_files s1 !! (src, n) = Some (File (take k c))).
      { clear R1 H2 Hm1 Hc. assert (Hpre : fs_files s1 !! (core, n) = Some (File c) /\ (fs_files s1 !! (src, n) = None \/ exists k, fs_files s1 !! (src, n) = Some (File (take k c)))); [|by destruct Hpre].
        assert (Hst : fs_files s !! (core, n) = Some (File c) /\ (fs_files s !! (src, n) = None \/ exists k, fs_files s !! (src, n) = Some (File (take k c)))) by (split; [done|by left]).
        revert H1 Hst.
        apply (keeps_visits (fun s => fs_files s !! (core, n) = Some (File c) /\ (fs_files s !! (src, n) = None \/ exists k, fs_files s !! (src, n) = Some (File (take k c))))).
        assert (Hsame : forall cl s s', fs_files s !! (core, n) = Some (File c) /\ (fs_files s !! (src, n) = None \/ exists k, fs_files s !! (src, n) = Some (File (take k c))) ->
          partially cl s s' -> ~ touches cl src n -> ~ touches cl core n -> fs_files s' !! (core, n) = Some (File c) /\ (fs_files s' !! (src, n) = None \/ exists k, fs_files s' !! (src, n) = Some (File (take k c)))).
        { intros cl sa sb Ha Hp T1 T2. by rewrite (untouched _ _ _ _ _ Hp T1), (untouched _ _ _ _ _ Hp T2). }
        apply is_handwritten_spec in Eh. assert (Hne : n <> bytes "rules.rs" /\ n <> bytes "parser.rs" /\ n <> bytes "main.rs" /\ n <> sample) by (destruct Eh as [->| ->]; done).
        destruct Hne as (Hn1 & Hn2 & Hn3 & Hn4).
        assert (Htr : forall m sa sb cl, fs_files sa !! (core, n) = Some (File c) /\ (fs_files sa !! (src, n) = None \/ exists k, fs_files sa !! (src, n) = Some (File (take k c))) ->
          partially cl sa sb -> cl = CCreate src m \/ cl = CCopy core m src m -> fs_files sb !! (core, n) = Some (File c) /\ (fs_files sb !! (src, n) = None \/ exists k, fs_files sb !! (src, n) = Some (File (take k c)))).
        { intros m sa sb cl Ha Hp Hcl. destruct (decide (m = n)) as [->|Hmn].
          2:{ eapply Hsame; [done|done| |]; destruct Hcl as [->| ->]; simpl; naive_solver. }
          split; [rewrite (untouched _ _ _ _ _ Hp); [apply Ha|]; destruct Hcl as [->| ->]; simpl; naive_solver|].
          destruct Ha as [Ha1 Ha2].
          assert (Ecp : copied core n src n c = c) by (unfold copied; rewrite bool_decide_eq_false_2; [done|]; by intros [= ->]).
          destruct Hcl as [->| ->]; inversion Hp as [|? ? ? ? Hd|? ? ? ? c' k ? Hc'|]; subst; try done; try (inversion Hd; subst).
          - right. exists 0%nat. rewrite lookup_set_eq. done.
          - done.
          - right. assert (c0 = c) as -> by congruence. exists (length c). rewrite lookup_set_eq, Ecp, firstn_all. done.
          - done.
          - right. assert (c' = c) as -> by congruence. exists k. rewrite lookup_set_eq, Ecp. done. }
        apply tool_keeps.
        - intros sa sb Ha Hp. eapply Hsame; [done|done| |]; by intros [].
        - intros sa sb Ha Hp. eapply Hsame; [done|done| |]; simpl; naive_solver.
        - intros m sa sb _ _ Ha Hp. eapply Htr; eauto.
        - intros m sa sb _ _ Ha Hp. eapply Htr; eauto.
        - intros sa sb x Ha Hp. eapply Hsame; [done|done| |]; simpl; naive_solver.
        - intros sa sb x Ha Hp. eapply Hsame; [done|done| |]; simpl; naive_solver.
        - intros sa sb x Ha Hp. eapply Hsame; [done|done| |]; simpl; naive_solver.
        - intros sa sb Ha Hp. eapply Hsame; [done|done| |]; simpl; naive_solver. }
      apply is_handwritten_spec in Eh. destruct Hpre as [Hp|[k Hp]]; rewrite Hp.
      - left. by rewrite bool_decide_eq_false_2 by (by intros []).
      - right. split; [done|]. split; [done|]. exists c, k. split; [done|]. by rewrite bool_decide_eq_true_2 by (by eexists).
    Qed.
  End distinct.
End runs.

(** Every program has a complete run from every state: the theorems about
    complete runs are not about nothing. *)
Lemma call_answers c s : exists s' r, does c s s' r.
Proof.
  destruct c as [d|root src|d|d|d n|d n|d n d' n'|d n c|d n|d n].
  - destruct (decide (d ∈ fs_dirs s)); [exists s, RUnit; by constructor|exists (add_dir s d), RUnit; by constructor].
  - exists s, RUnit. by constructor.
  - eexists _, _. constructor.
  - exists s, (RNames (map (fun kv => snd (fst kv)) (filter (fun kv => fst (fst kv) = d) (map_to_list (fs_files s))))). constructor.
    + apply (NoDup_fmap_2_strong (fun kv : list N * list N * inode => snd (fst kv))).
      * intros [[d1 n1] i1] [[d2 n2] i2] [H1 M1]%elem_of_list_filter [H2 M2]%elem_of_list_filter Heq. simpl in *. subst.
        apply elem_of_map_to_list in M1, M2. congruence.
      * apply list.NoDup_filter, NoDup_map_to_list.
    + intros n. rewrite elem_of_list_fmap. split.
      * intros ([[d1 n1] i] & -> & [<- M]%elem_of_list_filter). apply elem_of_map_to_list in M. simpl. by exists i.
      * intros [i Hi]. exists ((d, n), i). split; [done|]. apply elem_of_list_filter. split; [done|]. by apply elem_of_map_to_list.
  - eexists _, _. constructor.
  - destruct (writable s d n) eqn:E; eexists _, _; by constructor.
  - destruct (fs_files s !! (d, n)) as [[c|]|] eqn:E; [destruct (writable s d' n') eqn:W|..].
    + eexists _, _. by constructor.
    + exists s, RErr. constructor. by right.
    + exists s, RErr. constructor. left. by rewrite E.
    + exists s, RErr. constructor. left. by rewrite E.
  - destruct (writable s d n) eqn:E; eexists _, _; by constructor.
  - destruct (fs_files s !! (d, n)) as [[c|]|] eqn:E; [eexists _, _; by constructor|exists s, RErr; constructor; by rewrite E..].
  - destruct (fs_files s !! (d, n)) as [[c|]|] eqn:E; [eexists _, _; by econstructor|exists s, RErr; constructor; by rewrite E..].
Qed.
(** Whatever the disk looked like (subdirectories where files are expected,
    target and runtime the same directory, ...): success is reported only if
    the template main was really removed from the target at the end. *)
Lemma copy_entries_reaches src core k s' o l : forall s, completes (copy_entries src core l k) s s' o -> exists s1, completes k s1 s' o.
Proof.
  induction l as [|n l IH]; intros s H; [by exists s|]. cbn [copy_entries] in H.
  assert (Hc : forall s, completes (Call (CCreate src n) (fun _ => Call (CCopy core n src n) (fun r => match r with RErr => k | _ => copy_entries src core l k end))) s s' o ->
    exists s1, completes k s1 s' o).
  { clear H s. intros s H. inversion H as [|? ? ? s2 ? r ? _ H1]; subst; clear H. inversion H1 as [|? ? ? s3 ? r2 ? _ H2]; subst; clear H1.
    destruct r2; try (by apply IH in H2). by exists s3. }
  destruct (is_handwritten n); [|by apply Hc in H]. inversion H as [|? ? ? s2 ? r ? _ H1]; subst; clear H.
  destruct r as [| |[]| |]; first [by apply IH in H1|by apply Hc in H1|by exists s2].
Qed.
Theorem C40_finished root src core rules_rs parser_rs header with_cargo s s' :
  completes (generate_data root src core rules_rs parser_rs header with_cargo) s s' Finished ->
  fs_files s' !! (src, bytes "sample_main.txt") = None.
Proof.
  intros H. unfold generate_data in H. inversion H as [|? ? ? s1 ? r ? _ H1]; subst; clear H.
  assert (Hrest : exists s2, completes (copy_dir_contents_to_dir src core (write_generated src core rules_rs parser_rs header)) s2 s' Finished).
  { destruct r; try (by inversion H1); destruct with_cargo; try (by exists s1); inversion H1 as [|? ? ? s2 ? r ? _ H2]; subst; by exists s2. }
  destruct Hrest as [s2 H2]. unfold copy_dir_contents_to_dir in H2. inversion H2 as [|? ? ? s3 ? r1 ? _ H3]; subst; clear H2.
  destruct r1 as [| |[]| |]; try (by inversion H3). inversion H3 as [|? ? ? s4 ? r2 ? _ H4]; subst; clear H3.
  assert (Hw : exists s5, completes (write_generated src core rules_rs parser_rs header) s5 s' Finished).
  { destruct r2; try (by exists s4). by apply copy_entries_reaches in H4. }
  destruct Hw as [s5 H5]. clear - H5. unfold write_generated in H5. inversion H5 as [|? ? ? s6 ? r3 ? _ H6]; subst; clear H5.
  inversion H6 as [|? ? ? s7 ? r4 ? _ H7]; subst; clear H6. inversion H7 as [|? ? ? s8 ? r5 ? _ H8]; subst; clear H7.
  destruct r5; try (by inversion H8). destruct (from_utf8 c); [|by inversion H8].
  inversion H8 as [|? ? ? s9 ? r6 ? _ H9]; subst; clear H8. inversion H9 as [|? ? ? s10 ? r7 ? D H10]; subst; clear H9.
  inversion D; subst; [|by inversion H10]. inversion H10; subst. simpl. by rewrite lookup_delete.
Qed.

Theorem C40_runs p s : exists s' o, completes p s s' o.
Proof.
  revert s. induction p as [o|c k IH]; intros s; [exists s, o; constructor|].
  destruct (call_answers c s) as (s1 & r & Hd). destruct (IH r s1) as (s' & o & H). exists s', o. by econstructor.
Qed.

(** The generator runs before anything is written: when it fails, the disk is
    untouched. *)
Theorem C40_generator_failure root src core header with_cargo s s' :
  visits (run_tool root src core header with_cargo None) s s' -> s' = s.
Proof. intros H. by inversion H. Qed.

(** ** Regenerating the runtime in place destroys it *)
Section in_place.
  Context (root src rules_rs parser_rs header : list N) (with_cargo : bool) (Hroot : src <> root).
  Notation tool := (generate_data root src src rules_rs parser_rs header with_cargo).
  Lemma copy_self_completes k s' o : forall l s, NoDup l -> src ∈ fs_dirs s ->
    (forall n, n ∈ l -> exists c, fs_files s !! (src, n) = Some (File c)) ->
    completes (copy_entries src src l k) s s' o ->
    exists s1, completes k s1 s' o /\ fs_dirs s1 = fs_dirs s /\
      forall n, fs_files s1 !! (src, n) = if bool_decide (n ∈ l) && negb (is_handwritten n) then Some (File []) else fs_files s !! (src, n).
  Proof using.
    induction l as [|m l IH]; intros s Hnd Hsrc Hco H.
    { exists s. split; [done|]. split; [done|]. intros n. rewrite bool_decide_eq_false_2; [done|by intros ?%elem_of_nil]. }
    apply list.NoDup_cons in Hnd as [Hm Hnd]. cbn [copy_entries] in H. destruct (Hco m (elem_of_list_here _ _)) as [cm Hcm].
    assert (Hin : forall n, n <> m -> bool_decide (n ∈ m :: l) = bool_decide (n ∈ l)).
    { intros n Hne. apply bool_decide_ext. rewrite elem_of_cons. split; [by intros [|]|by right]. }
    destruct (is_handwritten m) eqn:Eh.
    - inversion H as [|c0 k0 ? s2 ? r0 ? D0 Hc]; subst. inversion D0; subst. rewrite bool_decide_eq_true_2 in Hc by (rewrite Hcm; by eexists).
      destruct (IH s2) as (s1 & H1 & H2 & H4); try done; [intros; apply Hco; by right|]. exists s1. split_and!; try done.
      intros n. rewrite H4. destruct (decide (n = m)) as [->|Hne]; [|by rewrite Hin]. by rewrite Eh, !andb_false_r.
    - inversion H as [|c1 k1 ? s2 ? r1 ? D1 Hc1]; subst; clear H.
      assert (W : forall i, fs_files s !! (src, m) = Some (File i) -> writable s src m = true).
      { intros i Hi. unfold writable. by rewrite Hi, bool_decide_eq_true_2. }
      inversion D1 as [| | | | | |? ? ? W1|? ? ? W1| | | | | | | |]; subst; [|by rewrite (W _ Hcm) in W1].
      inversion Hc1 as [|c2 k2 ? s3 ? r2 ? D2 Hc2]; subst; clear Hc1.
      assert (W2 : writable (set_file s src m (File [])) src m = true).
      { unfold writable. rewrite lookup_set_eq. by rewrite bool_decide_eq_true_2. }
      assert (Hcm' : fs_files (set_file s src m (File [])) !! (src, m) = Some (File [])) by (by rewrite lookup_set_eq).
      inversion D2 as [| | | | | | | |? ? ? ? c ? Hc W'|? ? ? ? ? [Hc|W']| | | | | |]; subst; [| by destruct (Hc [])|congruence].
      assert (Ecp : copied src m src m c = []) by (unfold copied; by rewrite bool_decide_eq_true_2).
      rewrite Ecp in *. set (s3 := set_file (set_file s src m (File [])) src m (File [])) in *.
      assert (Hs3 : forall n, n <> m -> fs_files s3 !! (src, n) = fs_files s !! (src, n)).
      { intros n Hne. subst s3. rewrite !lookup_set; congruence. }
      assert (Hs3m : fs_files s3 !! (src, m) = Some (File [])) by (subst s3; by rewrite lookup_set_eq).
      destruct (IH s3) as (s1 & H1 & H2 & H4); try done.
      { intros n Hn. rewrite Hs3; [apply Hco; by right|]. by intros ->. }
      exists s1. split_and!; try done. intros n. rewrite H4. destruct (decide (n = m)) as [->|Hne].
      + rewrite Hs3m, Eh. rewrite (bool_decide_eq_true_2 (m ∈ m :: l)) by (apply elem_of_list_here). by destruct (bool_decide _).
      + by rewrite Hs3, Hin.
  Qed.
  (** Every file of the runtime that is neither generated nor hand-written is
      empty after a complete run. *)
  Theorem C40_in_place s s' o n i : src ∈ fs_dirs s -> (forall n, fs_files s !! (src, n) <> Some Subdir) ->
    completes tool s s' o -> fs_files s !! (src, n) = Some i -> ~ handwritten n ->
    n ∉ [bytes "rules.rs"; bytes "parser.rs"; bytes "main.rs"; bytes "sample_main.txt"] ->
    fs_files s' !! (src, n) = Some (File []).
  Proof using Hroot.
    intros Rs Rf H Hi Hh Ho. rewrite !not_elem_of_cons in Ho. destruct Ho as (Ho1 & Ho2 & Ho3 & Ho4 & _).
    unfold generate_data in H. inversion H as [|c1 k1 ? sa ? r1 ? D1 H1]; subst; clear H.
    assert (Hr1 : r1 = RUnit /\ fs_files sa = fs_files s /\ forall d, d ∈ fs_dirs s -> d ∈ fs_dirs sa) by (inversion D1; subst; simpl; set_solver).
    destruct Hr1 as (-> & Ea & Da). clear D1. cbv zeta in H1.
    assert (Hb : exists sb, completes (copy_dir_contents_to_dir src src (write_generated src src rules_rs parser_rs header)) sb s' o /\
      src ∈ fs_dirs sb /\ fs_files sb !! (src, n) = Some i /\ (forall n, fs_files sb !! (src, n) <> Some Subdir)).
    { destruct with_cargo.
      - inversion H1 as [|c2 k2 ? sb ? r2 ? D2 H2]; subst; clear H1. exists sb. split; [done|].
        inversion D2 as [| |? ? ? ? F1 F2 F3| | | | | | | | | | | | |]; subst. rewrite Ea in *. split_and!; [auto| |].
        + rewrite F1; [done|done|]. right. by left.
        + intros m Hm. destruct (decide (m = bytes "main.rs")) as [->|Hne]; [by apply F2, Rf in Hm|]. rewrite F1 in Hm; [by apply Rf in Hm|done|]. right. by left.
      - exists sa. rewrite Ea. auto. }
    destruct Hb as (sb & Hb & Db & Fi & Fr). clear H1.
    unfold copy_dir_contents_to_dir in Hb. inversion Hb as [|c1 k1 ? sc ? r1 ? D1 H1]; subst; clear Hb.
    inversion D1; subst; clear D1. rewrite bool_decide_eq_true_2 in H1 by done.
    inversion H1 as [|c2 k2 ? sd ? r2 ? D2 H2]; subst; clear H1.
    inversion D2 as [| | | |? ? l Hnd Hl| | | | | | | | | | |]; subst; clear D2. rename sd into sb.
    apply copy_self_completes in H2; [|done|done|].
    2:{ intros m Hm. apply Hl in Hm as [j Hj]. destruct j as [c|]; [|by apply Fr in Hj]. by exists c. }
    destruct H2 as (s1 & H2 & _ & F1).
    assert (Hk : keeps (fun s => fs_files s !! (src, n) = Some (File [])) (write_generated src src rules_rs parser_rs header)).
    { assert (Hs : forall c s s', fs_files s !! (src, n) = Some (File []) -> partially c s s' -> ~ touches c src n -> fs_files s' !! (src, n) = Some (File [])).
      { intros c x y Hx Hp Ht. by rewrite (untouched _ _ _ _ _ Hp Ht). }
      unfold write_generated. constructor; [intros; eapply Hs; [done|done|]; simpl; naive_solver|]. intros ? _.
      constructor; [intros; eapply Hs; [done|done|]; simpl; naive_solver|]. intros ? _.
      constructor; [intros; eapply Hs; [done|done|]; simpl; naive_solver|]. intros [] _; try constructor.
      destruct (from_utf8 c); [|constructor].
      constructor; [intros; eapply Hs; [done|done|]; simpl; naive_solver|]. intros ? _.
      constructor; [intros; eapply Hs; [done|done|]; simpl; naive_solver|]. intros [] _; constructor. }
    refine (keeps_visits _ _ _ _ Hk (completes_visits _ _ _ _ H2) _). rewrite F1, bool_decide_eq_true_2 by (apply Hl; rewrite Fi; by eexists).
    destruct (is_handwritten n) eqn:Eh; [by apply is_handwritten_spec in Eh|done].
  Qed.
End in_place.

(** ** A concrete package *)
Definition pkg : list N := bytes "examples/p".
Definition pkg_src : list N := bytes "examples/p/src".
Definition runtime : list N := bytes "parser/src".
Definition disk0 : fsys := FS {[pkg; pkg_src; runtime]}
  (list_to_map [((runtime, bytes "lib.rs"), File (bytes "mod cache;")); ((runtime, bytes "user_state.rs"), File (bytes "pub struct UserState {}"));
    ((runtime, bytes "sample_main.txt"), File (bytes "fn main() {}")); ((pkg_src, bytes "lib.rs"), File (bytes "old")); ((pkg_src, bytes "notes.txt"), File (bytes "mine"))]).
Notation tool0 := (generate_data pkg pkg_src runtime (bytes "enum") (bytes "fns") (bytes "use p;") false).
Lemma disk0_no_dir k : fs_files disk0 !! k <> Some Subdir.
Proof.
  unfold disk0. simpl. intros H. repeat (apply lookup_insert_Some in H as [[_ H]|[_ H]]; [done|]). by rewrite lookup_empty in H.
Qed.
Theorem C40_disk0_ready : ready pkg_src runtime disk0 /\ fs_files disk0 !! (runtime, bytes "sample_main.txt") = Some (File (bytes "fn main() {}")) /\ from_utf8 (bytes "fn main() {}") = true.
Proof. split; [|by vm_compute]. split; [simpl; set_solver|simpl; set_solver|intros; apply disk0_no_dir|intros; apply disk0_no_dir]. Qed.

(** ** A crash can leave an empty hand-written file for good *)
(** Killed between creating user_state.rs and copying into it; every later
    complete run keeps the empty file, although the runtime's is not empty. *)
Theorem C40_crash_truncates : exists s1, visits tool0 disk0 s1 /\
  forall s2 o, completes tool0 s1 s2 o -> fs_files s2 !! (pkg_src, bytes "user_state.rs") = Some (File []) /\
    regenerated pkg_src runtime (bytes "enum") (bytes "fns") (bytes "use p;") disk0 (bytes "fn main() {}") (bytes "user_state.rs") = Some (File (bytes "pub struct UserState {}")).
Proof.
  assert (Hn : forall n, n ∈ [bytes "user_state.rs"; bytes "lib.rs"; bytes "sample_main.txt"] <-> is_Some (fs_files disk0 !! (runtime, n))).
  { intros n. unfold disk0. simpl. rewrite !elem_of_cons. split.
    - intros [->|[->|[->|H]]]; [..|by apply elem_of_nil in H]; vm_compute; by eexists.
    - intros [i H]. apply lookup_insert_Some in H as [[[= <-] _]|[_ H]]; [auto|].
      apply lookup_insert_Some in H as [[[= <-] _]|[_ H]]; [auto|].
      apply lookup_insert_Some in H as [[[= <-] _]|[_ H]]; [auto|].
      apply lookup_insert_Some in H as [[E _]|[_ H]]; [done|].
      apply lookup_insert_Some in H as [[E _]|[_ H]]; [done|]. by rewrite lookup_empty in H. }
  exists (set_file disk0 pkg_src (bytes "user_state.rs") (File [])). split.
  - eapply vi_call; [apply do_mkdir_exists; simpl; set_solver|]. cbv zeta iota. eapply vi_call; [constructor|].
    rewrite bool_decide_eq_true_2 by (simpl; set_solver). eapply vi_call; [apply do_list; [|exact Hn]; apply (bool_decide_unpack _); by vm_compute|].
    cbn [copy_entries]. replace (is_handwritten (bytes "user_state.rs")) with true by done.
    eapply vi_call; [constructor|]. replace (bool_decide (is_Some (fs_files disk0 !! (pkg_src, bytes "user_state.rs")))) with false by (by vm_compute).
    eapply vi_call; [apply do_create; by vm_compute|]. constructor.
  - intros s2 o H. split; [|by vm_compute]. eapply C39_handwritten_survive; [|by eapply completes_visits|by right|by rewrite lookup_set_eq]. done.
Qed.
