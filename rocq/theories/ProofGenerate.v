(** From the file to the generated code. *)
From Verif Require Import SpecUtf8 SpecLeft SpecCompile SpecGenerator ProofPeg ProofTree ProofTrace ProofDsl ProofBuild ProofRules ProofSymbols ProofUtf8 ProofGraph ProofLeft.
From Verif Require Import TheoremsKernel TheoremsPackrat TheoremsTotal Checks SpecSession ProofTree2.
From Coq Require Import Sorted.
From stdpp Require Import relations gmap.
Local Open Scope N_scope.

(** ** Reading the tree *)
Lemma gen_read_tree fuel p : forall k t, GenTree.read_tree fuel p k = Ok t -> unfolds nothing p k t.
Proof.
  induction fuel as [|fuel IH]; intros k t H; [done|]. cbn [GenTree.read_tree] in H.
  unfold get_node in H. destruct (p_nodes p !! k) as [n|] eqn:En; cbn [rbind] in H; [|done].
  apply rbind_Ok_inv in H as (F & HF & H). injection H as <-. apply unf; [by intros []|done|].
  clear En. revert F HF. induction (n_children n) as [|c l IHl]; intros F HF.
  - injection HF as <-. constructor.
  - apply rbind_Ok_inv in HF as (t & Ht & HF). apply rbind_Ok_inv in HF as (G & HG & HF). injection HF as <-.
    constructor; [by apply IH|by apply IHl].
Qed.
Fixpoint theight (t : ptree) : nat := let 'TNode _ _ _ _ F := t in S (list_max (map theight F)).
Lemma list_max_cons x l : list_max (x :: l) = Nat.max x (list_max l).
Proof. done. Qed.
Lemma gen_read_tree_total O p : forall k t, unfolds O p k t -> forall fuel, (theight t <= fuel)%nat -> GenTree.read_tree fuel p k = Ok t.
Proof.
  enough (H : forall n k t, (theight t <= n)%nat -> unfolds O p k t -> forall fuel, (theight t <= fuel)%nat -> GenTree.read_tree fuel p k = Ok t).
  { intros k t Hu fuel Hf. by eapply (H (theight t)). }
  induction n as [|n IH]; intros k [l i j b F] Hn Hu fuel Hf; [simpl in Hn; lia|].
  destruct fuel as [|fuel]; [simpl in Hf; lia|]. inversion Hu as [k' nd F' HO Hk HL]; subst. cbn [GenTree.read_tree]. unfold get_node.
  rewrite Hk. cbn [rbind].
  enough (E : (fix go (l : list N) : res (list ptree) :=
       match l with
       | [] => Ok []
       | c :: l => let! t := GenTree.read_tree fuel p c in let! F := go l in Ok (t :: F)
       end) (n_children nd) = Ok F) by (by rewrite E).
  clear Hk Hu. assert (HF : (list_max (map theight F) <= n)%nat) by (simpl in Hn; lia).
  assert (HF' : (list_max (map theight F) <= fuel)%nat) by (simpl in Hf; lia). clear Hn Hf.
  revert F HL HF HF'. induction (n_children nd) as [|c ks IHl]; intros F HL HF HF'; inversion HL; subst; [done|].
  cbn [map] in HF, HF'. rewrite list_max_cons in HF, HF'. rewrite (IH c t) by (done || lia). cbn [rbind]. rewrite (IHl F0); [done|done|lia|lia].
Qed.

(** ** The DSL grammar from the entry the generator uses *)
Definition gen_entry : expr := EInline dsl_f_grammar.
Lemma gen_entry_ok : expr_ok dsl_program dsl_fn gen_entry.
Proof. apply expr_okb_ok. vm_compute. done. Qed.
Lemma gen_entry_wf : expr_wf dsl_program dsl_fn gen_entry.
Proof. apply expr_ok_wf. apply gen_entry_ok. Qed.

Section file.
  Context (s : list N) (Hs : N.of_nat (length s) < u32_modulus).

  Lemma inline_grammar i j F : trace dsl_g s (PRef None dsl_f_grammar) i (Some j) F ->
    trace dsl_g s (PRef (Some dsl_R_Grammar) dsl_f_grammar) i (Some j) [TNode dsl_R_Grammar i j true F].
  Proof. intros H. apply tr_inline_inv in H as (body & Hb & H). by apply (tr_ref _ _ (Some dsl_R_Grammar) _ _ _ _ _ Hb H). Qed.

  Lemma stopped_at fuel b q st : run_entry dsl_program tt fuel gen_entry s = Ok ((b, q), st) -> b = false -> q = 0.
  Proof using Hs.
    intros H Hb. unfold run_entry in H.
    eapply (C01_positions dsl_program dsl_fn s tt) in H as [H1 H2]; [by apply H1|exact Hs| | | |exact gen_entry_wf|lia].
    - apply program_ok_wf. apply dsl_ok.
    - apply table_no_hooks.
    - constructor.
  Qed.

  Lemma file_tree fuel fuel' b q st p' : run_entry dsl_program tt fuel gen_entry s = Ok ((b, q), st) ->
    q = N.of_nat (length s) -> clear_false fuel' dsl_R_Grammar (cx_pub (st_ctx st)) = Ok p' ->
    exists ts rules, denotes p' (TNode dsl_R_Grammar 0 0 true ts) /\ Forall2 (rule_rep s) ts rules /\ file_or_empty s rules.
  Proof using Hs.
    intros Hr Hq Hc.
    destruct (C15_tree_is_trace dsl_program dsl_fn s tt Hs dsl_ok gen_entry fuel b q st gen_entry_ok Hr) as (F & Hd & Ht).
    pose proof (C17_any_answer _ _ _ _ _ _ _ _ Hd Hc) as Hd'.
    destruct b.
    - assert (Hlt : 0 < q). { eapply (tr_lt s). { exact Ht. } vm_compute. done. }
      apply inline_grammar in Ht. apply (tr_grammar s) in Ht as (ts & rules & k & Hp & Hne & HF & H1 & H2).
      rewrite prune_ok in Hp by done. injection Hp as <-. exists (prune_forest F), rules. split; [done|]. split; [done|].
      left. exists k. rewrite <- Hq. done.
    - pose proof (stopped_at _ _ _ _ Hr eq_refl) as Hq0. assert (s = []) as ->.
      { destruct s; [done|]. simpl in Hq. lia. }
      exists (prune_forest F), []. split; [done|].
      assert (E : prune_forest F = []).
      { destruct (prune_forest F) as [|t G] eqn:E; [done|]. exfalso.
        assert (Hin : t ∈ prune_forest F) by (rewrite E; by left).
        apply prune_forest_elem in Hin as (u & Hu & Hk & _).
        destruct (raw_nodes dsl_program dsl_fn [] Hs dsl_ok gen_entry gen_entry_ok F _ u u Ht Hu (sub_refl u)) as [_ Hb].
        unfold keep in Hk. apply andb_true_iff in Hk as [_ Hk]. apply negb_true_iff, N.eqb_neq in Hk. simpl in Hb. lia. }
      rewrite E. split; [constructor|]. by right.
  Qed.
End file.

(** ** Orders *)
Lemma lex_leb a b : lex_le a b <-> bytes_leb a b = true.
Proof.
  unfold lex_le. split.
  - intros [->|H].
    + induction b as [|x b IH]; [done|]. simpl. rewrite N.ltb_irrefl. done.
    + induction H as [c l|a b l m H|a l m H IH]; simpl; [done| |].
      * apply N.ltb_lt in H. by rewrite H.
      * by rewrite N.ltb_irrefl.
  - revert b. induction a as [|x a IH]; intros [|y b] H; simpl in H; try done; [by left|right; constructor|].
    destruct (N.ltb_spec x y); [right; by constructor|]. destruct (N.ltb_spec y x); [done|].
    assert (x = y) as -> by lia. destruct (IH _ H) as [->|?]; [by left|right; by constructor].
Qed.
Lemma lex_irrefl a : ~ lex_lt a a.
Proof. induction a as [|x a IH]; inversion 1; subst; [lia|auto]. Qed.
Lemma lex_ltb a b : lex_lt a b <-> bytes_lt a b.
Proof.
  unfold bytes_lt. rewrite <- lex_leb. unfold lex_le. split.
  - intros H. split; [by right|]. intros ->. by apply lex_irrefl in H.
  - intros [[->|?] ?]; done.
Qed.
Lemma sorted_impl {A} (R S : A -> A -> Prop) l : (forall a b, R a b -> S a b) -> StronglySorted R l -> StronglySorted S l.
Proof.
  intros H. induction 1 as [|x l Hl IH Hx]; constructor; [done|]. eapply list.Forall_impl; [exact Hx|]. apply H.
Qed.
Lemma sorted_filter {A} (R : A -> A -> Prop) (P : A -> Prop) `{!forall x, Decision (P x)} l : StronglySorted R l -> StronglySorted R (filter P l).
Proof.
  induction 1 as [|x l Hl IH Hx]; [constructor|]. rewrite filter_cons. destruct (decide (P x)); [|done]. constructor; [done|].
  apply list.Forall_forall. intros y [_ Hy]%elem_of_list_filter. rewrite list.Forall_forall in Hx. auto.
Qed.

Lemma upper_idem c : upper (upper c) = upper c.
Proof.
  unfold upper. destruct ((97 <=? c) && (c <=? 122)) eqn:E; [|by rewrite E].
  apply andb_true_iff in E as [E1%N.leb_le E2%N.leb_le].
  destruct ((97 <=? c - 32) && (c - 32 <=? 122)) eqn:E'; [|done]. apply andb_true_iff in E' as [E3%N.leb_le E4%N.leb_le]. lia.
Qed.
Lemma first_upper_idem n : first_upper (first_upper n) = first_upper n.
Proof. destruct n as [|c n]; [done|]. simpl. by rewrite upper_idem. Qed.
Lemma variants_eq (S : name_set) : variants S = sort_names (map first_upper (elements S)).
Proof.
  unfold variants. assert (HF : Forall (fun n => first_upper n = n) (sort_names (map first_upper (elements S)))).
  { rewrite sort_names_perm. apply list.Forall_fmap. apply list.Forall_forall. intros n _. simpl. apply first_upper_idem. }
  revert HF. generalize (sort_names (map first_upper (elements S))). induction l as [|n l IH]; [done|].
  intros [H1 H2]%list.Forall_cons. simpl. rewrite H1, IH by done. done.
Qed.

(** ** The code *)
Section code.
  Context (s : list N) (Hu : utf8 s) (rules : list drule) (ts : list ptree) (Hts : Forall2 (rule_rep s) ts rules).
  Context (i j : N) (b : bool).
  Notation tree := (TNode dsl_R_Grammar i j b ts).

  Lemma sym_spec sym : symbol_table_new s tree = Ok sym ->
    StronglySorted lex_lt (sy_names sym) /\ (forall n, n ∈ sy_names sym <-> declared_name rules n) /\
    (forall n, check_symbol_is_inline sym n = true <-> declared_inline rules n).
  Proof using Hts.
    unfold symbol_table_new. cbn [t_label t_children]. change (negb (dsl_R_Grammar =? dsl_R_Grammar)) with false. cbv iota.
    intros H. apply rbind_Ok_inv in H as (st & H & E). injection E as <-. apply (symbol_children_eq s _ _ _ _ Hts) in H as ->.
    cbn [sy_names sy_inline]. rewrite declare_names. cbn [sy_names app]. split; [|split].
    - eapply sorted_impl; [|apply dedup_sorted, sort_names_sorted]. intros x y. apply lex_ltb.
    - intros n. rewrite dedup_elem, sort_names_perm. rewrite elem_of_list_fmap. unfold declared_name.
      split; intros (r & H1 & H2); exists r; (split; [|done]); done.
    - intros n. unfold check_symbol_is_inline. cbn [sy_inline]. rewrite bool_decide_eq_true, declare_inline. cbn [sy_inline].
      unfold declared_inline. split; [intros [H|H]; [by apply elem_of_empty in H|done]|by right].
  Qed.

  Lemma involved_spec fuel ho lr : orders_ok ho -> left_recursion_rules fuel ho s tree = Ok lr ->
    forall n, match involved_of lr n with
               | Some l => left_recursive rules n /\ involved_variants rules n l
               | None => ~ left_recursive rules n end.
  Proof using Hu Hts.
    intros Hho H n. destruct (detector_spec s Hu rules ho Hho i j b ts Hts fuel lr H) as (_ & H1 & H2).
    unfold involved_of. specialize (H1 n). destruct (lr !! n) as [S|] eqn:E; cbn [fmap option_fmap option_map].
    - split; [apply H1; by eauto|]. exists (elements S). split; [apply NoDup_elements|]. split.
      + intros m. rewrite elem_of_elements. by apply (H2 _ _ E).
      + rewrite variants_eq. split; [apply sort_names_perm|]. eapply sorted_impl; [|apply sort_names_sorted].
        intros x y. apply lex_leb.
    - intros HL. apply H1 in HL as [? ?]. done.
  Qed.

  Lemma code_spec fuel fuel' ho sym lr c : orders_ok ho -> symbol_table_new s tree = Ok sym ->
    left_recursion_rules fuel ho s tree = Ok lr -> generated_code_new fuel' lr sym s tree = Ok c ->
    generated_for rules c /\ Forall (fun r => Forall (fun c => c <> []) (dr_comments r)) rules.
  Proof using Hu Hts.
    intros Hho Hsym Hlr H. destruct (sym_spec _ Hsym) as (Hs1 & Hs2 & Hs3). pose proof (involved_spec _ _ _ Hho Hlr) as Hinv.
    unfold generated_code_new in H. apply rbind_Ok_inv in H as ([fns imports] & Hg & H). apply rbind_Ok_inv in H as (enum & He & H).
    injection H as <-. unfold generate in Hg. cbn [t_label t_children] in Hg. change (negb (dsl_R_Grammar =? dsl_R_Grammar)) with false in Hg. cbv iota in Hg.
    apply (generate_loop_correct lr sym s _ _ _ _ _ _ Hts) in Hg as (-> & Hfn & Hc). split; [|done].
    constructor.
    - exists (involved_of lr), (check_symbol_is_inline sym). split; [by split|]. cbn [gc_fns].
      eapply Forall2_impl; [exact Hfn|]. intros r f [H1 H2 H3]. constructor; [done|done|]. apply H3.
    - done.
    - cbn [gc_enum]. unfold generate_rules_enum in He. apply map_rule_name in He as [-> _].
      exists (filter (fun n => check_symbol_is_inline sym n = false) (sy_names sym)). split; [by apply sorted_filter|]. split; [|done]. intros n. rewrite elem_of_list_filter, Hs2, <- Hs3.
      destruct (check_symbol_is_inline sym n); split; intros [? ?]; (split; done || tauto).
    - done.
  Qed.
End code.

Lemma as_u32_small n : n < u32_modulus -> as_u32 n = n.
Proof. unfold as_u32. intros H. by apply N.mod_small. Qed.
Theorem generate_spec fuel ho s c : N.of_nat (length s) < u32_modulus -> utf8 s -> orders_ok ho ->
  generate_parser fuel ho s = Ok (GCode c) ->
  exists rules, file_or_empty s rules /\ generated_for rules c /\ Forall (fun r => Forall (fun c => c <> []) (dr_comments r)) rules.
Proof.
  intros Hs Hu Hho H. unfold generate_parser in H. change (EInline dsl_f_grammar) with gen_entry in H.
  destruct (run_entry dsl_program tt fuel gen_entry s) as [[[b q] st]| |] eqn:Er; cbn [rbind] in H; [|clear Er; by inversion H|clear Er; by inversion H].
  destruct (N.eqb_spec q (as_u32 (N.of_nat (length s)))) as [Hq|Hq]; cbn [negb] in H.
  2: { destruct (count_lines s q); by inversion H. }
  rewrite as_u32_small in Hq by done.
  apply rbind_Ok_inv in H as (p & Hc & H). apply rbind_Ok_inv in H as (tree & Hr & H). apply rbind_Ok_inv in H as (sym & Hsym & H).
  apply rbind_Ok_inv in H as (lr & Hlr & H). apply rbind_Ok_inv in H as (code & Hcode & H). injection H as ->.
  destruct (file_tree s Hs _ _ _ _ _ _ Er Hq Hc) as (ts & rules & Hd & HF & Hfile).
  apply gen_read_tree in Hr. destruct (unfolds_det nothing nothing p) as [Hdet _]. pose proof (Hdet _ _ Hd _ Hr) as E. subst tree.
  exists rules. split; [done|]. by eapply code_spec.
Qed.
