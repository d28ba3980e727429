(** Theorems C47: from the text of a grammar file to what the generated parser
    does. *)
From Verif Require Import SpecGenerator SpecMeaning SpecProgram SpecCfg SpecSession SpecLR SpecTerm ProofPeg ProofTree ProofTree2 ProofSafe ProofMeaning Checks.
From Verif Require Import TheoremsKernel TheoremsPackrat TheoremsTotal TheoremsLR TheoremsGenerator Programs.
From stdpp Require Import relations gmap.
Local Open Scope N_scope.

(** The crate generated from a grammar file: [file] spells [rules], the
    generator wrote [c] for it, and rustc accepts [c] as the functions [table]
    (in the order of the rules). *)
Record crate_of (file : list N) (rules : list drule) (c : gen_code) (table : list expr) : Prop := {
  cr_fits : fits file;
  cr_generated : exists fuel ho, orders_ok ho /\ generate_parser fuel ho file = Ok (GCode c);
  cr_rules : file_or_empty file rules;
  cr_table : code_table c = Some table }.
(** The files the meaning theorems are about: every reference is declared, no
    hooks, and none of the literals the generator gets wrong. *)
Record regular (rules : list drule) : Prop := {
  re_declared : refs_declared rules;
  re_hooks : hook_free rules;
  re_literals : forall r, r ∈ rules -> plain_literals (dr_body r) = true }.
(** How a rule is started: its function, or [_var_name] with its variant. *)
Definition entry_for (rules : list drule) (c : gen_code) (n : name) (entry : expr) : Prop :=
  exists k r, rules !! k = Some r /\ dr_name r = n /\
    (entry = EInline (N.of_nat k) \/ exists v, gc_enum c !! v = Some (first_upper n) /\ entry = EVar (N.of_nat v) (N.of_nat k)).

(** ** The meaning of a file is a function of file, rule and input. *)
Section det.
  Context (rules : list drule) (s : list N).
  Ltac lits := match goal with H : literal _ = Some _ |- _ => discriminate H end.
  Ltac use := repeat match goal with
     | IH : forall o, means _ _ ?e ?i o -> _ = o, H : means _ _ ?e ?i _ |- _ => apply IH in H
     | IH : forall o, means_seq _ _ ?e ?i o -> _ = o, H : means_seq _ _ ?e ?i _ |- _ => apply IH in H
     | IH : forall o, means_alt _ _ ?e ?i o -> _ = o, H : means_alt _ _ ?e ?i _ |- _ => apply IH in H
     | H : Some ?a = Some ?b |- _ => injection H as ->
     | H : Some _ = None |- _ => discriminate H
     | H : None = Some _ |- _ => discriminate H
     end.
  Lemma means_det_all :
    (forall e i o, means rules s e i o -> forall o', means rules s e i o' -> o = o') /\
    (forall es i o, means_seq rules s es i o -> forall o', means_seq rules s es i o' -> o = o') /\
    (forall es i o, means_alt rules s es i o -> forall o', means_alt rules s es i o' -> o = o').
  Proof.
    apply means_mutind; intros;
    try (match goal with H : literal ?e = Some _ |- _ => destruct e; try discriminate H; 
       match goal with H' : means _ _ _ _ _ |- _ => inversion H'; subst; clear H'; try congruence; try contradiction end end; fail);
    try (match goal with H' : means _ _ _ _ ?o' |- _ = ?o' => inversion H'; subst; clear H' | H' : means_seq _ _ _ _ ?o' |- _ = ?o' => inversion H'; subst; clear H'| H' : means_alt _ _ _ _ ?o' |- _ = ?o' => inversion H'; subst; clear H' end;
     try lits; use; try done; try congruence).
    all: try (simplify_eq; naive_solver).
  Qed.
  Theorem C47_functional e i o o' : means rules s e i o -> means rules s e i o' -> o = o'.
  Proof using. intros H. by apply means_det_all. Qed.
End det.

Section labels.
  Fixpoint plabels (p : pexp) : list N :=
    match p with
    | PChar _ | PStr _ | PRange _ _ => []
    | PSeq a b | PAlt a b => plabels a ++ plabels b
    | PAnd e | PNot e | PPlus e | PStar e | POpt e => plabels e
    | PRef l _ => match l with Some r => [r] | None => [] end
    end.
  Lemma plabels_of e : plabels (pexp_of e) = labels e.
  Proof. induction e; simpl; congruence || done. Qed.
  Lemma trace_labels g s (R : gset N) : (forall A body, g A = Some body -> forall r, r ∈ plabels body -> r ∈ R) ->
    forall p i o F, trace g s p i o F -> (forall r, r ∈ plabels p -> r ∈ R) -> forall w v, w ∈ F -> subtree v w -> t_label v ∈ R.
  Proof.
    intros Hg p i o F H. induction H as [ | | | | | |? ? ? ? ? ? ? _ IH1 _ IH2| |e1 e2 i j F1 _ IH1|? ? ? ? ? ? _ IH1 _ IH2| | | | | |? ? ? ? ? ? _ IH1 _ IH2| |? ? ? ? ? ? _ IH1 _ IH2| | |l A body i o F HA _ IH];
      simpl; intros Hl w v Hw Hv; try (by apply elem_of_nil in Hw); try (eapply IH1 || eapply IHtrace; [|exact Hw|exact Hv]; intros r Hr; apply Hl; try apply elem_of_app; auto; fail);
      try (apply elem_of_app in Hw as [Hw|Hw]; [eapply IH1|eapply IH2]; [|exact Hw|exact Hv| |exact Hw|exact Hv]; intros r Hr; apply Hl; simpl; try apply elem_of_app; auto; fail).
    unfold record in Hw. destruct l as [lb|]; [|by eapply (IH (Hg _ _ HA))].
    apply elem_of_list_singleton in Hw as ->. unfold node_of in Hv. destruct o; inversion Hv; subst;
      try (apply Hl; by apply elem_of_list_singleton); by eapply (IH (Hg _ _ HA)).
  Qed.
End labels.

Section meaning.
  Context (file : list N) (rules : list drule) (c : gen_code) (table : list expr).
  Context (Hcr : crate_of file rules c table) (Hreg : regular rules).
  Context (gr : N).
  Notation pr := (table_program table gr : program unit).

  (** What C36 and C38 say about the crate. *)
  Lemma crate_parts : exists involved is_inline, refs_resolved rules involved is_inline /\ enum_for rules (gc_enum c) /\
    let fns := map (fun r => to_lowercase (dr_name r)) rules in let hooks := concat (map (fun r => hooks_of (dr_body r)) rules) in
    NoDup fns /\ all_some (map (fun r => compile (Scope fns (gc_enum c) hooks) involved is_inline (dr_body r)) rules) = Some table.
  Proof using Hcr.
    destruct Hcr as [Hfit (fuel & ho & Hho & Hg) Hf Ht].
    pose proof (C38_code file Hfit fuel ho rules c Hho Hg Hf) as [(inv & inl & Hr & HF) Him Hen Hsz].
    exists inv, inl. split; [done|]. split; [done|]. cbv zeta.
    assert (Efn : map gf_name (gc_fns c) = map (fun r => to_lowercase (dr_name r)) rules).
    { clear -HF. induction HF as [|r f rs fs [H _ _] _ IH]; [done|]. simpl. by rewrite H, IH. }
    unfold code_table in Ht. rewrite Efn, Him in Ht. destruct (decide _) as [Hn|]; [|done]. split; [by destruct Hn as [[? _]%NoDup_app _]|].
    rewrite <- Ht. symmetry. unfold scope_of. rewrite Efn, Him. eapply (all_some_forall2 _ _ _ _ _ HF).
    intros r f [_ _ H3]. unfold scope_of in H3. rewrite Efn, Him in H3. exact H3.
  Qed.

  Lemma enum_nodup : NoDup (gc_enum c).
  Proof using Hcr.
    destruct Hcr as [_ _ _ Ht]. unfold code_table in Ht. destruct (decide _) as [(_ & H & _)|]; done.
  Qed.
  Lemma enum_index_at v n : gc_enum c !! v = Some n -> index_of n (gc_enum c) = Some (N.of_nat v).
  Proof using Hcr.
    intros Hv. destruct (index_of_in n (gc_enum c)) as [i Hi]; [by eapply elem_of_list_lookup_2|].
    rewrite Hi. apply index_of_lookup in Hi. pose proof (NoDup_lookup _ _ _ _ enum_nodup Hv Hi) as ->. f_equal. lia.
  Qed.

  Section with_parts.
    Context (involved : name -> option (list name)) (is_inline : name -> bool) (Hres : refs_resolved rules involved is_inline).
    Context (Hen : enum_for rules (gc_enum c)).
    Notation fns := (map (fun r => to_lowercase (dr_name r)) rules).
    Notation hooks := (concat (map (fun r => hooks_of (dr_body r)) rules)).
    Context (Hnd : NoDup fns).
    Context (Htab : all_some (map (fun r => compile (Scope fns (gc_enum c) hooks) involved is_inline (dr_body r)) rules) = Some table).
    Notation fn := (label_fn rules (gc_enum c)).
    Notation R := (label_set (gc_enum c)).
    Notation ok := (refok rules involved is_inline (gc_enum c) hooks).
    Let Href := refok_ok rules involved is_inline (gc_enum c) hooks Hnd (re_declared _ Hreg) (re_hooks _ Hreg) (re_literals _ Hreg) table gr Htab.
    Let Hwf := crate_wf rules involved is_inline (gc_enum c) hooks Hnd (re_declared _ Hreg) (re_hooks _ Hreg) (re_literals _ Hreg) table gr Htab.

    Lemma entry_parts n entry : entry_for rules c n entry -> exists l k r e, pexp_of entry = PRef l (N.of_nat k) /\ rules !! k = Some r /\ dr_name r = n /\
      table !! k = Some e /\ stands ok (dr_body r) e /\ body_of rules n = Some (dr_body r) /\ expr_ok pr fn entry /\ (forall r, r ∈ labels entry -> r ∈ R) /\ lr_labels entry = [].
    Proof using Hcr Hreg Hnd Htab.
      intros (k & r & Hk & <- & He). destruct (rule_stands rules involved is_inline (gc_enum c) hooks Hnd (re_declared _ Hreg) (re_hooks _ Hreg) (re_literals _ Hreg) table Htab k r Hk) as (e & Ht & Hs).
      pose proof (rule_body rules Hnd k r Hk) as Hb.
      assert (Hix : index_of (to_lowercase (dr_name r)) fns = Some (N.of_nat k)).
      { destruct (body_index rules Hnd _ _ Hb) as (k' & r' & Hk' & En & _ & Ei). rewrite Ei. do 2 f_equal.
        eapply (NoDup_lookup fns); [exact Hnd|rewrite list_lookup_fmap, Hk'; simpl; by rewrite En|rewrite list_lookup_fmap, Hk; done]. }
      destruct He as [->|(v & Hv & ->)].
      - exists None, k, r, e. simpl. split_and!; try done; [|intros ? Hr; by apply elem_of_nil in Hr]. exists e. by rewrite Nat2N.id.
      - apply enum_index_at in Hv. exists (Some (N.of_nat v)), k, r, e. simpl. split_and!; try done.
        + by eapply label_fn_ok.
        + exists e. by rewrite Nat2N.id.
        + intros q Hq. apply elem_of_list_singleton in Hq as ->. by eapply enum_label.
    Qed.
    Lemma entry_peg s n entry i o : entry_for rules c n entry -> peg (grammar_of pr) s (pexp_of entry) i o <-> means rules s (DRef n) i o.
    Proof using Hcr Hreg Hnd Htab.
      intros (l & k & r & e & -> & Hk & En & Ht & Hs & Hb & _)%entry_parts. 
      assert (Eg : grammar_of pr (N.of_nat k) = Some (pexp_of e)) by (unfold grammar_of; simpl; by rewrite Nat2N.id, Ht). split; intros H.
      - inversion H; subst. eapply m_ref; [done|]. match goal with H : grammar_of _ _ = Some _ |- _ => rewrite Eg in H; injection H as <- end.
        by eapply (peg_means pr rules ok Href s).
      - eapply peg_ref; [exact Eg|]. inversion H; subst; try done.
        match goal with H : body_of _ _ = Some _ |- _ => rewrite Hb in H; injection H as <- end.
        by eapply (means_peg pr rules ok Href s).
    Qed.
    Lemma not_lr : (forall n, ~ left_recursive rules n) -> forall n, involved n = None.
    Proof using Hres. intros H n. destruct Hres as [H1 _]. specialize (H1 n). destruct (involved n); [|done]. by destruct (H n), H1. Qed.
    Lemma enum_of_label q : q ∈ R -> exists v, gc_enum c !! N.to_nat q = Some v.
    Proof using.
      intros H. apply elem_of_list_to_set, elem_of_list_In, in_map_iff in H as (k & <- & Hk). rewrite Nat2N.id.
      apply in_seq in Hk. apply lookup_lt_is_Some. lia.
    Qed.
  End with_parts.

  Context (s : list N) (Hs : N.of_nat (length s) < u32_modulus).
  Notation len := (N.of_nat (length s)).

  (** ** C47, without left recursion: the generated parser answers what the
      grammar file says. *)
  Section plain.
    Context (Hnlr : forall n, ~ left_recursive rules n).
    Theorem C47_sound n entry fuel b q st : entry_for rules c n entry ->
      run_entry pr tt fuel entry s = Ok ((b, q), st) -> means rules s (DRef n) 0 (if b then Some q else None) /\ (b = false -> q = 0).
    Proof using Hcr Hreg Hs Hnlr.
      intros He Hr. destruct crate_parts as (inv & inl & Hres & Hen & Hnd & Htab). cbv zeta in Hnd, Htab.
      pose proof (crate_ok rules inv inl _ _ Hnd (re_declared _ Hreg) (re_hooks _ Hreg) (re_literals _ Hreg) table gr Htab (not_lr inv inl Hres Hnlr)) as Hok.
      destruct (entry_parts inv inl Hnd Htab n entry He) as (l & k & r & e & _ & _ & _ & _ & _ & _ & Hoke & _).
      destruct (C10_packrat_sound pr _ s tt Hs Hok entry fuel b q st Hoke Hr) as [Hp Hz]. split; [|done].
      by eapply (entry_peg inv inl Hnd Htab) in Hp.
    Qed.
    Theorem C47_complete n entry o : 1 + N.of_nat (length (gc_enum c)) * (len + 1) <= u32_modulus -> entry_for rules c n entry ->
      means rules s (DRef n) 0 o -> exists fuel0 (b : bool) q st, (if b then Some q else None) = o /\ (b = false -> q = 0) /\
        forall fuel, (fuel0 <= fuel)%nat -> run_entry pr tt fuel entry s = Ok ((b, q), st).
    Proof using Hcr Hreg Hs Hnlr.
      intros Hb He Hm. destruct crate_parts as (inv & inl & Hres & Hen & Hnd & Htab). cbv zeta in Hnd, Htab.
      pose proof (crate_ok rules inv inl _ _ Hnd (re_declared _ Hreg) (re_hooks _ Hreg) (re_literals _ Hreg) table gr Htab (not_lr inv inl Hres Hnlr)) as Hok.
      pose proof (crate_labels rules inv inl _ _ Hnd (re_declared _ Hreg) (re_hooks _ Hreg) (re_literals _ Hreg) table gr Htab) as HL.
      destruct (entry_parts inv inl Hnd Htab n entry He) as (l & k & r & e & _ & _ & _ & _ & _ & _ & Hoke & Hlab & _).
      eapply (C11_packrat_complete pr _ s tt Hs Hok (table_no_hooks _ _) _ HL); [|exact Hoke|exact Hlab|].
      - pose proof (label_set_size (gc_enum c)). etrans; [|exact Hb]. apply N.add_le_mono_l, N.mul_le_mono_r. lia.
      - by eapply (entry_peg inv inl Hnd Htab).
    Qed.
    (** Every node of the returned tree names a rule of the file that matches
        the node's span. *)
    Theorem C47_nodes n entry fuel b q p l i j b' F t u : entry_for rules c n entry ->
      parse_with pr tt fuel entry s = Ok (b, q, p) -> denotes p (TNode l i j b' F) -> t ∈ F -> subtree u t ->
      exists m, gc_enum c !! N.to_nat (t_label u) = Some (first_upper m) /\ declared_name rules m /\ ~ declared_inline rules m /\
        t_ok u = true /\ t_start u < t_end u <= len /\ means rules s (DRef m) (t_start u) (Some (t_end u)).
    Proof using Hcr Hreg Hs Hnlr.
      intros He Hp Hd Ht Hu. destruct crate_parts as (inv & inl & Hres & Hen & Hnd & Htab). cbv zeta in Hnd, Htab.
      pose proof (crate_ok rules inv inl _ _ Hnd (re_declared _ Hreg) (re_hooks _ Hreg) (re_literals _ Hreg) table gr Htab (not_lr inv inl Hres Hnlr)) as Hok.
      pose proof (crate_labels rules inv inl _ _ Hnd (re_declared _ Hreg) (re_hooks _ Hreg) (re_literals _ Hreg) table gr Htab) as HL.
      destruct (entry_parts inv inl Hnd Htab n entry He) as (l1 & k & r & e & _ & _ & _ & _ & _ & _ & Hoke & Hlab & _).
      destruct (C20_nodes_justified pr _ s tt Hs Hok entry Hoke fuel b q p l i j b' F t u Hp Hd Ht Hu) as (H1 & H2 & H3).
      assert (Hin : t_label u ∈ label_set (gc_enum c)).
      { destruct (C17_parse_tree pr _ s tt entry fuel b q p Hs Hok Hoke Hp) as (F' & Htr & Hd').
        destruct (unfolds_det nothing nothing p) as [Hdet _]. pose proof (Hdet _ _ Hd _ Hd') as E. simplify_eq.
        destruct (clean_nodes pr s entry F' _ u t Htr Ht Hu) as (v & w & Hw & Hv & _ & ->).
        assert (t_label (prune v) = t_label v) as -> by (by destruct v).
        eapply (trace_labels (grammar_of pr) s); [|exact Htr| |exact Hw|exact Hv].
        - intros A body HA. unfold grammar_of in HA. destruct (pr_fn pr A) as [e'|] eqn:EA; [|done]. injection HA as <-. rewrite plabels_of. by eapply HL.
        - by rewrite plabels_of. }
      destruct (enum_of_label _ Hin) as [v Hv].
      destruct Hen as (ns & _ & Hns & Een). assert (Hvn : v ∈ gc_enum c) by (by eapply elem_of_list_lookup_2). rewrite Een in Hvn.
      apply elem_of_list_In, in_map_iff in Hvn as (m & <- & Hm%elem_of_list_In). apply Hns in Hm as [Hm1 Hm2].
      exists m. split; [done|]. split; [done|]. split; [done|]. split; [done|]. split; [done|].
      destruct Hm1 as (r' & Hr' & Er'). apply elem_of_list_lookup in Hr' as [k' Hk'].
      assert (He' : entry_for rules c m (EVar (t_label u) (N.of_nat k'))).
      { exists k', r'. split; [done|]. split; [done|]. right. exists (N.to_nat (t_label u)). split; [done|]. by rewrite N2Nat.id. }
      apply (entry_peg inv inl Hnd Htab s m _ _ _ He'). simpl.
      destruct (entry_parts inv inl Hnd Htab m _ He') as (? & ? & ? & ? & _ & _ & _ & _ & _ & _ & [Hfn _] & _).
      by rewrite Hfn in H3.
    Qed.
  End plain.

  (** ** With left recursion: every match is derivable from the rule. *)
  Theorem C47_derivable n entry fuel q st : entry_for rules c n entry ->
    run_entry pr tt fuel entry s = Ok ((true, q), st) -> derives rules s (DRef n) 0 q.
  Proof using Hcr Hreg Hs.
    intros He Hr. destruct crate_parts as (inv & inl & Hres & Hen & Hnd & Htab). cbv zeta in Hnd, Htab.
    pose proof (crate_wf rules inv inl _ _ Hnd (re_declared _ Hreg) (re_hooks _ Hreg) (re_literals _ Hreg) table gr Htab) as Hwf.
    pose proof (refok_ok rules inv inl _ _ Hnd (re_declared _ Hreg) (re_hooks _ Hreg) (re_literals _ Hreg) table gr Htab) as Href.
    destruct (entry_parts inv inl Hnd Htab n entry He) as (l & k & r & e & Ep & Hk & En & Ht & Hst & Hb & Hoke & _).
    assert (Hc : cfg (grammar_of pr) s (pexp_of entry) 0 q).
    { eapply (C28_matches_derivable pr _ s tt Hs Hwf (table_no_hooks _ _)); [apply session_fresh|by apply expr_ok_wf|lia|exact Hr]. }
    rewrite Ep in Hc. inversion Hc; subst. eapply d_ref; [done|]. 
    match goal with H : grammar_of _ _ = Some _ |- _ => unfold grammar_of in H; simpl in H; rewrite Nat2N.id, Ht in H; injection H as <- end.
    by eapply (cfg_derives pr rules _ Href s).
  Qed.
End meaning.
