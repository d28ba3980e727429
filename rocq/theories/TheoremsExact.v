(** Theorem C52: for tidy grammars the returned tree is exactly the parse tree. *)
From Verif Require Import SpecExact SpecSafe SpecSession ProofPeg ProofSound ProofSafe ProofTree ProofTree2 ProofLR ProofExact Programs Checks
  TheoremsKernel TheoremsPackrat TheoremsDeriv TheoremsLRTree.
Local Open Scope N_scope.

Section trees.
  Context (O : N -> Prop) (p : publisher).
  Lemma kx_prune :
    (forall k d, kx p k d -> forall t, unfolds O p k t -> keep t = keep d /\ prune t = prune d) /\
    (forall ks D, kxs p ks D -> forall F, unfolds_list O p ks F -> prune_forest F = prune_forest D).
  Proof.
    apply kx_all.
    - intros k n D Hn Hr Hk _ IH t Ht. inversion Ht as [k' n' F HnO Hn' HF]; subst. rewrite Hn in Hn'. injection Hn' as <-.
      rewrite Hr. split; [done|]. rewrite !prune_eq. by rewrite (IH _ HF).
    - intros F HF. by inversion HF.
    - intros c m F D Hm Hv _ IH G HG. inversion HG as [|? ? t F' Ht HF']; subst.
      inversion Ht as [k' n' G0 HnO Hn' HG0]; subst. rewrite Hm in Hn'. injection Hn' as <-.
      cbn [prune_forest]. change (keep (TNode (n_rule m) (n_start m) (n_end m) (n_result m) G0)) with (visible m). rewrite Hv. by apply IH.
    - intros d F D Hd _ IH G HG. cbn [prune_forest]. rewrite Hd. by apply IH.
    - intros c d F D _ IH1 _ IH2 G HG. inversion HG as [|? ? t F' Ht HF']; subst.
      destruct (IH1 _ Ht) as [E1 E2]. cbn [prune_forest]. rewrite E1, E2, (IH2 _ HF'). done.
  Qed.
End trees.

Section C52.
  Context {U : Type} (pr : program U) (fn : N -> N) (s : list N) (u0 : U) (Pl Nr : N -> bool).
  Context (Hs : N.of_nat (length s) < u32_modulus) (Hwf : program_wf pr fn) (Hnh : no_hooks pr) (HPl : plain_ok pr Pl).
  Context (HT : tidy_program Nr pr).
  Notation g := (grammar_of pr).

  (** Before clear_false. *)
  Lemma C52_raw entry fuel b0 q st :
    expr_wf pr fn entry -> (forall f, f ∈ lr_targets entry -> Pl f = false) -> tidy Nr entry = true ->
    run_entry pr u0 fuel entry s = Ok ((b0, q), st) -> exists l i j F, denotes (cx_pub (st_ctx st)) (TNode l i j true F) /\
    (b0 = true -> exists D, lderiv g s Pl (pexp_of entry) 0 q D /\ prune_forest F = prune_forest D) /\
    (b0 = false -> fails_clean Nr entry = true -> prune_forest F = []).
  Proof.
    intros He Ht Htd Er.
    assert (He0 : open Pl (pub (PState (context_new (pr_grammar pr)) u0)) 0 0).
    { eexists. split; [simpl; apply lookup_singleton|]. split; [done|]. by intros _ c m ?%elem_of_nil. }
    pose proof (wp_Ok _ _ _ _ _ _ (eval_t pr s fn Pl Nr Hs Hwf Hnh HPl HT fuel entry He Ht Htd _ 0 0 (TInv_init pr s fn Pl Hs (pr_grammar pr) u0) He0) Er) as HTP.
    destruct HTP as (([_ HE] & _) & HI & _ & _ & l & [(n & n' & Hn & Hn' & Hl) _] & HD & HF & _).
    destruct (HE _ _ Hn) as (n1 & l1 & Hn1 & E1 & _ & E2 & E3 & _). rewrite Hn' in Hn1. injection Hn1 as <-.
    simpl in Hn. rewrite lookup_singleton in Hn. injection Hn as <-. simpl in *.
    destruct (E3 eq_refl) as [E4 E5].
    assert (Hhk : hooks_behave (N.of_nat (length s)) (memo_claim pr s fn) (eq PKeyOverflow) pr (source_new s)) by (by apply no_hooks_behave).
    assert (HS : session pr (expr_wf pr fn) s u0 st).
    { eapply session_call; [apply session_fresh|exact He| |exact Er]. lia. }
    destruct (C16_finite_trees pr fn s u0 Hs Hwf (eq PKeyOverflow) eq_refl Hhk st 0 HS) as [t' Ht'].
    { eapply ti_root. exact HI. }
    inversion Ht' as [k m F HnO Hm HFo]; subst. rewrite Hn' in Hm. injection Hm as <-.
    rewrite E2 in Ht'. eexists _, _, _, F. split; [exact Ht'|].
    destruct (kx_prune nothing (cx_pub (st_ctx st))) as [_ KP]. split.
    - intros ->. destruct (HD eq_refl) as (D & HLD & HK). exists D. split; [done|]. by eapply KP.
    - intros -> Hfc. specialize (HF eq_refl Hfc). by rewrite (KP _ _ HF _ HFo).
  Qed.
  Lemma C52_core entry fuel b0 q p' r i j b G :
    expr_wf pr fn entry -> (forall f, f ∈ lr_targets entry -> Pl f = false) -> tidy Nr entry = true ->
    parse_with pr u0 fuel entry s = Ok (b0, q, p') -> denotes p' (TNode r i j b G) ->
    (b0 = true -> exists D, lderiv g s Pl (pexp_of entry) 0 q D /\ G = prune_forest D) /\
    (b0 = false -> fails_clean Nr entry = true -> G = []).
  Proof.
    intros He Ht Htd Hp Hd. unfold parse_with in Hp.
    destruct (run_entry pr u0 fuel entry s) as [[[b1 q1] st]| |] eqn:Er; cbn [rbind] in Hp; [|done|done].
    destruct (clear_false fuel (pr_grammar pr) (cx_pub (st_ctx st))) as [t| |] eqn:Ec; cbn [rbind] in Hp; [|done|done].
    injection Hp as -> -> ->.
    destruct (C52_raw entry fuel b0 q st He Ht Htd Er) as (l0 & i0 & j0 & F & Hr & HA & HB).
    pose proof (C17_any_answer _ _ _ _ _ _ _ _ Hr Ec) as Hd'.
    destruct (unfolds_det nothing nothing p') as [Hdet _]. pose proof (Hdet _ _ Hd _ Hd') as E. injection E as -> -> -> -> ->.
    split; [|done]. intros Hb. destruct (HA Hb) as (D & ? & E). exists D. by rewrite E.
  Qed.

  (** The tree that parse returns for a match is a derivation of the match -
      with nothing added, nothing missing and everything in order; only the
      applications of rules to the empty string are left out. *)
  Theorem C52_tree_is_derivation entry fuel q p' r i j b G :
    expr_wf pr fn entry -> (forall f, f ∈ lr_targets entry -> Pl f = false) -> tidy Nr entry = true ->
    parse_with pr u0 fuel entry s = Ok (true, q, p') -> denotes p' (TNode r i j b G) ->
    exists D, lderiv g s Pl (pexp_of entry) 0 q D /\ G = prune_forest D /\ laid_out 0 q G.
  Proof.
    intros He Ht Htd Hp Hd. destruct (C52_core _ _ _ _ _ _ _ _ _ _ He Ht Htd Hp Hd) as [H _].
    destruct (H eq_refl) as (D & HD & ->). exists D. split; [done|]. split; [done|]. by eapply laid_prune, lderiv_laid.
  Qed.
  (** A failed parse returns an empty tree. *)
  Theorem C52_failure_is_empty entry fuel q p' r i j b G :
    expr_wf pr fn entry -> (forall f, f ∈ lr_targets entry -> Pl f = false) -> tidy Nr entry = true ->
    fails_clean Nr entry = true ->
    parse_with pr u0 fuel entry s = Ok (false, q, p') -> denotes p' (TNode r i j b G) -> G = [].
  Proof.
    intros He Ht Htd Hfc Hp Hd. destruct (C52_core _ _ _ _ _ _ _ _ _ _ He Ht Htd Hp Hd) as [_ H]. by apply H.
  Qed.
  (** Without left recursion it is THE derivation of the PEG match. *)
  Theorem C52_plain_tree entry fuel q p' r i j b G D :
    (forall f, Pl f = true) -> plain Pl (pexp_of entry) = true ->
    expr_wf pr fn entry -> lr_targets entry = [] -> tidy Nr entry = true ->
    parse_with pr u0 fuel entry s = Ok (true, q, p') -> denotes p' (TNode r i j b G) ->
    deriv g s (pexp_of entry) 0 q D -> G = prune_forest D.
  Proof.
    intros HP Hpl He Hl Htd Hp Hd HD. destruct (C52_core entry fuel true q p' r i j b G He) as [H _]; [|done|done|done|].
    { intros f Hf. rewrite Hl in Hf. by apply elem_of_nil in Hf. }
    destruct (H eq_refl) as (D' & HD' & ->).
    assert (HD2 : deriv g s (pexp_of entry) 0 q D').
    { eapply lderiv_deriv; [|exact HD'|done]. intros A body HA HPA. unfold grammar_of in HA. apply fmap_Some in HA as (e' & HA & ->).
      by eapply po_body. }
    by destruct (deriv_det _ _ _ _ _ _ HD _ _ HD2) as [_ ->].
  Qed.
End C52.

(** ** Checking a generated parser *)
Definition in_list (l : list N) (f : N) : bool := existsb (N.eqb f) l.
Definition tidy_table (Nr : list N) (table : list expr) : bool :=
  forallb (fun x => tidy (in_list Nr) (snd x) && (negb (in_list Nr (N.of_nat (fst x))) || callless (in_list Nr) (snd x))) (imap pair table).
Lemma tidy_table_ok {U} Nr table gr : tidy_table Nr table = true -> tidy_program (in_list Nr) (table_program (U:=U) table gr).
Proof.
  intros H. split.
  - intros f e Hf. pose proof (table_all table gr (fun f e => tidy (in_list Nr) e && (negb (in_list Nr f) || callless (in_list Nr) e)) H f e Hf) as [? _]%andb_true_iff. done.
  - intros f e Hf HN. pose proof (table_all table gr (fun f e => tidy (in_list Nr) e && (negb (in_list Nr f) || callless (in_list Nr) e)) H f e Hf) as [_ H2]%andb_true_iff.
    by rewrite HN in H2.
Qed.
Definition plain_table (Pl : list N) (table : list expr) : bool :=
  forallb (fun x => (negb (in_list Pl (N.of_nat (fst x))) || plain (in_list Pl) (pexp_of (snd x))) &&
    forallb (fun f => negb (in_list Pl f)) (lr_targets (snd x))) (imap pair table).
Lemma plain_table_ok {U} Pl table gr : plain_table Pl table = true -> plain_ok (table_program (U:=U) table gr) (in_list Pl).
Proof.
  intros H. pose proof (table_all (U:=U) table gr (fun f e => (negb (in_list Pl f) || plain (in_list Pl) (pexp_of e)) &&
    forallb (fun f => negb (in_list Pl f)) (lr_targets e)) H) as HA. split.
  - intros f e Hf HP. specialize (HA f e Hf). apply andb_true_iff in HA as [HA _]. by rewrite HP in HA.
  - intros f e Hf f' Hf'. specialize (HA f e Hf). apply andb_true_iff in HA as [_ HA]. rewrite forallb_forall in HA.
    apply elem_of_list_In, HA in Hf'. by apply negb_true_iff in Hf'.
Qed.

(** The arithmetic examples are tidy: their trees are exact. *)
Lemma ex1_tidy : tidy_table [ex1_f_onenine; ex1_f_digit] ex1_table = true.
Proof. vm_compute; reflexivity. Qed.
Lemma ex3_tidy : tidy_table [ex3_f_onenine; ex3_f_digit] ex3_table = true.
Proof. vm_compute; reflexivity. Qed.
Lemma ex4_tidy : tidy_table [ex4_f_onenine; ex4_f_digit] ex4_table = true.
Proof. vm_compute; reflexivity. Qed.
Definition ex1_plain_fns : list N := [ex1_f_onenine; ex1_f_digit; ex1_f_integer].
Definition ex3_plain_fns : list N :=
  [ex3_f_onenine; ex3_f_digit; ex3_f_integer; ex3_f_number; ex3_f_fraction; ex3_f_exponent; ex3_f_sign].
Definition ex4_plain_fns : list N :=
  [ex4_f_onenine; ex4_f_digit; ex4_f_integer; ex4_f_number; ex4_f_fraction; ex4_f_exponent; ex4_f_sign].
Lemma ex1_plain_ok : plain_table ex1_plain_fns ex1_table = true.
Proof. vm_compute; reflexivity. Qed.
Lemma ex3_plain_ok : plain_table ex3_plain_fns ex3_table = true.
Proof. vm_compute; reflexivity. Qed.
Lemma ex4_plain_ok : plain_table ex4_plain_fns ex4_table = true.
Proof. vm_compute; reflexivity. Qed.

Definition exact_example (table : list expr) (gr : N) (entries : list (N * N)) (Pl : list N) (entry : expr) : Prop :=
  forall s fuel b q p' r i j b' G, N.of_nat (length s) < u32_modulus ->
    parse_with (table_program table gr) tt fuel entry s = Ok (b, q, p') -> denotes p' (TNode r i j b' G) ->
    if b then exists D, lderiv (grammar_of (table_program (U:=unit) table gr)) s (in_list Pl) (pexp_of entry) 0 q D /\ G = prune_forest D
    else G = [].
Lemma exact_example_ok table gr entries Nr Pl entry :
  tidy_table Nr table = true -> plain_table Pl table = true ->
  forallb (fun x => expr_wfb (table_program (U:=unit) table gr) (fn_of table entries) (snd x)) (imap pair table) = true ->
  expr_wfb (table_program (U:=unit) table gr) (fn_of table entries) entry = true ->
  lr_targets entry = [] -> tidy (in_list Nr) entry = true -> fails_clean (in_list Nr) entry = true ->
  exact_example table gr entries Pl entry.
Proof.
  intros H1 H2 H3 H4 H5 H6 H7 s fuel b q p' r i j b' G Hs Hp Hd.
  destruct (C52_core (table_program table gr) (fn_of table entries) s tt (in_list Pl) (in_list Nr) Hs) with (entry := entry) (fuel := fuel) (b0 := b) (q := q) (p' := p') (r := r) (i := i) (j := j) (b := b') (G := G) as [HA HB]; try done.
  - by apply check_wf.
  - by apply plain_table_ok.
  - by apply tidy_table_ok.
  - by apply expr_wfb_ok.
  - intros f Hf. rewrite H5 in Hf. by apply elem_of_nil in Hf.
  - destruct b; [by apply HA|by apply HB].
Qed.
Theorem C52_example_1 : exact_example ex1_table ex1_R_Grammar [(ex1_R_Grammar, ex1_f_grammar)] ex1_plain_fns ex1_entry.
Proof. eapply exact_example_ok; [exact ex1_tidy|exact ex1_plain_ok|vm_compute; reflexivity..]. Qed.
Theorem C52_example_3 : exact_example ex3_table ex3_R_Grammar [(ex3_R_Grammar, ex3_f_grammar)] ex3_plain_fns ex3_entry.
Proof. eapply exact_example_ok; [exact ex3_tidy|exact ex3_plain_ok|vm_compute; reflexivity..]. Qed.
Theorem C52_example_4 : exact_example ex4_table ex4_R_Grammar [(ex4_R_Grammar, ex4_f_grammar)] ex4_plain_fns ex4_entry.
Proof. eapply exact_example_ok; [exact ex4_tidy|exact ex4_plain_ok|vm_compute; reflexivity..]. Qed.
(** "2*(3-1)" in example 3: expression, term, multiplication, ... *)
Example C52_instance :
  exists p', parse_with ex3_program tt 200 ex3_entry (bytes "2*(3-1)") = Ok (true, 7, p') /\
    TheoremsPackrat.read_tree 200 p' 0 =
      let num i := TNode ex3_R_Number i (i + 1) true [TNode ex3_R_Integer i (i + 1) true []] in
      let term i := TNode ex3_R_Term i (i + 1) true [TNode ex3_R_Factor i (i + 1) true [num i]] in
      Some (TNode 0 0 0 true [TNode 0 0 7 true [TNode ex3_R_Expr 0 7 true [TNode ex3_R_Term 0 7 true [TNode ex3_R_Multiplication 0 7 true
        [term 0; TNode ex3_R_Factor 2 7 true [TNode ex3_R_Parentheses 2 7 true [TNode ex3_R_Expr 3 6 true [TNode ex3_R_Subtraction 3 6 true
          [TNode ex3_R_Expr 3 4 true [term 3]; term 5]]]]]]]]]).
Proof. eexists. split; vm_compute; reflexivity. Qed.

(** A list of items: rule 0 is [<A>, (',', <A>)*], rule 1 is ['a'+]. *)
Definition items_table : list expr :=
  [ESeq (EVar 1 1) (EStar (ESeq (ETerminal 44) (EVar 1 1))); EPlus (ETerminal 97)].
Definition items_program : program unit := table_program items_table 0.
Example C52_plain_instance s fuel q p' r i j b G D :
  N.of_nat (length s) < u32_modulus ->
  parse_with items_program tt fuel (EVar 0 0) s = Ok (true, q, p') -> denotes p' (TNode r i j b G) ->
  deriv (grammar_of items_program) s (pexp_of (EVar 0 0)) 0 q D -> G = prune_forest D.
Proof.
  intros Hs. eapply (C52_plain_tree items_program (fn_of items_table []) s tt (fun _ => true) (in_list []) Hs); try done.
  - apply check_wf. vm_compute; reflexivity.
  - pose proof (table_all (U:=unit) items_table 0 (fun _ e => plain (fun _ => true) (pexp_of e) && bool_decide (lr_targets e = [])) eq_refl) as HA.
    split; intros f e Hf; specialize (HA f e Hf); apply andb_true_iff in HA as [H1 H2]; [done|].
    apply bool_decide_eq_true in H2. rewrite H2. by intros f' ?%elem_of_nil.
  - apply tidy_table_ok. vm_compute; reflexivity.
Qed.
Example C52_plain_run :
  exists p', parse_with items_program tt 60 (EVar 0 0) (bytes "aa,a,aaa") = Ok (true, 8, p') /\
    TheoremsPackrat.read_tree 60 p' 0 = Some (TNode 0 0 0 true [TNode 0 0 8 true [TNode 1 0 2 true []; TNode 1 3 4 true []; TNode 1 5 8 true []]]).
Proof. eexists. split; vm_compute; reflexivity. Qed.

(** The condition matters: the grammars of C22_junk-like and stale-child trees
    are not tidy, whatever is promised about inline functions. *)
Example C52_not_tidy Nr : tidy_program Nr stale_program -> False.
Proof. intros [H _]. specialize (H 0 _ eq_refl). discriminate H. Qed.
Example C52_dsl_not_tidy Nr : tidy_program Nr dsl_program -> False.
Proof.
  intros [H _]. specialize (H dsl_f_specials _ eq_refl). cbn in H. rewrite andb_false_r in H. discriminate H.
Qed.
