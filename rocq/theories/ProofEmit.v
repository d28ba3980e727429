(** The generator answers on exactly the rules that [rule_emits]. *)
From Verif Require Import SpecUtf8 SpecEmit ProofPeg ProofTree ProofTrace ProofDsl ProofBuild ProofRules ProofSymbols ProofUtf8 ProofGraph ProofLeft.

Definition answers {A} (b : bool) (x : res A) : Prop := if b then exists a, x = Ok a else exists p, x = Panic p.
Lemma answers_bind {A B} b b' (x : res A) (f : A -> res B) :
  answers b x -> (forall a, x = Ok a -> answers b' (f a)) -> answers (b && b') (rbind x f).
Proof. destruct b; intros [a ->] H; cbn; [by apply H|by eexists]. Qed.
Lemma answers_mbind {S A B} b b' (x : M S A) (f : A -> M S B) s :
  answers b (x s) -> (forall a s', x s = Ok (a, s') -> answers b' (f a s')) -> answers (b && b') (mbind' x f s).
Proof.
  unfold mbind'. destruct b; intros [a E] H; rewrite E; cbn; [|by eexists]. destruct a as [a s']. by apply H.
Qed.
Lemma answers_mbind_r {S A B} b (x : M S A) (f : A -> M S B) s :
  answers b (x s) -> (forall a s', x s = Ok (a, s') -> answers true (f a s')) -> answers b (mbind' x f s).
Proof. intros H1 H2. rewrite <- (andb_true_r b). by apply answers_mbind. Qed.
Lemma answers_glift {A} b (x : res A) g : answers b x -> answers b (glift x g).
Proof. unfold glift. destruct b; intros [a ->]; cbn; by eexists. Qed.
Lemma answers_ok {A} (a : A) : answers true (Ok a).
Proof. by exists a. Qed.

Section emit.
  Context (lr : name_map name_set) (sym : symbol_table) (src : list N) (Hu : utf8 src).
  Context (Hlr : forall n S m, lr !! n = Some S -> m ∈ S -> m <> []).
  Notation bld := (build lr sym src).

  Lemma gpush_answers r a b g : answers true (gpush r a b g).
  Proof using. by eexists. Qed.

  Lemma hex_value_answers acc ds : Forall hex_char ds ->
    hex_value acc ds = let v := fold_left (fun acc c => acc * 16 + (if c <=? 57 then c - 48 else c - 55)) ds acc in
      match ds with [] => Some acc | _ => if v <? u32_modulus then Some v else None end.
  Proof using.
    revert acc. induction ds as [|c ds IH]; intros acc Hd; [done|]. apply list.Forall_cons in Hd as [Hc Hd].
    cbn [hex_value fold_left]. assert (Hdig : hex_digit c = Some (if c <=? 57 then c - 48 else c - 55)).
    { unfold hex_digit. destruct Hc as [Hc|Hc].
      - destruct (N.leb_spec 48 c); [|lia]. destruct (N.leb_spec c 57); [|lia]. done.
      - destruct (N.leb_spec 48 c); [|lia]. destruct (N.leb_spec c 57); [lia|]. simpl.
        destruct (N.leb_spec 65 c); [|lia]. destruct (N.leb_spec c 70); [|lia]. done. }
    rewrite Hdig. set (v := acc * 16 + _). rewrite IH by done. cbn zeta.
    assert (Hmono : forall ds v, v <= fold_left (fun acc c => acc * 16 + (if c <=? 57 then c - 48 else c - 55)) ds v).
    { clear. induction ds as [|c ds IH]; intros v; [simpl; lia|]. cbn [fold_left]. etransitivity; [|apply IH]. lia. }
    destruct ds as [|d ds]; [done|]. specialize (Hmono (d :: ds) v).
    destruct (N.ltb_spec v u32_modulus); [done|].
    destruct (N.ltb_spec (fold_left (fun acc c => acc * 16 + (if c <=? 57 then c - 48 else c - 55)) (d :: ds) v) u32_modulus); [lia|done].
  Qed.
  Lemma radix_answers ds : Forall hex_char ds -> ds <> [] ->
    from_str_radix_16 ds = if fits_u32 ds then Ok (hexval ds) else Panic PExplicit.
  Proof using.
    intros Hd Hne. unfold from_str_radix_16. destruct ds as [|c ds]; [done|]. rewrite hex_value_answers by done. cbn zeta.
    unfold fits_u32, hexval. by destruct (_ <? _).
  Qed.
  Lemma hex_char_ascii ds : Forall hex_char ds -> Forall (fun c => c < 128) ds.
  Proof using. intros H. eapply list.Forall_impl; [exact H|]. intros c. unfold hex_char. lia. Qed.
  Lemma ascii_slice_end i l : Forall (fun c => c < 128) l -> text src i (i + N.of_nat (length l)) l -> l <> [] ->
    is_char_boundary src (i + N.of_nat (length l)) = true.
  Proof using Hu.
    intros Hl Ht Hne. destruct l as [|c l] using rev_ind; [done|]. clear IHl. apply list.Forall_app in Hl as [_ Hc]. apply list.Forall_cons in Hc as [Hc _].
    apply text_app_inv in Ht as [_ Ht]. apply text_cons_inv in Ht as [Ht _]. rewrite app_length. simpl.
    replace (i + N.of_nat (length l + 1)) with (i + N.of_nat (length l) + 1) by lia. by eapply boundary_after.
  Qed.
  Lemma ascii_slice i j l : Forall (fun c => c < 128) l -> text src i j l -> l <> [] -> slice_str src i j = Ok l.
  Proof using Hu.
    intros Hl Ht Hne. pose proof Ht as [-> Ho]. apply slice_ok; [done| | |by apply ascii_slice_end].
    - pose proof (occurs_at_bound _ _ _ Ho Hne). lia.
    - destruct l as [|c l]; [done|]. apply list.Forall_cons in Hl as [Hc _]. apply text_cons_inv in Ht as [Ht _]. by eapply boundary_at.
  Qed.
  Lemma hexnum_slice_ok i j ds : hexnum src i j ds -> slice_str src (i + 2) j = Ok ds.
  Proof using Hu.
    intros (Ht & Hne & Hd). apply (text_app_inv src i j [48; 120] ds) in Ht as [_ Ht]. apply ascii_slice; [by apply hex_char_ascii|done|done].
  Qed.
  Lemma quoted_inner r i j b F c : quoted src i j c -> inner_text src (TNode r i j b F) = Ok c.
  Proof using Hu. intros [c' Ht _|c' Ht _|Ht]; by apply (inner_ok _ _ _ _ _ _ 39 _ 39). Qed.

  Lemma bound_answers t x : bound_rep src t x -> answers (bound_emits x) (range_bound src t).
  Proof using Hu.
    intros [i j F c _ Hq|i j F ds _ Hh|i j F ds _ Hi]; unfold range_bound; cbn [t_label].
    - change (dsl_R_Terminal =? dsl_R_Terminal) with true. cbv iota. rewrite (quoted_inner _ _ _ _ _ _ Hq). cbn [rbind].
      destruct c; [by eexists|by eexists].
    - change (dsl_R_Hex =? dsl_R_Terminal) with false. change (dsl_R_Hex =? dsl_R_Integer) with false. change (dsl_R_Hex =? dsl_R_Hex) with true. cbv iota.
      cbn [t_start t_end]. rewrite (hexnum_slice_ok _ _ _ Hh). cbn [rbind]. destruct Hh as (_ & Hne & Hd). rewrite radix_answers by done.
      simpl. destruct (fits_u32 ds); by eexists.
    - by eexists.
  Qed.

  Definition emits_ok (t : ptree) (e : dexp) : Prop := forall g, answers (emits e) (bld t g).
  Lemma left_nested_answers r cs es : Forall2 emits_ok cs es -> Forall (fun c => t_label c = dsl_R_Atom) cs -> forall o g,
    answers (forallb emits es) (left_nested bld r cs o g).
  Proof using.
    induction 1 as [|c e cs es Hc HF IH]; intros Hl o g; [by eexists|].
    apply list.Forall_cons in Hl as [Hl1 Hl]. cbn [left_nested forallb]. rewrite Hl1. change (dsl_R_Atom =? dsl_R_Atom) with true. cbv iota.
    apply answers_mbind; [apply Hc|]. intros k g1 _. destruct o as [k0|]; [|by apply IH].
    apply (answers_mbind true); [apply gpush_answers|]. intros k' g2 _. by apply IH.
  Qed.
  Lemma string_chars_ok cs l : Forall2 (ascii_node src) cs l -> map_res (string_char src) cs = Ok l.
  Proof using.
    induction 1 as [|t c cs l [i c' Ht _] _ IH]; [done|]. cbn [map_res]. rewrite IH. unfold string_char at 1. cbn [t_label t_start t_end].
    change (dsl_R_ASCII =? dsl_R_ASCII) with true. cbv iota. rewrite (slice_bytes_text _ _ _ _ Ht) by done. done.
  Qed.

  Local Arguments answers : simpl never.
  Local Arguments each_child : simpl never.
  Local Arguments left_nested : simpl never.
  Local Arguments c_terminal : simpl never.
  Local Arguments c_range : simpl never.
  Local Arguments c_string_terminal : simpl never.
  Local Arguments c_var_name : simpl never.
  Scheme rep_mut := Minimality for rep Sort Prop with reps_mut := Minimality for reps Sort Prop.

  Lemma each_answers L p post c e g : t_label c ∈ L -> forallb p L = true -> emits_ok c e -> (forall k g, answers true (post k g)) ->
    answers (emits e) (each_child bld p post [c] 0 g).
  Proof using.
    intros H HL He Hp. rewrite (each_one_in L) by done. apply answers_mbind_r; [apply He|]. intros k g' _. apply Hp.
  Qed.
  Ltac pass := match goal with
    | H : t_label ?c ∈ ?L |- _ => apply (each_answers L); [exact H|reflexivity|assumption|intros; by eexists]
    | H : t_label ?c = ?x |- _ => apply (each_answers [x]); [rewrite H; set_solver|reflexivity|assumption|intros; by eexists] end.

  Theorem build_answers t e : rep src t e -> emits_ok t e.
  Proof using Hu Hlr.
    intros H. revert t e H.
    apply (rep_mut src emits_ok (fun cs es => Forall2 emits_ok cs es /\ Forall (fun c => t_label c = dsl_R_Atom) cs)).
    - intros i j c e Hl _ IH g. simpl. pass.
    - intros i j cs es _ [IH1 IH2] Hlen g. simpl. by apply left_nested_answers.
    - intros i j cs es _ [IH1 IH2] Hlen g. simpl. by apply left_nested_answers.
    - intros i j c e Hl _ IH g. simpl. pass.
    - intros i j c e Hl _ IH g. simpl. pass.
    - intros i j c e Hl _ IH g. simpl. pass.
    - intros i j c e Hl _ IH g. simpl. pass.
    - intros i j c e Hl _ IH g. simpl. pass.
    - intros i j c e Hl _ IH g. simpl. pass.
    - intros i j c e Hl _ IH g. simpl. pass.
    - intros i j a b x y Ha Hb g. simpl. unfold c_range. cbn [t_children c_range_loop].
      apply answers_mbind; [by apply answers_glift, bound_answers|]. intros v g1 _.
      apply answers_mbind_r; [by apply answers_glift, bound_answers|]. intros w g2 _. by eexists.
    - intros i a j c n e Hl Hs Ht Hv _ IH g. simpl.
      apply (answers_mbind true); [by eexists|]. intros c' g1 H1. injection H1 as <- <-.
      apply (answers_mbind true). { apply answers_glift. rewrite Hs. unfold usub. destruct (N.leb_spec 1 (a + 1)); [by eexists|lia]. }
      intros e' g2 H2. apply glift_inv in H2 as [H2 ->]. unfold usub in H2. rewrite Hs in H2. destruct (N.leb_spec 1 (a + 1)); [|lia].
      injection H2 as <-. replace (a + 1 - 1) with a by lia.
      apply (answers_mbind true). { apply answers_glift. rewrite (ascii_slice i a n); [by eexists|by apply valid_name_ascii|done|by destruct Hv as (? & ? & -> & _)]. }
      intros n' g3 _. apply (answers_mbind true); [by eexists|]. intros [] g4 _.
      apply answers_mbind_r; [pass|]. intros k g5 _. by eexists.
    - intros i j c e Hl _ IH g. simpl. pass.
    - intros i j F c _ Hq g. simpl. unfold c_terminal. cbn [t_end t_start].
      apply (answers_mbind true). { apply answers_glift. unfold usub. assert (Hij : i <= j) by (destruct Hq as [c' [-> _] _|c' [-> _] _|[-> _]]; simpl; lia).
        destruct (N.leb_spec i j); [by eexists|lia]. }
      intros d g1 _. destruct (d =? 2); [by eexists|].
      apply (answers_mbind true). { apply answers_glift. rewrite (quoted_inner _ _ _ _ _ _ Hq). by eexists. }
      intros l g2 _. by eexists.
    - intros i j cs l HF Hb g. simpl. unfold c_string_terminal. cbn [t_children].
      apply (answers_mbind true). { apply answers_glift. rewrite (string_chars_ok _ _ HF). by eexists. }
      intros d g1 _. destruct (forallb _ d); by eexists.
    - intros i j F ds _ Hh g. simpl. unfold c_string_terminal. cbn [t_children].
      apply answers_mbind_r.
      + apply answers_glift. cbn [map_res]. unfold string_char. cbn [t_label t_start t_end].
        change (dsl_R_Hex =? dsl_R_ASCII) with false. change (dsl_R_Hex =? dsl_R_Integer) with false. change (dsl_R_Hex =? dsl_R_Hex) with true. cbv iota.
        rewrite (hexnum_slice_ok _ _ _ Hh). cbn [rbind]. destruct Hh as (_ & Hne & Hd). rewrite radix_answers by done.
        unfold fits_u32. destruct (N.ltb_spec (hexval ds) u32_modulus) as [Hv|Hv]; cbn [rbind].
        * unfold char_from_u32. fold (is_scalar (hexval ds)). destruct (is_scalar (hexval ds)); by eexists.
        * assert (is_scalar (hexval ds) = false) as ->; [|by eexists]. unfold is_scalar. unfold u32_modulus in Hv.
          destruct (N.ltb_spec (hexval ds) 55296); [lia|]. destruct (N.ltb_spec (hexval ds) 1114112); [lia|]. by rewrite andb_false_r.
      + intros d g1 _. destruct (forallb _ d); by eexists.
    - intros i j F ds _ Hh g. by eexists.
    - intros i j F n _ Ht Hv g. simpl. unfold c_var_name.
      apply (answers_mbind true). { apply answers_glift. rewrite (inner_ok _ _ _ _ _ _ 60 n 62 Hu) by done. by eexists. }
      intros n' g1 _. destruct (lr !! n') as [S|] eqn:E.
      + apply (answers_mbind true). { apply answers_glift. rewrite map_rule_name_ok; [by eexists|]. apply list.Forall_forall. intros m Hm. apply elem_of_elements in Hm. by eapply Hlr. }
        intros x g2 _. by eexists.
      + destruct (check_symbol_is_inline sym n'); by eexists.
    - done.
    - intros c cs e es Hl _ IH _ [IH1 IH2]. split; by constructor.
  Qed.
End emit.

(** ** Rules *)
Section rules.
  Context (lr : name_map name_set) (sym : symbol_table) (src : list N) (Hu : utf8 src).
  Context (Hlr : forall n S m, lr !! n = Some S -> m ∈ S -> m <> []).

  Lemma comment_answers t l : comment_rep src t l -> answers (negb (bool_decide (l = []))) (c_comment src t).
  Proof using Hu.
    intros H. unfold c_comment.
    assert (HS : exists a b, text src a b (35 :: l ++ [35]) /\
      comment_span (t_children t) = match l with [] => None | _ => Some (a + 1, b - 1) end).
    { destruct H as [i j a b cs l' Ht Hl HF Hs]. exists a, b. split; [done|]. simpl.
      assert (Hb : b = a + N.of_nat (length l') + 2). { destruct Ht as [-> _]. simpl. rewrite app_length. simpl. lia. }
      destruct HF as [|t c cs l [i' c' Ht' Hc'] HF]; [done|]. unfold comment_span. simpl.
      simpl in Hs. apply list.Forall2_cons_1 in Hs as [Hs1 Hs]. simpl in Hs1.
      replace (i' + 1) with (a + 1 + N.of_nat 1) by lia. rewrite (comment_fold src cs a l 1 HF Hs i').
      f_equal. f_equal; [lia|]. simpl in Hb. lia. }
    destruct HS as (a & b & Ht & ->). destruct l as [|c l]; [by eexists|].
    destruct (slice_delimited _ _ _ _ _ _ Hu (eq_refl : 35 < 128) (eq_refl : 35 < 128) Ht) as [_ ->]. by eexists.
  Qed.
  Lemma lhs_answers t n b : lhs_rep src t n b -> answers true (c_lhs src t).
  Proof using Hu.
    intros H. unfold c_lhs.
    assert (H' : exists i j F, child 0 t = Ok (TNode dsl_R_Var_Name_Decl i j true F) /\ text src i j (60 :: n ++ [62])).
    { destruct H as [i j n F _ H1 H2|i a j x0 y n F G _ _ H1 H2]; [exists i, j, F|exists i, a, F]; (split; [reflexivity|exact H1]). }
    destruct H' as (i & j & F & -> & Ht). cbn [rbind]. unfold tree_text. cbn [t_start t_end].
    destruct (slice_delimited _ _ _ _ _ _ Hu (eq_refl : 60 < 128) (eq_refl : 62 < 128) Ht) as [-> _]. by eexists.
  Qed.
  Lemma comments_answers fuel ts cs imports nm rhs cm : Forall2 (comment_rep src) ts cs ->
    answers (forallb (fun c => negb (bool_decide (c = []))) cs) (c_rule_loop lr sym src fuel ts imports (Some nm) rhs cm).
  Proof using Hu.
    intros H. revert cm. induction H as [|t l ts cs Ht HF IH]; intros cm; [by eexists|].
    assert (Hl : t_label t = dsl_R_Comment) by (by destruct Ht). cbn [c_rule_loop forallb]. rewrite Hl.
    change (dsl_R_Comment =? dsl_R_LHS) with false. change (dsl_R_Comment =? dsl_R_RHS) with false. change (dsl_R_Comment =? dsl_R_Comment) with true. cbv iota.
    apply answers_bind; [by apply comment_answers|]. intros x _. apply IH.
  Qed.
  Lemma match_rule_answers t r imports : rule_rep src t r -> exists fuel0, forall fuel, (fuel0 <= fuel)%nat ->
    answers (rule_emits r) (match_rule lr sym src fuel t imports).
  Proof using Hu Hlr.
    intros [i j lhs rhs cs n inl_ e comments Hl Hrl Hrep Hcs]. unfold rule_emits. cbn [dr_body dr_comments].
    pose proof (build_answers lr sym src Hu Hlr _ _ Hrep (GState imports btree_new)) as Hb.
    assert (Hll : t_label lhs = dsl_R_LHS) by (by destruct Hl).
    set (fuel0 := match build lr sym src rhs (GState imports btree_new) with Ok (_, g) => length (g_tree g) | _ => O end).
    exists fuel0. intros fuel Hf. unfold match_rule. cbn [t_label t_children]. change (dsl_R_Rule =? dsl_R_Rule) with true. cbv iota.
    cbn [c_rule_loop]. rewrite Hll. change (dsl_R_LHS =? dsl_R_LHS) with true. cbv iota.
    apply (answers_bind true); [by eapply lhs_answers|]. intros m _. rewrite Hrl.
    change (dsl_R_RHS =? dsl_R_LHS) with false. change (dsl_R_RHS =? dsl_R_RHS) with true. cbv iota.
    apply answers_bind; [exact Hb|]. intros [k g] E. unfold fuel0 in Hf. rewrite E in Hf.
    unfold push. destruct (build_correct lr sym src _ _ Hrep _ _ _ E) as [_ [new Ht] Hk (l & Hm & _)].
    apply (answers_bind true); [|intros body _; by apply comments_answers].
    unfold btree_to_string. rewrite <- (app_nil_r (g_tree g ++ _)), lookup_push. cbn [b_ref b_lhs expect_key rbind].
    rewrite app_nil_r, Hm by (simpl; lia). by eexists.
  Qed.
  Lemma generate_loop_answers ts rules : Forall2 (rule_rep src) ts rules -> forall imports, exists fuel0, forall fuel, (fuel0 <= fuel)%nat ->
    answers (forallb rule_emits rules) (generate_loop lr sym src fuel ts imports).
  Proof using Hu Hlr.
    induction 1 as [|t r ts rules Ht HF IH]; intros imports; [exists O; by eexists|].
    destruct (match_rule_answers t r imports Ht) as (f1 & H1). destruct (IH (imports ++ hooks_of (dr_body r))) as (f2 & H2).
    exists (Nat.max f1 f2). intros fuel Hf. cbn [generate_loop forallb]. apply answers_bind; [apply H1; lia|].
    intros [f im] E. apply (match_rule_correct lr sym src _ _ _ _ _ _ Ht) in E as (-> & _).
    rewrite <- (andb_true_r (forallb rule_emits rules)). apply answers_bind; [apply H2; lia|]. intros [? ?] _. by eexists.
  Qed.

  (** The symbol table never panics on such trees. *)
  Lemma decl_total sib i j F n st : leaves F -> text src i j (60 :: n ++ [62]) ->
    symbol_kernel src sib (TNode dsl_R_Var_Name_Decl i j true F) st =
      (let! x := check_semantic_instructions n sib (sy_inline st) in Ok (SymTable (sy_names st ++ [n]) x)).
  Proof using Hu.
    intros HF Ht. cbn [symbol_kernel t_label t_ok]. change (dsl_R_Var_Name_Decl =? dsl_R_Var_Name_Decl) with true. cbn [negb]. cbv iota.
    rewrite (inner_ok _ _ _ _ _ _ 60 n 62 Hu) by done. cbn [rbind].
    destruct (check_semantic_instructions n sib (sy_inline st)); cbn [rbind]; [|done|done]. by rewrite (leaves_skip src F F HF).
  Qed.
  Lemma lhs_total t n b sib st : lhs_rep src t n b -> exists st', symbol_kernel src sib t st = Ok st'.
  Proof using Hu.
    intros H. destruct H as [i j n F HF Ht Hv|i a j x y n F G HF HG Ht Hv]; rewrite kernel_node by done.
    - rewrite (decl_total _ _ _ _ _ _ HF Ht). by eexists.
    - rewrite (decl_total _ _ _ _ _ _ HF Ht). cbn [rbind check_semantic_instructions t_label].
      change (dsl_R_Var_Name_Decl =? dsl_R_Semantic_Instructions) with false. change (dsl_R_Semantic_Instructions =? dsl_R_Semantic_Instructions) with true.
      cbv iota. cbn [child t_children lookup list_lookup rbind].
      rewrite symbol_skip; [by eexists|].
      simpl. rewrite !andb_true_r. eapply leaves_in; [|done]. intros l Hl. by apply rhs_not_decl, leaf_rhs_label.
  Qed.
  Lemma rule_total t r sib st : rule_rep src t r -> exists st', symbol_kernel src sib t st = Ok st'.
  Proof using Hu.
    intros [i j lhs rhs cs n inl_ e comments Hl Hrl Hrep Hcs]. rewrite kernel_node by done.
    destruct (lhs_total _ _ _ (lhs :: rhs :: cs) st Hl) as (st1 & ->). cbn [rbind].
    rewrite symbol_skip by (eapply tree_in_impl; [apply rhs_not_decl|by eapply rep_in]). cbn [rbind].
    generalize (lhs :: rhs :: cs). intros sib'.
    induction Hcs as [|t1 l cs1 comments1 Ht Hcs IH]; [by eexists|].
    rewrite symbol_skip by (by eapply comment_in). cbn [rbind]. auto.
  Qed.
  Lemma symbols_total ts rules : Forall2 (rule_rep src) ts rules -> forall st, exists st', symbol_children src ts st = Ok st'.
  Proof using Hu.
    induction 1 as [|t r ts rules Ht HF IH]; intros st; [by eexists|]. cbn [symbol_children].
    destruct (rule_total t r (t_children t) st Ht) as (st1 & ->). cbn [rbind]. apply IH.
  Qed.
End rules.
