(** From the cleaned tree of a grammar file to the generated code, rule by rule. *)
From Verif Require Import SpecCompile ProofPeg ProofTree ProofTrace ProofDsl ProofBuild.

Lemma match_ref_mono fuel : forall fuel' t k r, match_ref fuel t k = r -> r <> NoFuel -> (fuel <= fuel')%nat ->
  match_ref fuel' t k = r.
Proof.
  induction fuel as [|fuel IH]; intros fuel' t k r H Hn Hf; [by subst|].
  destruct fuel' as [|fuel']; [lia|]. assert (Hf' : (fuel <= fuel')%nat) by lia. clear Hf.
  cbn [match_ref] in *. destruct (t !! N.to_nat k) as [[rf lhs rhs]|]; [|done]. simpl in *.
  assert (Hu : forall a, match_ref fuel t a <> NoFuel -> match_ref fuel' t a = match_ref fuel t a).
  { intros a Ha. by eapply IH. }
  destruct rf; try done; destruct lhs as [a|]; simpl in *; try done;
    try (destruct (match_ref fuel t a) as [la| |] eqn:Ea; simpl in *; [|rewrite Hu; rewrite ?Ea; done|congruence]);
    try (rewrite Hu; rewrite ?Ea; simpl; [done|done]);
    rewrite Hu; rewrite ?Ea; simpl; try done;
    destruct rhs as [b|]; simpl in *; try done;
    destruct (match_ref fuel t b) as [lb| |] eqn:Eb; simpl in *; try (rewrite Hu; rewrite ?Eb; done); congruence.
Qed.

Section rules.
  Context (lr : name_map name_set) (sym : symbol_table) (src : list N).

  Lemma run_body_exec sc f l k : run_body sc f (l ++ [SExec k]) = f' ← run_stmts sc f l; lookup_env k (fr_env f').
  Proof.
    revert f. induction l as [|x l IH]; intros f; [done|].
    change ((x :: l) ++ [SExec k]) with (x :: (l ++ [SExec k])). cbn [run_stmts].
    destruct (l ++ [SExec k]) as [|y r] eqn:E; [by destruct l|].
    assert (H : run_body sc f (x :: y :: r) = f0 ← run_stmt sc f x; run_body sc f0 (y :: r)) by (by destruct x).
    rewrite H. destruct (run_stmt sc f x); simpl; [apply IH|done].
  Qed.

  (** A right-hand side: imports and meaning of the body. *)
  Lemma rhs_body fuel imports t e k g last tr body : rep src t e ->
    build lr sym src t (GState imports btree_new) = Ok (k, g) ->
    push (g_tree g) RExec (Some k) None = (last, tr) -> btree_to_string fuel tr last = Ok body ->
    g_imports g = imports ++ hooks_of e /\
    forall sc, run_body sc frame_empty body = cmp lr sym sc e.
  Proof.
    intros Hr Hb Hp Hs. apply (build_correct lr sym src _ _ Hr) in Hb as [Hi [new Ht] Hk (l & Hl & Hrun)].
    split; [done|]. intros sc. unfold push in Hp. injection Hp as <- <-.
    unfold btree_to_string in Hs. rewrite <- (app_nil_r (g_tree g ++ _)), lookup_push in Hs. simpl in Hs.
    apply rbind_Ok_inv in Hs as (l' & Hs & E). injection E as <-.
    specialize (Hl [BNode RExec (Some k) None] (Nat.max fuel (length (g_tree g)))  ltac:(lia)).
    rewrite app_nil_r in Hs. apply (match_ref_mono _ (Nat.max fuel (length (g_tree g)))) in Hs; [|done|lia].
    assert (l' = l) as -> by congruence.
    rewrite run_body_exec. specialize (Hrun sc frame_empty). unfold runs in Hrun.
    fold (cmp lr sym sc e). destruct (cmp lr sym sc e).
    - destruct Hrun as (f' & -> & Hv & _). done.
    - by rewrite Hrun.
  Qed.

  Definition comment_lines (l : list N) : list (list N) := map trim (split_lines l).
  Lemma comment_fold cs a l n : Forall2 (ascii_node src) cs l ->
    Forall2 (fun t k => t_start t = a + 1 + N.of_nat k) cs (seq n (length l)) ->
    forall st, fold_left (fun acc c =>
      if t_label c =? dsl_R_ASCII then
        match acc with None => Some (t_start c, t_end c) | Some (a, _) => Some (a, t_end c) end
      else acc) cs (Some (st, a + 1 + N.of_nat n)) = Some (st, a + 1 + N.of_nat (n + length l)).
  Proof.
    intros H. revert n. induction H as [|t c cs l Ht H IH]; intros n Hs st; simpl.
    - f_equal. f_equal. lia.
    - simpl in Hs. apply list.Forall2_cons_1 in Hs as [Ha Hs]. destruct Ht as [i c Hx Hc]. simpl in *.
      replace (i + 1) with (a + 1 + N.of_nat (S n)) by lia. rewrite IH by done. f_equal. f_equal. lia.
  Qed.
  Lemma comment_span_eq t l : comment_rep src t l ->
    exists a b, text src (a + 1) (b - 1) l /\
      comment_span (t_children t) = match l with [] => None | _ => Some (a + 1, b - 1) end.
  Proof.
    intros [i j a b cs l' Ht Hl HF Hs]. exists a, b. simpl.
    assert (Hb : b = a + N.of_nat (length l') + 2). { destruct Ht as [-> _]. simpl. rewrite app_length. simpl. lia. }
    split.
    - change (35 :: l' ++ [35]) with ([35] ++ l' ++ [35]) in Ht.
      apply text_app_inv in Ht as [_ Ht]. apply text_app_inv in Ht as [Ht _]. simpl in Ht.
      replace (b - 1) with (a + 1 + N.of_nat (length l')) by lia. done.
    - unfold comment_span. destruct HF as [|t1 c cs1 l1 Hc HF]; [done|]. simpl in Hs.
      apply list.Forall2_cons_1 in Hs as [Ha Hs]. destruct Hc as [k c Hx Hc]. simpl in Ha. simpl.
      subst k. replace (a + 1 + 0 + 1) with (a + 1 + N.of_nat 1) by lia.
      rewrite (comment_fold _ _ _ _ HF Hs). simpl in Hb. f_equal. f_equal; lia.
  Qed.
  Lemma c_comment_eq t l x : comment_rep src t l -> c_comment src t = Ok x -> x = comment_lines l /\ l <> [].
  Proof.
    intros Hr H. destruct (comment_span_eq _ _ Hr) as (a & b & Ht & Hs). unfold c_comment in H. rewrite Hs in H.
    destruct l as [|c l]; [done|]. apply rbind_Ok_inv in H as (y & H & E). injection E as <-.
    apply (slice_text _ _ _ _ _ Ht) in H as ->. done.
  Qed.

  Definition last_comment (cs : list (list N)) : list (list N) :=
    match list.last cs with None => [] | Some l => comment_lines l end.
  Lemma last_cons_app {A} (x : A) l : list.last (x :: l) = match list.last l with None => Some x | Some y => Some y end.
  Proof. rewrite last_cons. by destruct (list.last l). Qed.

  Lemma comment_loop fuel ts cs imports nm rhs cm f imports' : Forall2 (comment_rep src) ts cs ->
    c_rule_loop lr sym src fuel ts imports (Some nm) rhs cm = Ok (f, imports') ->
    imports' = imports /\ gf_name f = nm /\ gf_body f = rhs /\
    gf_comment f = (match list.last cs with None => cm | Some l => comment_lines l end) /\ Forall (fun c => c <> []) cs.
  Proof.
    intros HF. revert cm. induction HF as [|t l ts cs Ht HF IH]; intros cm H; simpl in H.
    - injection H as <- <-. simpl. done.
    - assert (Hl : t_label t = dsl_R_Comment) by (by destruct Ht). rewrite Hl in H. simpl in H.
      apply rbind_Ok_inv in H as (x & H1 & H). apply (c_comment_eq _ _ _ Ht) in H1 as [-> Hne].
      destruct (IH _ H) as (-> & -> & -> & -> & Hcs). rewrite last_cons_app.
      split; [done|]. split; [done|]. split; [done|]. split; [by destruct (list.last cs)|by constructor].
  Qed.

  Lemma c_lhs_eq t n b x : lhs_rep src t n b -> c_lhs src t = Ok x -> x = n.
  Proof.
    intros H. unfold c_lhs. assert (H' : exists i j F, child 0 t = Ok (TNode dsl_R_Var_Name_Decl i j true F) /\ text src i j (60 :: n ++ [62])).
    { destruct H as [i j n F _ H1 H2|i a j x0 y n F G _ _ H1 H2]; [exists i, j, F|exists i, a, F]; (split; [reflexivity|exact H1]). }
    destruct H' as (i & j & F & -> & Ht). simpl. intros E. apply rbind_Ok_inv in E as (y & E & E2).
    unfold tree_text in E. simpl in E. apply (slice_text _ _ _ _ _ Ht) in E as ->. injection E2 as <-.
    change (60 :: n ++ [62]) with ((60 :: n) ++ [62]). rewrite removelast_last. by destruct n.
  Qed.

  (** What is generated for one rule. *)
  Record fn_for (r : drule) (f : gen_fn) : Prop := FnFor {
    ff_name : gf_name f = to_lowercase (dr_name r);
    ff_comment : gf_comment f = last_comment (dr_comments r);
    ff_body : forall sc, run_body sc frame_empty (gf_body f) = cmp lr sym sc (dr_body r) }.

  Lemma match_rule_correct fuel t r imports f imports' : rule_rep src t r ->
    match_rule lr sym src fuel t imports = Ok (f, imports') ->
    imports' = imports ++ hooks_of (dr_body r) /\ fn_for r f /\ Forall (fun c => c <> []) (dr_comments r).
  Proof.
    intros Hr H. destruct Hr as [i j lhs rhs cs n inl_ e comments Hl Hrl Hrep Hcs].
    unfold match_rule in H. simpl in H. assert (Hll : t_label lhs = dsl_R_LHS) by (by destruct Hl).
    rewrite Hll in H. simpl in H. apply rbind_Ok_inv in H as (m & H1 & H). apply (c_lhs_eq _ _ _ _ Hl) in H1 as ->.
    rewrite Hrl in H. simpl in H. apply rbind_Ok_inv in H as ([k g] & H1 & H).
    apply rbind_Ok_inv in H as (body & H2 & H).
    destruct (rhs_body _ _ _ _ _ _ _ _ _ Hrep H1 eq_refl H2) as [Hi Hb].
    destruct (comment_loop _ _ _ _ _ _ _ _ _ Hcs H) as (-> & Hn & Hb' & Hc & Hne). simpl.
    split; [done|]. split; [|done]. constructor; simpl; [done| |].
    - rewrite Hc. unfold last_comment. done.
    - by rewrite Hb'.
  Qed.

  Definition all_hooks (rules : list drule) : list name := concat (map (fun r => hooks_of (dr_body r)) rules).
  Lemma generate_loop_correct fuel ts rules imports fs imports' : Forall2 (rule_rep src) ts rules ->
    generate_loop lr sym src fuel ts imports = Ok (fs, imports') ->
    imports' = imports ++ all_hooks rules /\ Forall2 fn_for rules fs /\
    Forall (fun r => Forall (fun c => c <> []) (dr_comments r)) rules.
  Proof.
    intros HF. revert imports fs imports'. induction HF as [|t r ts rules Ht HF IH]; intros imports fs imports' H; simpl in H.
    - injection H as <- <-. unfold all_hooks. simpl. rewrite app_nil_r. done.
    - apply rbind_Ok_inv in H as ([f im] & H1 & H). apply rbind_Ok_inv in H as ([r' im'] & H2 & H). injection H as <- <-.
      apply (match_rule_correct _ _ _ _ _ _ Ht) in H1 as (-> & Hf & Hc). apply IH in H2 as (-> & Hfs & Hcs).
      unfold all_hooks. simpl. rewrite app_assoc. split; [done|]. split; by constructor.
  Qed.
End rules.
