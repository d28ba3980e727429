(** What the DSL parser accepts, and the shape of the tree it builds: every
    accepted file spells a list of rules (SpecDsl) and the cleaned tree
    represents exactly these rules. *)
From Verif Require Import Programs SpecDsl SpecProgram SpecLR SpecTerm ProofPeg ProofTree ProofTrace.
From Verif Require Import ProofComplete ProofFuel ProofTree2 ProofSafe SpecSession TheoremsKernel TheoremsPackrat.
From Verif Require Import ProofPegTotal Checks TheoremsTotal.

Notation dsl_g := (grammar_of dsl_program).

(** Labels of the nodes left below a terminal, a number or a name. *)
Definition leaf_label (l : N) : bool :=
  (l =? dsl_R_ASCII) || (l =? dsl_R_Epsilon) || (l =? dsl_R_HexVal) || (l =? dsl_R_Num) || (l =? dsl_R_NumNoZero).
Notation leaves F := (forallb (tree_in leaf_label) F = true).

(** ** Trees that represent syntax *)
Section rep.
  Context (s : list N).
  (** A child of a string or comment that stands for one byte. *)
  Inductive ascii_node : ptree -> N -> Prop :=
    | an i c : text s i (i + 1) [c] -> c <= 255 -> ascii_node (TNode dsl_R_ASCII i (i + 1) true []) c.
  Inductive bound_rep : ptree -> dbound -> Prop :=
    | br_quoted i j F c : leaves F -> quoted s i j c -> bound_rep (TNode dsl_R_Terminal i j true F) (BQuoted c)
    | br_hex i j F ds : leaves F -> hexnum s i j ds -> bound_rep (TNode dsl_R_Hex i j true F) (BHex ds)
    | br_int i j F ds : leaves F -> integer s i j ds -> bound_rep (TNode dsl_R_Integer i j true F) (BInt ds).

  Inductive rep : ptree -> dexp -> Prop :=
    | rep_rhs i j c e : t_label c ∈ [dsl_R_Ordered_Choice; dsl_R_Sequence; dsl_R_Atom] -> rep c e ->
        rep (TNode dsl_R_RHS i j true [c]) e
    | rep_alt i j cs es : reps cs es -> (2 <= length es)%nat -> rep (TNode dsl_R_Ordered_Choice i j true cs) (DAlt es)
    | rep_seq i j cs es : reps cs es -> (2 <= length es)%nat -> rep (TNode dsl_R_Sequence i j true cs) (DSeq es)
    | rep_atom i j c e :
        t_label c ∈ [dsl_R_And_Predicate; dsl_R_Not_Predicate; dsl_R_One_Or_More; dsl_R_Zero_Or_More; dsl_R_Optional; dsl_R_Nucleus] ->
        rep c e -> rep (TNode dsl_R_Atom i j true [c]) e
    | rep_and i j c e : t_label c = dsl_R_Nucleus -> rep c e -> rep (TNode dsl_R_And_Predicate i j true [c]) (DAnd e)
    | rep_not i j c e : t_label c = dsl_R_Nucleus -> rep c e -> rep (TNode dsl_R_Not_Predicate i j true [c]) (DNot e)
    | rep_plus i j c e : t_label c = dsl_R_Nucleus -> rep c e -> rep (TNode dsl_R_One_Or_More i j true [c]) (DPlus e)
    | rep_star i j c e : t_label c = dsl_R_Nucleus -> rep c e -> rep (TNode dsl_R_Zero_Or_More i j true [c]) (DStar e)
    | rep_opt i j c e : t_label c = dsl_R_Nucleus -> rep c e -> rep (TNode dsl_R_Optional i j true [c]) (DOpt e)
    | rep_nucleus i j c e :
        t_label c ∈ [dsl_R_OrderedChoiceMatchRange; dsl_R_Hooked_Call; dsl_R_Subexpression; dsl_R_Terminal; dsl_R_StringTerminal; dsl_R_Var_Name_Ref] ->
        rep c e -> rep (TNode dsl_R_Nucleus i j true [c]) e
    | rep_range i j a b x y : bound_rep a x -> bound_rep b y -> rep (TNode dsl_R_OrderedChoiceMatchRange i j true [a; b]) (DRange x y)
    | rep_hook i a j c n e : t_label c = dsl_R_RHS -> t_start c = a + 1 -> text s i a n -> valid_name n -> rep c e ->
        rep (TNode dsl_R_Hooked_Call i j true [c]) (DHook n e)
    | rep_group i j c e : t_label c = dsl_R_RHS -> rep c e -> rep (TNode dsl_R_Subexpression i j true [c]) (DGroup e)
    | rep_quoted i j F c : leaves F -> quoted s i j c -> rep (TNode dsl_R_Terminal i j true F) (DQuoted c)
    | rep_string i j cs l : Forall2 ascii_node cs l -> string_body l -> rep (TNode dsl_R_StringTerminal i j true cs) (DString l)
    | rep_hexlit i j F ds : leaves F -> hexnum s i j ds -> rep (TNode dsl_R_StringTerminal i j true [TNode dsl_R_Hex i j true F]) (DHexLit ds)
    | rep_intlit i j F ds : leaves F -> integer s i j ds -> rep (TNode dsl_R_StringTerminal i j true [TNode dsl_R_Integer i j true F]) (DIntLit ds)
    | rep_ref i j F n : leaves F -> text s i j (60 :: n ++ [62]) -> valid_name n -> rep (TNode dsl_R_Var_Name_Ref i j true F) (DRef n)
  with reps : list ptree -> list dexp -> Prop :=
    | reps_nil : reps [] []
    | reps_cons c cs e es : t_label c = dsl_R_Atom -> rep c e -> reps cs es -> reps (c :: cs) (e :: es).

  Inductive lhs_rep : ptree -> list N -> bool -> Prop :=
    | lr_plain i j n F : leaves F -> text s i j (60 :: n ++ [62]) -> valid_name n ->
        lhs_rep (TNode dsl_R_LHS i j true [TNode dsl_R_Var_Name_Decl i j true F]) n false
    | lr_inline i a j x y n F G : leaves F -> leaves G -> text s i a (60 :: n ++ [62]) -> valid_name n ->
        lhs_rep (TNode dsl_R_LHS i j true
          [TNode dsl_R_Var_Name_Decl i a true F; TNode dsl_R_Semantic_Instructions x y true [TNode dsl_R_Inline x y true G]]) n true.
  Inductive comment_rep : ptree -> list N -> Prop :=
    | cr i j a b cs l : text s a b (35 :: l ++ [35]) -> Forall (fun c => c <> 35 /\ c <= 255) l -> Forall2 ascii_node cs l ->
        Forall2 (fun t k => t_start t = a + 1 + N.of_nat k) cs (seq 0 (length l)) ->
        comment_rep (TNode dsl_R_Comment i j true cs) l.
  Inductive rule_rep : ptree -> drule -> Prop :=
    | rr i j lhs rhs cs n inline_ e comments : lhs_rep lhs n inline_ -> t_label rhs = dsl_R_RHS -> rep rhs e ->
        Forall2 comment_rep cs comments ->
        rule_rep (TNode dsl_R_Rule i j true (lhs :: rhs :: cs)) (DRule n inline_ e comments).
End rep.

Lemma dsl_nul A body : dsl_g A = Some body -> nullable (nul_of dsl_table) body = true -> nul_of dsl_table A = true.
Proof.
  unfold grammar_of. intros H. apply fmap_Some in H as (e & He & ->). exact (proj2 (dsl_wf _ _ He)).
Qed.

Section dsl.
  Context (s : list N).
  Notation tr := (trace dsl_g s).

  Lemma tr_lt e i j F : tr e i (Some j) F -> nullable (nul_of dsl_table) e = false -> i < j.
  Proof.
    intros H Hn. destruct (tr_consumes _ _ _ dsl_nul _ _ _ _ H _ eq_refl) as [H1 H2].
    destruct (decide (j = i)) as [->|]; [|lia]. by rewrite H2 in Hn.
  Qed.
  Lemma tr_fclean e i F n : tr e i None F -> fclean dsl_g n e = true -> prune_forest F = [].
  Proof. intros H Hn. by eapply fclean_sound. Qed.
  Lemma tr_quiet e i o F n : tr e i o F -> quiet dsl_g n e = true -> F = [].
  Proof. intros H Hn. by eapply quiet_sound. Qed.

  (** Repetition: a chain of steps. *)
  Inductive steps {X} (Q : N -> N -> list ptree -> X -> Prop) : N -> N -> list ptree -> list X -> Prop :=
    | steps_nil i : steps Q i i [] []
    | steps_cons i j k F G x xs : Q i j F x -> steps Q j k G xs -> steps Q i k (F ++ G) (x :: xs).
  Lemma fheight_app F G : fheight (F ++ G) = Nat.max (fheight F) (fheight G).
  Proof. induction F as [|t F IH]; simpl; [done|]. rewrite IH. lia. Qed.
  Lemma node_height r i j b F : fheight [TNode r i j b F] = S (fheight F).
  Proof. change (Nat.max (theight (TNode r i j b F)) 0 = S (fheight F)). by rewrite Nat.max_0_r. Qed.
  Lemma tr_star_h {X} (Q : N -> N -> list ptree -> X -> Prop) e n m i j F :
    (forall i j F, tr e i (Some j) F -> (fheight F <= m)%nat -> exists x, Q i j (prune_forest F) x) -> fclean dsl_g n e = true ->
    tr (PStar e) i (Some j) F -> (fheight F <= m)%nat -> exists xs, steps Q i j (prune_forest F) xs.
  Proof.
    intros HQ Hc H Hm. remember (PStar e) as p eqn:Ep. remember (Some j) as o eqn:Eo.
    revert j Eo. induction H; try discriminate Ep; intros k Eo; simplify_eq.
    - exists []. rewrite (tr_fclean _ _ _ _ H Hc). constructor.
    - rewrite fheight_app in Hm. destruct (HQ _ _ _ H) as [x Hx]; [lia|]. destruct (IHtrace2 eq_refl ltac:(lia) k eq_refl) as [xs Hxs].
      exists (x :: xs). rewrite prune_forest_app. econstructor; eauto.
  Qed.
  Lemma tr_star {X} (Q : N -> N -> list ptree -> X -> Prop) e n i j F :
    (forall i j F, tr e i (Some j) F -> exists x, Q i j (prune_forest F) x) -> fclean dsl_g n e = true ->
    tr (PStar e) i (Some j) F -> exists xs, steps Q i j (prune_forest F) xs.
  Proof. intros HQ Hc H. eapply tr_star_h; eauto. Qed.
  Lemma prune_ok r i j F G : i < j ->
    prune_forest (TNode r i j true F :: G) = TNode r i j true (prune_forest F) :: prune_forest G.
  Proof. intros H. simpl. unfold keep. simpl. destruct (N.eqb_spec i j); [lia|done]. Qed.
  Lemma tr_node r A i j F : tr (PRef (Some r) A) i (Some j) F -> nul_of dsl_table A = false -> only_labels dsl_g leaf_label 30 (PRef None A) = true ->
    exists F', prune_forest F = [TNode r i j true F'] /\ leaves F'.
  Proof.
    intros H Hn Hw. assert (Hl : i < j) by (by eapply tr_lt). apply tr_node_inv in H as (body & F' & Hb & -> & H).
    rewrite prune_ok by done. exists (prune_forest F'). split; [done|].
    apply prune_forest_in. apply (only_labels_body _ _ 29 _ _ _ Hw) in Hb. by eapply only_labels_sound.
  Qed.
  (** Steps that read one byte each. *)
  Definition char_step (P : N -> Prop) (i j : N) (F : list ptree) (c : N) : Prop :=
    F = [] /\ j = i + 1 /\ text s i (i + 1) [c] /\ P c.
  Lemma mk_step (P : N -> Prop) i c : text s i (i + 1) [c] -> P c -> char_step P i (i + 1) [] c.
  Proof. by unfold char_step. Qed.
  Lemma char_steps P i j F l : steps (char_step P) i j F l -> F = [] /\ text s i j l /\ Forall P l.
  Proof.
    induction 1 as [i|i j k F G c l (-> & -> & Ht & Hc) _ (-> & IH1 & IH2)].
    - split; [done|]. split; [apply text_nil|constructor].
    - split; [done|]. split; [|by constructor]. by apply (text_app s _ _ _ [c] l Ht IH1).
  Qed.

  Lemma char_steps' P i j F l : steps (fun i j _ c => char_step P i j [] c) i j F l -> text s i j l /\ Forall P l.
  Proof.
    induction 1 as [i|i j k F G c l (_ & -> & Ht & Hc) _ (IH1 & IH2)].
    - split; [apply text_nil|constructor].
    - split; [|by constructor]. by apply (text_app s _ _ _ [c] l Ht IH1).
  Qed.

  (** Inversion of a successful trace into its parts. *)
  Ltac unref H Eb := vm_compute in Eb; injection Eb as <-.
  Ltac fails H := let Hf := fresh "Hf" in first [pose proof (tr_fclean _ _ _ 30 H eq_refl) as Hf; clear H | idtac].

  Lemma tr_letter i j F : tr (PAlt (PRef None 1) (PRef None 0)) i (Some j) F -> exists c, char_step letter i j F c.
  Proof.
    intros H. apply tr_alt_inv in H as [H|(F1 & F2 & -> & H1 & H)].
    - apply tr_inline_inv in H as (body & Eb & H). unref H Eb. apply tr_range_inv in H as (-> & -> & c & H & Hc).
      exists c. apply mk_step; [done|by left].
    - assert (F1 = []) as -> by (by apply (tr_quiet _ _ _ _ 5 H1)).
      apply tr_inline_inv in H as (body & Eb & H). unref H Eb. apply tr_range_inv in H as (-> & -> & c & H & Hc).
      exists c. apply mk_step; [done|by right].
  Qed.
  Lemma tr_name i j F : tr (PRef None 24) i (Some j) F -> F = [] /\ exists n, text s i j n /\ valid_name n.
  Proof.
    intros H. split; [by apply (tr_quiet _ _ _ _ 20 H)|].
    apply tr_inline_inv in H as (body & Eb & H). unref H Eb.
    apply tr_seq_inv in H as (k & F1 & F2 & -> & H1 & H2).
    apply tr_letter in H1 as (c & -> & -> & Hc & Hl).
    eapply (tr_star (char_step (fun c => letter c \/ c = 95)) _ 20) in H2 as [l H2]; [|clear|done].
    - apply char_steps in H2 as (_ & H2 & H3). exists (c :: l). split; [by apply (text_app s _ _ _ [c] l Hc H2)|].
      by exists c, l.
    - intros i j F H. apply tr_alt_inv in H as [H|(F1 & F2 & -> & H1 & H)].
      + apply tr_letter in H as (c & -> & -> & Hc & Hl). exists c. apply mk_step; [done|by left].
      + rewrite prune_forest_app, (tr_fclean _ _ _ 10 H1 eq_refl). apply tr_char_inv in H as (-> & -> & H).
        exists 95. apply mk_step; [done|by right].
  Qed.
  Lemma tr_ws i j F : tr (PRef None 44) i (Some j) F -> F = [] /\ blank s i j.
  Proof.
    intros H. split; [by apply (tr_quiet _ _ _ _ 20 H)|].
    apply tr_inline_inv in H as (body & Eb & H). unref H Eb.
    eapply (tr_star (char_step (fun c => c = 32 \/ c = 10 \/ c = 13 \/ c = 9)) _ 20) in H as [l H]; [|clear|done].
    - apply char_steps in H as (_ & H2 & H3). by exists l.
    - intros i j F H.
      assert (F = []) as -> by (by apply (tr_quiet _ _ _ _ 20 H)).
      apply tr_alt_inv in H as [H|(?&?&?&_&H)];
          [apply tr_alt_inv in H as [H|(?&?&?&_&H)];
            [apply tr_alt_inv in H as [H|(?&?&?&_&H)]|]|];
          apply tr_char_inv in H as (_&->&H); eexists; (split; [done|]); (split; [done|]); (split; [exact H|]); tauto.
  Qed.

  (** Takes a successful trace apart, down to labelled rules. *)
  Ltac tinv H :=
    lazymatch type of H with
    | trace _ _ (PSeq _ _) _ (Some _) _ =>
        let k := fresh "k" in let F1 := fresh "F" in let F2 := fresh "F" in
        let E := fresh "E" in let H1 := fresh "H" in
        apply tr_seq_inv in H as (k & F1 & F2 & E & H1 & H); subst; tinv H1; tinv H
    | trace _ _ (PChar _) _ (Some _) _ =>
        let E1 := fresh "E" in let E2 := fresh "E" in apply tr_char_inv in H as (E1 & E2 & H); subst
    | trace _ _ (PRange _ _) _ (Some _) _ =>
        let E1 := fresh "E" in let E2 := fresh "E" in let c := fresh "c" in let Hc := fresh "Hc" in
        apply tr_range_inv in H as (E1 & E2 & c & H & Hc); subst
    | trace _ _ (PRef None 44) _ (Some _) _ =>
        let E1 := fresh "E" in apply tr_ws in H as (E1 & H); subst
    | trace _ _ (PRef None 24) _ (Some _) _ =>
        let E1 := fresh "E" in let n := fresh "n" in let Hn := fresh "Hn" in apply tr_name in H as (E1 & n & H & Hn); subst
    | trace _ _ (PRef None _) _ (Some _) _ =>
        let b := fresh "b" in let Eb := fresh "Eb" in
        apply tr_inline_inv in H as (b & Eb & H); unref H Eb; tinv H
    | trace _ _ (PRef (Some _) _) _ (Some _) _ =>
        let b := fresh "b" in let Eb := fresh "Eb" in let F := fresh "F" in let E := fresh "E" in
        apply tr_node_inv in H as (b & F & Eb & E & H); unref H Eb; subst
    | trace _ _ (PAlt _ _) _ (Some _) _ =>
        let F1 := fresh "F" in let F2 := fresh "F" in let E := fresh "E" in let H1 := fresh "H" in
        apply tr_alt_inv in H as [H|(F1 & F2 & E & H1 & H)]; subst; [tinv H|fails H1; tinv H]
    | trace _ _ (PNot _) _ (Some _) _ =>
        let E := fresh "E" in apply tr_not_inv in H as (E & H); subst
    | trace _ _ (PStr _) _ (Some _) _ =>
        let E := fresh "E" in apply tr_str_inv in H as (E & H); subst
    | _ => idtac
    end.
  Ltac tall := repeat match goal with H : trace _ _ _ _ (Some _) _ |- _ =>
      lazymatch type of H with trace _ _ (PStar _) _ _ _ => fail | trace _ _ (PPlus _) _ _ _ => fail | trace _ _ (POpt _) _ _ _ => fail | _ => idtac end; tinv H end.
  Ltac txt := simpl; repeat (eapply (text_app _ _ _ _ [_]); [eassumption|]); first [eassumption|apply text_nil].

  Lemma tr_ascii i j F : tr (PRef (Some 0) 7) i (Some j) F ->
    exists c, j = i + 1 /\ ascii_node s (TNode 0 i j true []) c /\ F = [TNode 0 i j true []] /\ text s i j [c].
  Proof. intros H. tinv H. tinv H. exists c. split; [done|]. split; [constructor; [done|lia]|done]. Qed.

  Lemma tr_terminal i j F : tr (PRef (Some dsl_R_Terminal) dsl_f_terminal) i (Some j) F ->
    exists F' c, prune_forest F = [TNode dsl_R_Terminal i j true F'] /\ leaves F' /\ quoted s i j c.
  Proof.
    intros H. destruct (tr_node _ _ _ _ _ H eq_refl eq_refl) as (F' & HF & HL). exists F'. rewrite HF. clear HF.
    tall.
    - exists [c]. split; [done|]. split; [done|]. constructor; [txt|lia].
    - exists [92; 110]. split; [done|]. split; [done|]. apply q_escape; [txt|auto].
    - exists [92; 114]. split; [done|]. split; [done|]. apply q_escape; [txt|auto].
    - exists [92; 116]. split; [done|]. split; [done|]. apply q_escape; [txt|auto].
    - exists []. split; [done|]. split; [done|]. apply q_empty. txt.
  Qed.
  Lemma tr_hex i j F : tr (PRef (Some dsl_R_Hex) dsl_f_hex) i (Some j) F ->
    exists F' ds, prune_forest F = [TNode dsl_R_Hex i j true F'] /\ leaves F' /\ hexnum s i j ds.
  Proof.
    intros H. destruct (tr_node _ _ _ _ _ H eq_refl eq_refl) as (F' & HF & HL). exists F'. rewrite HF. clear HF.
    tall. apply tr_plus_inv in H as (k & ? & ? & -> & HA & HB).
    assert (HV : forall i j F, tr (PRef (Some dsl_R_HexVal) dsl_f_hexval) i (Some j) F -> exists c, char_step hex_char i j [] c).
    { clear. intros i j F H. tinv H. tinv H; exists c; (apply mk_step; [done|]); [left|right]; done. }
    destruct (HV _ _ _ HA) as (c & _ & -> & Hc & Hx).
    eapply (tr_star (fun i j _ c => char_step hex_char i j [] c) _ 20) in HB as [l H2]; [|clear -HV; intros; by eapply HV|done].
    apply char_steps' in H2 as [? ?]. exists (c :: l). split; [done|]. split; [done|]. split; [txt|]. split; [done|by constructor].
  Qed.
  Lemma tr_int i j F : tr (PRef (Some dsl_R_Integer) dsl_f_integer) i (Some j) F ->
    exists F' ds, prune_forest F = [TNode dsl_R_Integer i j true F'] /\ leaves F' /\ integer s i j ds.
  Proof.
    intros H. destruct (tr_node _ _ _ _ _ H eq_refl eq_refl) as (F' & HF & HL). exists F'. rewrite HF. clear HF.
    tall.
    eapply (tr_star (fun i j _ c => char_step digit i j [] c) _ 20) in H as [l H2]; [|clear|done].
    2: { intros i j F H. tinv H. tinv H. exists c. by apply mk_step. }
    apply char_steps' in H2 as [? ?]. exists (c :: l). split; [done|]. split; [done|]. split; [txt|]. eauto.
  Qed.

  Lemma tr_bound i j F :
    tr (PAlt (PAlt (PRef (Some dsl_R_Terminal) dsl_f_terminal) (PRef (Some dsl_R_Integer) dsl_f_integer)) (PRef (Some dsl_R_Hex) dsl_f_hex)) i (Some j) F ->
    exists t x, prune_forest F = [t] /\ bound_rep s t x /\ bound_text s i j x.
  Proof.
    intros H. apply tr_alt_inv in H as [H|(F1 & F2 & -> & H1 & H)]; [apply tr_alt_inv in H as [H|(F1 & F2 & -> & H1 & H)]|];
      try (rewrite prune_forest_app, (tr_fclean _ _ _ 20 H1 eq_refl); simpl); clear -H.
    - apply tr_terminal in H as (F' & c & -> & HL & Hq). eexists _, _. split; [done|]. split; by constructor.
    - apply tr_int in H as (F' & c & -> & HL & Hq). eexists _, _. split; [done|]. split; by constructor.
    - apply tr_hex in H as (F' & c & -> & HL & Hq). eexists _, _. split; [done|]. split; by constructor.
  Qed.
  Lemma tr_range_node i j F : tr (PRef (Some dsl_R_OrderedChoiceMatchRange) dsl_f_orderedchoicematchrange) i (Some j) F ->
    exists t e, prune_forest F = [t] /\ t_label t = dsl_R_OrderedChoiceMatchRange /\ rep s t e /\ (forall k, blank s j k -> nucleus_text s i k e).
  Proof.
    intros H. assert (Hl : i < j) by (by eapply tr_lt). tinv H. rewrite prune_ok by done.
    rename H into H'.
    repeat (apply tr_seq_inv in H' as (? & ? & ? & -> & H' & ?)).
    repeat match goal with H : trace _ _ (PRef None _) _ _ _ |- _ => tinv H | H : trace _ _ (PChar _) _ _ _ |- _ => tinv H end.
    repeat match goal with H : trace _ _ (PAlt _ _) _ _ _ |- _ => apply tr_bound in H as (? & ? & ? & ? & ?) end.
    rewrite !prune_forest_app. simpl. repeat match goal with H : prune_forest _ = _ |- _ => rewrite H; clear H end. simpl.
    eexists _, _. split; [done|]. split; [done|]. split; [by constructor|].
    intros k Hk. eapply nt_range; try eassumption; [txt|]. by eapply blank_trans.
  Qed.
  (** One byte other than [q], with its node. *)
  Definition ascii_step (q : N) (i j : N) (F : list ptree) (c : N) : Prop :=
    F = [TNode dsl_R_ASCII i (i + 1) true []] /\ j = i + 1 /\ text s i (i + 1) [c] /\ c <> q /\ c <= 255.
  Lemma ascii_steps q i j F l : steps (ascii_step q) i j F l ->
    text s i j l /\ Forall (fun c => c <> q /\ c <= 255) l /\ Forall2 (ascii_node s) F l /\
    Forall2 (fun t k => t_start t = i + N.of_nat k) F (seq 0 (length l)).
  Proof.
    induction 1 as [i|i j k F G c l (-> & -> & Ht & Hc) _ (IH1 & IH2 & IH3 & IH4)].
    - split; [apply text_nil|]. simpl. auto.
    - split; [by apply (text_app s _ _ _ [c] l Ht IH1)|]. split; [by constructor|]. split.
      + constructor; [|done]. constructor; [done|by destruct Hc].
      + simpl. constructor; [simpl; lia|]. rewrite <- seq_shift, list.Forall2_fmap_r. eapply list.Forall2_impl; [exact IH4|].
        intros t k'. simpl. lia.
  Qed.
  Lemma tr_other_ascii q i j F : tr (PSeq (PNot (PChar q)) (PRef (Some dsl_R_ASCII) dsl_f_ascii)) i (Some j) F ->
    exists c, ascii_step q i j (prune_forest F) c.
  Proof.
    intros H. apply tr_seq_inv in H as (k & F1 & F2 & -> & H1 & H2). apply tr_not_inv in H1 as [-> H1].
    apply tr_char_fail_inv in H1 as [-> H1]. apply tr_ascii in H2 as (c & -> & H2 & -> & H3).
    exists c. simpl app. rewrite prune_ok by lia. split; [done|]. split; [done|]. split; [done|].
    apply text_one in H3. split; [congruence|]. by inversion H2.
  Qed.
  Lemma tr_unapos i o F : tr (PRef None dsl_f_apostrophe) i o F -> tr (PChar 34) i o F.
  Proof. intros H. apply tr_inline_inv in H as (b & Eb & H). unref H Eb. done. Qed.
  Lemma tr_other_ascii' i j F : tr (PSeq (PNot (PRef None dsl_f_apostrophe)) (PRef (Some dsl_R_ASCII) dsl_f_ascii)) i (Some j) F ->
    exists c, ascii_step 34 i j (prune_forest F) c.
  Proof.
    intros H. apply tr_other_ascii. apply tr_seq_inv in H as (k & F1 & F2 & -> & H1 & H2).
    apply tr_not_inv in H1 as [-> H1]. apply tr_unapos in H1. eapply tr_seq_ok; [|done]. by constructor.
  Qed.
  Lemma tr_seq_none a b i F : tr (PSeq a b) i None F -> (forall j F, tr a i (Some j) F -> False) -> tr a i None F.
  Proof. intros H Hno. inversion H; subst; [by edestruct Hno|done]. Qed.
  Lemma tr_string i j F : tr (PRef (Some dsl_R_StringTerminal) dsl_f_stringterminal) i (Some j) F ->
    exists t e, prune_forest F = [t] /\ t_label t = dsl_R_StringTerminal /\ rep s t e /\ (forall k, blank s j k -> nucleus_text s i k e).
  Proof.
    intros H. assert (Hl : i < j) by (by eapply tr_lt). tinv H. rewrite prune_ok by done.
    assert (Hfirst : forall F c, tr (PSeq (PSeq (PSeq (PRef None dsl_f_apostrophe) (PNot (PRef None dsl_f_apostrophe)))
      (PSeq (PRef (Some dsl_R_ASCII) dsl_f_ascii) (PPlus (PSeq (PNot (PRef None dsl_f_apostrophe)) (PRef (Some dsl_R_ASCII) dsl_f_ascii)))))
      (PRef None dsl_f_apostrophe)) i None F -> text s i (i + 1) [c] -> c <> 34 -> F = []).
    { clear. intros F c H Ht Hc. apply text_one in Ht.
      assert (Hno : forall F k, tr (PRef None dsl_f_apostrophe) i (Some k) F -> False).
      { intros F' k H'. apply tr_unapos, tr_char_inv in H' as (_ & _ & H'). apply text_one in H'. congruence. }
      do 3 (apply tr_seq_none in H; [|intros k F' H';
        repeat (apply tr_seq_inv in H' as (? & ? & ? & ? & H' & _)); by eapply Hno]).
      by apply tr_unapos, tr_char_fail_inv in H as [-> _]. }
    apply tr_alt_inv in H as [H|(F1 & F2 & -> & H1 & H)]; [apply tr_alt_inv in H as [H|(F1 & F2 & -> & H1 & H)]|].
    - clear Hfirst. apply tr_seq_inv in H as (k3 & G1 & G2 & -> & H & H3). apply tr_seq_inv in H as (k2 & G3 & G4 & -> & H & H2).
      apply tr_seq_inv in H as (k1 & G5 & G6 & -> & H0 & H1). apply tr_seq_inv in H2 as (k4 & G7 & G8 & -> & H2 & H4).
      apply tr_unapos, tr_char_inv in H0 as (-> & -> & H0). apply tr_unapos, tr_char_inv in H3 as (-> & -> & H3).
      apply tr_not_inv in H1 as [-> H1]. pose proof (tr_unapos _ _ _ H1) as H1'. apply tr_char_fail_inv in H1' as [-> H1'].
      apply tr_plus_inv in H4 as (k5 & F5 & F6 & -> & H4 & H5).
      assert (HA : exists c, ascii_step 34 (i + 1) k4 (prune_forest G7) c).
      { destruct (tr_other_ascii' (i + 1) k4 ([] ++ G7)) as [c Hc]; [eapply tr_seq_ok; [constructor; exact H1|exact H2]|]. by exists c. }
      destruct HA as [c HA]. apply tr_other_ascii' in H4 as [c' H4].
      eapply (tr_star (ascii_step 34) _ 20) in H5 as [l H5]; [|apply tr_other_ascii'|done].
      pose proof (steps_cons _ _ _ _ _ _ _ _ HA (steps_cons _ _ _ _ _ _ _ _ H4 H5)) as HS.
      apply ascii_steps in HS as (HS1 & HS2 & HS3 & _).
      simpl app. rewrite app_nil_r, !prune_forest_app.
      eexists _, (DString (c :: c' :: l)). split; [done|]. split; [done|].
      assert (Hb : string_body (c :: c' :: l)) by (split; [simpl; lia|done]).
      split; [by apply rep_string|].
      intros k Hk. eapply nt_string; [|done|done].
      apply (text_app s _ _ _ [34] _ H0). by apply (text_app s _ _ _ _ [34] HS1).
    - apply tr_hex in H as (F' & ds & HF & HL & Hh).
      rewrite (Hfirst F1 48 H1); [|by destruct Hh as [[? ?]%text_cons_inv _]; apply text_one|done].
      simpl app. rewrite HF. eexists _, _. split; [done|]. split; [done|]. split; [by apply rep_hexlit|].
      intros k Hk. by eapply nt_hex.
    - apply tr_int in H as (F' & ds & HF & HL & Hh).
      assert (H1' : exists G1 G2, F1 = G1 ++ G2 /\ tr (PSeq (PSeq (PSeq (PRef None dsl_f_apostrophe) (PNot (PRef None dsl_f_apostrophe)))
        (PSeq (PRef (Some dsl_R_ASCII) dsl_f_ascii) (PPlus (PSeq (PNot (PRef None dsl_f_apostrophe)) (PRef (Some dsl_R_ASCII) dsl_f_ascii)))))
        (PRef None dsl_f_apostrophe)) i None G1 /\ tr (PRef (Some dsl_R_Hex) dsl_f_hex) i None G2).
      { inversion H1; subst. eauto 10. }
      destruct H1' as (G1 & G2 & -> & H2 & H3).
      pose proof Hh as (Ht & d & r & -> & Hd & Hr). apply text_cons_inv in Ht as [Ht _].
      rewrite (Hfirst G1 d H2); [|by apply text_one|lia].
      simpl app. rewrite prune_forest_app, (tr_fclean _ _ _ 20 H3 eq_refl), HF.
      eexists _, _. split; [done|]. split; [done|]. split; [by apply rep_intlit|].
      intros k Hk. by eapply nt_int.
  Qed.
  Lemma tr_ref_name r A i j F : r = dsl_R_Var_Name_Ref /\ A = dsl_f_var_name_ref \/ r = dsl_R_Var_Name_Decl /\ A = dsl_f_var_name_decl ->
    tr (PRef (Some r) A) i (Some j) F ->
    exists F' n, prune_forest F = [TNode r i j true F'] /\ leaves F' /\ text s i j (60 :: n ++ [62]) /\ valid_name n.
  Proof.
    intros HrA H. assert (Hn : nul_of dsl_table A = false) by (by destruct HrA as [[-> ->]|[-> ->]]).
    assert (Hw : only_labels dsl_g leaf_label 30 (PRef None A) = true) by (by destruct HrA as [[-> ->]|[-> ->]]).
    destruct (tr_node _ _ _ _ _ H Hn Hw) as (F' & HF & HL). exists F'. rewrite HF. clear HF Hn.
    assert (Ht : exists n, text s i j (60 :: n ++ [62]) /\ valid_name n).
    { destruct HrA as [[-> ->]|[-> ->]]; tall; exists n; (split; [|done]);
        (eapply (text_app s _ _ _ [60]); [eassumption|]; eapply text_app; eassumption). }
    destruct Ht as (n & ? & ?). by exists n.
  Qed.

  Ltac prunes := rewrite ?prune_forest_app; simpl app; repeat match goal with H : prune_forest _ = _ |- _ => rewrite H; clear H end; simpl app.
  (** The recursive part, by induction on the height of the recorded forest. *)
  Definition good (h : nat) : Prop :=
    (forall i j F, tr (PRef (Some dsl_R_Nucleus) dsl_f_nucleus) i (Some j) F -> (fheight F <= h)%nat ->
       exists t e, prune_forest F = [t] /\ t_label t = dsl_R_Nucleus /\ rep s t e /\ nucleus_text s i j e) /\
    (forall i j F, tr (PRef (Some dsl_R_Atom) dsl_f_atom) i (Some j) F -> (fheight F <= h)%nat ->
       exists t e, prune_forest F = [t] /\ t_label t = dsl_R_Atom /\ rep s t e /\ atom_text s i j e) /\
    (forall i j F, tr (PRef (Some dsl_R_RHS) dsl_f_rhs) i (Some j) F -> (fheight F <= h)%nat ->
       exists t e, prune_forest F = [t] /\ t_label t = dsl_R_RHS /\ t_start t = i /\ rep s t e /\ rhs_text s i j e).

  Ltac alts H :=
    lazymatch type of H with
    | trace _ _ (PAlt _ _) _ (Some _) _ =>
        let F1 := fresh "F" in let F2 := fresh "F" in let H1 := fresh "H" in
        let Hp := fresh "Hp" in
        apply tr_alt_inv in H as [H|(F1 & F2 & -> & H1 & H)];
        [alts H|pose proof (tr_fclean _ _ _ 30 H1 eq_refl) as Hp; clear H1]
    | _ => idtac
    end.
  Ltac heights := rewrite ?fheight_app in *; simpl in *; rewrite ?fheight_app in *; lia.
  Ltac seqs H := repeat (let k := fresh "k" in let G := fresh "G" in let G' := fresh "G" in let H' := fresh "H" in
     apply tr_seq_inv in H as (k & G & G' & -> & H & H')).
  Ltac easy_parts := repeat match goal with
    | H : trace _ _ (PRef None _) _ (Some _) _ |- _ => tinv H
    | H : trace _ _ (PChar _) _ (Some _) _ |- _ => tinv H
    end.

  Ltac use_ih IH t e Hl Hr :=
    match goal with H : trace _ _ (PRef (Some _) _) _ (Some _) _ |- _ => destruct (IH _ _ _ H) as (t & e & -> & Hl & Hr); [heights|]; clear H end.
  Lemma good_nucleus h : good h -> forall i j F, tr (PRef (Some dsl_R_Nucleus) dsl_f_nucleus) i (Some j) F -> (fheight F <= S h)%nat ->
       exists t e, prune_forest F = [t] /\ t_label t = dsl_R_Nucleus /\ rep s t e /\ nucleus_text s i j e.
  Proof.
    intros (IHn & IHa & IHr) i j F H Hh. assert (Hl : i < j) by (by eapply tr_lt). tinv H. rewrite prune_ok by done.
    seqs H. easy_parts. rewrite node_height, fheight_app in Hh. simpl in Hh. simpl app. rewrite prune_forest_app. simpl. rewrite app_nil_r.
    assert (HN : exists c e, prune_forest G = [c] /\
      t_label c ∈ [dsl_R_OrderedChoiceMatchRange; dsl_R_Hooked_Call; dsl_R_Subexpression; dsl_R_Terminal; dsl_R_StringTerminal; dsl_R_Var_Name_Ref] /\
      rep s c e /\ nucleus_text s i j e).
    2: { destruct HN as (c & e & -> & Hc & Hr & Ht). eexists _, e. split; [done|]. split; [done|]. split; [by constructor|done]. }
    alts H; rewrite ?prune_forest_app, ?Hp; simpl app.
    - apply tr_range_node in H as (t & e & -> & Hl1 & Hr & Ht). exists t, e. split; [done|]. rewrite Hl1. split; [set_solver|]. auto.
    - assert (Hl1 : i < k) by (by eapply tr_lt). tinv H. rewrite fheight_app, node_height in Hh. rewrite prune_ok by done.
      seqs H. easy_parts. simpl app in *. rewrite app_nil_r in *.
      use_ih IHr t e Hl2 Hr. destruct Hr as (Hs2 & Hr & Ht).
      eexists _, (DHook n e). split; [done|]. split; [simpl; set_solver|].
      split; [by eapply rep_hook|]. by eapply nt_hook.
    - assert (Hl1 : i < k) by (by eapply tr_lt). tinv H. rewrite fheight_app, node_height in Hh. rewrite prune_ok by done.
      seqs H. easy_parts. simpl app in *. rewrite app_nil_r in *.
      use_ih IHr t e Hl2 Hr. destruct Hr as (Hs2 & Hr & Ht).
      eexists _, (DGroup e). split; [done|]. split; [simpl; set_solver|].
      split; [by eapply rep_group|]. by eapply nt_group.
    - apply tr_terminal in H as (F' & c & -> & HL & Hq). eexists _, _. split; [done|]. split; [simpl; set_solver|].
      split; [by apply rep_quoted|]. by eapply nt_quoted.
    - apply tr_string in H as (t & e & -> & Hl1 & Hr & Ht). exists t, e. split; [done|]. rewrite Hl1. split; [set_solver|]. auto.
    - apply (tr_ref_name dsl_R_Var_Name_Ref) in H as (F' & n & -> & HL & Ht & Hn); [|by left]. eexists _, (DRef n). split; [done|].
      split; [simpl; set_solver|]. split; [by apply rep_ref|by eapply nt_ref].
  Qed.
  Lemma good_atom h : good h -> forall i j F, tr (PRef (Some dsl_R_Atom) dsl_f_atom) i (Some j) F -> (fheight F <= S h)%nat ->
       exists t e, prune_forest F = [t] /\ t_label t = dsl_R_Atom /\ rep s t e /\ atom_text s i j e.
  Proof.
    intros (IHn & IHa & IHr) i j F H Hh. assert (Hl : i < j) by (by eapply tr_lt). tinv H. rewrite prune_ok by done.
    seqs H. easy_parts. rewrite node_height, fheight_app in Hh. simpl in Hh. simpl app. rewrite prune_forest_app. simpl. rewrite app_nil_r.
    assert (HN : exists c e, prune_forest G = [c] /\
      t_label c ∈ [dsl_R_And_Predicate; dsl_R_Not_Predicate; dsl_R_One_Or_More; dsl_R_Zero_Or_More; dsl_R_Optional; dsl_R_Nucleus] /\
      rep s c e /\ atom_text s i j e).
    2: { destruct HN as (c & e & -> & Hc & Hr & Ht). eexists _, e. split; [done|]. split; [done|]. split; [by apply rep_atom|done]. }
    alts H; rewrite ?prune_forest_app, ?Hp; simpl app;
      assert (Hl1 : i < k) by (by eapply tr_lt).
    6: { use_ih IHn t e Hl2 Hr; destruct Hr as [Hr Ht]. eexists t, e. split; [done|]. rewrite Hl2. split; [set_solver|]. split; [done|]. by eapply at_plain. }
    all: tinv H; rewrite ?fheight_app, node_height in Hh; rewrite prune_ok by done; seqs H; easy_parts; simpl app in *; rewrite ?app_nil_r in *;
      use_ih IHn t e Hl2 Hr; destruct Hr as [Hr Ht].
    - eexists _, (DAnd e). split; [done|]. split; [simpl; set_solver|]. split; [by constructor|by eapply at_and].
    - eexists _, (DNot e). split; [done|]. split; [simpl; set_solver|]. split; [by constructor|by eapply at_not].
    - eexists _, (DPlus e). split; [done|]. split; [simpl; set_solver|]. split; [by constructor|by eapply at_plus].
    - eexists _, (DStar e). split; [done|]. split; [simpl; set_solver|]. split; [by constructor|by eapply at_star].
    - eexists _, (DOpt e). split; [done|]. split; [simpl; set_solver|]. split; [by constructor|by eapply at_opt].
  Qed.

  Definition item_step (sep i j : N) (F : list ptree) (e : dexp) : Prop :=
    exists a b t, blank s i a /\ text s a (a + 1) [sep] /\ blank s (a + 1) b /\ F = [t] /\ t_label t = dsl_R_Atom /\ rep s t e /\ atom_text s b j e.
  Lemma item_steps sep i j k e F es : atom_text s i j e -> steps (item_step sep) j k F es ->
    items_text s sep i k (e :: es) /\ reps s F es.
  Proof.
    intros He H. revert i e He. induction H as [j|j j2 k F G e2 es (a & b & t & H1 & H2 & H3 & -> & H4 & H5 & H6) _ IH]; intros i e He.
    - split; constructor; done.
    - destruct (IH _ _ H6) as [IH1 IH2]. split; [|by constructor]. by eapply it_cons.
  Qed.

  Lemma good_rhs h : good h -> forall i j F, tr (PRef (Some dsl_R_RHS) dsl_f_rhs) i (Some j) F -> (fheight F <= S h)%nat ->
       exists t e, prune_forest F = [t] /\ t_label t = dsl_R_RHS /\ t_start t = i /\ rep s t e /\ rhs_text s i j e.
  Proof.
    intros (IHn & IHa & IHr) i j F H Hh. assert (Hl : i < j) by (by eapply tr_lt). tinv H. rewrite prune_ok by done.
    seqs H. easy_parts. rewrite node_height, fheight_app in Hh. simpl in Hh. simpl app.
    match goal with H : tr _ k (Some j) _ |- _ => rename H into HA end.
    assert (HN : exists c e, prune_forest G0 = [c] /\
      t_label c ∈ [dsl_R_Ordered_Choice; dsl_R_Sequence; dsl_R_Atom] /\
      rep s c e /\ rhs_text s i j e).
    2: { destruct HN as (c & e & -> & Hc & Hr & Ht). eexists _, e. split; [done|]. split; [done|]. split; [done|]. split; [by apply rep_rhs|done]. }
    alts HA; rewrite ?prune_forest_app, ?Hp; simpl app;
      assert (Hl1 : k < j) by (by eapply tr_lt).
    3: { use_ih IHa t e Hl2 Hr; destruct Hr as [Hr Ht]. eexists t, e. split; [done|]. rewrite Hl2. split; [set_solver|]. split; [done|]. by eapply rt_one. }
    all: tinv HA; rewrite ?fheight_app, node_height in Hh; rewrite prune_ok by done; seqs HA; easy_parts; simpl app in *; rewrite ?app_nil_r in *.
    - rewrite ?prune_forest_app. use_ih IHa t2 e2 Hl2 Hr2; destruct Hr2 as [Hr2 Ht2]. use_ih IHa t1 e1 Hl3 Hr1; destruct Hr1 as [Hr1 Ht1].
      assert (HS : exists es, steps (item_step 44) k0 j (prune_forest G0) es).
      { eapply (tr_star_h (item_step 44) _ 20 h) in H0; [exact H0| |done|heights]. clear -IHa. intros i j F H Hh.
        seqs H. easy_parts. simpl app in *. use_ih IHa t e Hl Hr. destruct Hr as [Hr Ht].
        exists e, i, k, t. split; [apply blank_nil|]. auto 10. }
      destruct HS as [es HS]. destruct (item_steps _ _ _ _ _ _ _ Ht2 HS) as [HI HR].
      eexists _, (DSeq (e1 :: e2 :: es)). split; [done|]. split; [simpl; set_solver|].
      split; [apply rep_seq; [simpl; constructor; [done|done|]; by constructor|simpl; lia]|].
      eapply rt_seq; [done| |simpl; lia]. by eapply it_cons.
    - rewrite ?prune_forest_app. use_ih IHa t2 e2 Hl2 Hr2; destruct Hr2 as [Hr2 Ht2]. use_ih IHa t1 e1 Hl3 Hr1; destruct Hr1 as [Hr1 Ht1].
      match goal with H : tr (PStar _) ?a _ ?G |- _ =>
        assert (HS : exists es, steps (item_step 47) a j (prune_forest G) es);
        [eapply (tr_star_h (item_step 47) _ 20 h) in H; [exact H| |done|heights]|] end.
      { clear -IHa. intros i j F H Hh.
        seqs H. easy_parts. simpl app in *. use_ih IHa t e Hl Hr. destruct Hr as [Hr Ht].
        eexists e, _, _, t. eauto 10. }
      destruct HS as [es HS]. destruct (item_steps _ _ _ _ _ _ _ Ht2 HS) as [HI HR].
      eexists _, (DAlt (e1 :: e2 :: es)). split; [done|]. split; [simpl; set_solver|].
      split; [apply rep_alt; [simpl; constructor; [done|done|]; by constructor|simpl; lia]|].
      eapply rt_alt; [done| |simpl; lia]. by eapply it_cons.
  Qed.
  Lemma good_all h : good h.
  Proof.
    induction h as [|h IH].
    - repeat split; intros i j F H Hh; exfalso; tinv H; rewrite node_height in Hh; lia.
    - split; [by apply good_nucleus|]. split; [by apply good_atom|by apply good_rhs].
  Qed.
  Lemma tr_rhs i j F : tr (PRef (Some dsl_R_RHS) dsl_f_rhs) i (Some j) F ->
       exists t e, prune_forest F = [t] /\ t_label t = dsl_R_RHS /\ rep s t e /\ rhs_text s i j e.
  Proof. intros H. destruct (good_all (fheight F)) as (_ & _ & Hg). destruct (Hg _ _ _ H) as (t & e & ? & ? & _ & ?); [lia|]. eauto 10. Qed.

  Lemma tr_lhs i j F : tr (PRef (Some dsl_R_LHS) dsl_f_lhs) i (Some j) F ->
    exists t n b a, prune_forest F = [t] /\ lhs_rep s t n b /\ text s i a (60 :: n ++ [62]) /\ valid_name n /\
      (if b then exists x y, blank s a x /\ text s x y keyword_inline /\ blank s y j else j = a).
  Proof.
    intros H. assert (Hl : i < j) by (by eapply tr_lt). tinv H. rewrite prune_ok by done. seqs H.
    apply (tr_ref_name dsl_R_Var_Name_Decl) in H as (F' & n & Hp & HL & Ht & Hn); [|by right].
    rewrite prune_forest_app, Hp. apply tr_opt_inv in H0 as [H0|[-> H0]].
    - seqs H0. easy_parts. simpl app. rewrite app_nil_r.
      match goal with H : tr (PRef (Some _) _) ?a (Some ?b) _ |- _ => assert (Hl1 : a < b) by (by eapply tr_lt) end.
      tall. rewrite !prune_ok by done.
      eexists _, n, true, k. split; [done|]. split; [by constructor|]. eauto 10.
    - rewrite (tr_fclean _ _ _ 20 H0 eq_refl). simpl. eexists _, n, false, k. split; [done|]. split; [by constructor|]. done.
  Qed.
  Lemma tr_comment i j F : tr (PRef (Some dsl_R_Comment) dsl_f_comment) i (Some j) F ->
    exists t l, prune_forest F = [t] /\ comment_rep s t l /\ comment_text s i j l.
  Proof.
    intros H. assert (Hl : i < j) by (by eapply tr_lt). tinv H. rewrite prune_ok by done. seqs H. easy_parts.
    simpl app. rewrite !app_nil_r.
    match goal with H : tr (PStar _) _ _ _ |- _ => eapply (tr_star (ascii_step 35) _ 20) in H as [l HS]; [|apply tr_other_ascii|done] end.
    apply ascii_steps in HS as (HS1 & HS2 & HS3 & HS4).
    eexists _, l. split; [done|].
    assert (Ht : text s k2 (k0 + 1) (35 :: l ++ [35])).
    { eapply (text_app s _ _ _ [35]); [eassumption|]. by eapply text_app. }
    split; [econstructor; try done|]. 
    eexists _, _. eauto.
  Qed.
  Lemma tr_rule i j F : tr (PRef (Some dsl_R_Rule) dsl_f_rule) i (Some j) F ->
    exists t r, prune_forest F = [t] /\ rule_rep s t r /\ rule_text s i j r.
  Proof.
    intros H. assert (Hl : i < j) by (by eapply tr_lt). tinv H. rewrite prune_ok by done. seqs H. easy_parts.
    simpl app. rewrite ?app_nil_r.
    match goal with H : tr (PRef (Some 11) _) _ _ _ |- _ => apply tr_lhs in H as (tl & n & b & a & Hp1 & Hl1 & Hl2 & Hl3 & Hl4) end.
    match goal with H : tr (PRef (Some 21) _) _ _ _ |- _ => apply tr_rhs in H as (t2 & e & Hp2 & Hr1 & Hr2 & Hr3) end.
    match goal with H : tr (PStar _) _ _ _ |- _ =>
      eapply (tr_star (fun i j F l => exists t, F = [t] /\ comment_rep s t l /\ comment_text s i j l) _ 20) in H as [cs HS]; [| |done] end.
    2: { clear. intros i j F H. apply tr_comment in H as (t & l & ? & ? & ?). eauto. }
    assert (HS' : forall i j F cs, steps (fun i j F l => exists t, F = [t] /\ comment_rep s t l /\ comment_text s i j l) i j F cs ->
      Forall2 (comment_rep s) F cs /\ comments_text s i j cs).
    { clear. induction 1 as [|i j k F G l ls (t & -> & Hc1 & Hc2) _ [IH1 IH2]]; [split; constructor|].
      split; [by constructor|by econstructor]. }
    apply HS' in HS as [HS1 HS2]. clear HS'.
    rewrite !prune_forest_app, Hp1, Hp2. simpl.
    eexists _, (DRule n b e cs). split; [done|]. split; [by constructor|].
    eexists a, _, _, _, _, _, _. simpl. eauto 15.
  Qed.
  Lemma tr_grammar i j F : tr (PRef (Some dsl_R_Grammar) dsl_f_grammar) i (Some j) F ->
    exists ts rules k, prune_forest F = [TNode dsl_R_Grammar i j true ts] /\ rules <> [] /\ Forall2 (rule_rep s) ts rules /\
      rules_text s i k rules /\ blank s k j.
  Proof.
    intros H. assert (Hl : i < j) by (by eapply tr_lt). tinv H. rewrite prune_ok by done. seqs H.
    apply tr_plus_inv in H as (k1 & G1 & G2 & -> & H1 & H2).
    assert (Hb : blank s k j /\ G0 = []).
    { apply tr_opt_inv in H0 as [H0|[-> H0]]; [by tinv H0|]. split; [apply blank_nil|]. by apply (tr_quiet _ _ _ _ 20 H0). }
    destruct Hb as [Hb ->]. rewrite app_nil_r.
    apply tr_rule in H1 as (t & r & Hp & Hr1 & Hr2).
    eapply (tr_star (fun i j F r => exists t, F = [t] /\ rule_rep s t r /\ rule_text s i j r) _ 20) in H2 as [rs HS]; [| |done].
    2: { clear. intros i j F H. apply tr_rule in H as (t & l & ? & ? & ?). eauto. }
    assert (HS' : forall i j F cs, steps (fun i j F l => exists t, F = [t] /\ rule_rep s t l /\ rule_text s i j l) i j F cs ->
      Forall2 (rule_rep s) F cs /\ rules_text s i j cs).
    { clear. induction 1 as [|i j k F G l ls (t & -> & Hc1 & Hc2) _ [IH1 IH2]]; [split; constructor|].
      split; [by constructor|by econstructor]. }
    apply HS' in HS as [HS1 HS2]. rewrite prune_forest_app, Hp.
    eexists _, (r :: rs), k. split; [done|]. split; [done|]. split; [by constructor|]. split; [|done].
    econstructor; done.
  Qed.
End dsl.
