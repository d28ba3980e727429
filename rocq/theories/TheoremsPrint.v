(** Theorems C59: what print shows. *)
From Verif Require Import ExampleTables SpecPrint SpecProgram SpecSession SpecSafe SpecTerm ProofBasics ProofPeg ProofSound ProofSafe ProofTree ProofTree2 TheoremsKernel TheoremsPackrat Programs Checks.
Local Open Scope N_scope.

(** The printed line without the key of the node. *)
Definition line_of (x : print_line) : option tree_line :=
  match x with PLine d _ l i j b n => Some (TreeLine d l i j b n) | PKeyZero => None end.
Definition listing_forest (mode : option bool) (depth : nat) (F : list ptree) : list tree_line := concat (map (listing mode depth) F).
Lemma listing_eq mode depth l i j b F : listing mode depth (TNode l i j b F) =
  if shown mode b then TreeLine depth l i j b (length F) :: listing_forest mode (S depth) F else [].
Proof. cbn [listing]. destruct (shown mode b); [|done]. f_equal. unfold listing_forest. induction F as [|t F IH]; [done|]. cbn [map concat]. by rewrite IH. Qed.

(** Below key 0 of a finite tree key 0 does not occur again. *)
Lemma below_root p t0 : unfolds nothing p 0 t0 ->
  (forall k t, unfolds nothing p k t -> (theight t < theight t0)%nat -> unfolds root_open p k t) /\
  (forall ks F, unfolds_list nothing p ks F -> (fheight F < theight t0)%nat -> unfolds_list root_open p ks F).
Proof.
  intros H0. 
  assert (Hk : forall n, (forall k t, unfolds nothing p k t -> (theight t < theight t0)%nat -> (theight t <= n)%nat -> unfolds root_open p k t)).
  { induction n as [|n IH]; intros k t Hu Hlt Hn; [destruct t; rewrite theight_eq in Hn; lia|].
    assert (Hne : k <> 0). { intros ->. destruct (unfolds_det nothing nothing p) as [Hd _]. rewrite (Hd _ _ Hu _ H0) in Hlt. lia. }
    destruct Hu as [k n0 F HnO Hn0 HF]. constructor; [done|done|]. rewrite theight_eq in Hlt, Hn.
    assert (Hf : (fheight F < theight t0)%nat) by lia. assert (Hfn : (fheight F <= n)%nat) by lia. clear Hlt Hn Hn0.
    induction HF as [|c ks t F Ht HF IHF]; constructor; cbn [fheight] in *; [apply IH; [done|lia|lia]|apply IHF; lia]. }
  split; [intros k t Hu Hlt; by eapply (Hk (theight t))|].
  intros ks F HF Hlt. induction HF as [|c ks t F Ht HF IHF]; constructor; cbn [fheight] in *; [eapply (Hk (theight t)); [done|lia|lia]|apply IHF; lia].
Qed.

Section print.
  Context (p : publisher) (mode : option bool).
  Definition go_children (fuel : nat) (indent : nat) := fix go (l : list N) : res (list print_line) :=
    match l with
    | [] => Ok []
    | c :: l => if c =? 0 then Ok [PKeyZero] else let! x := print_kernel fuel mode p c (S indent) in let! y := go l in Ok (x ++ y)
    end.
  Lemma print_step fuel k indent : print_kernel (S fuel) mode p k indent =
    let! n := get_node p k in
    if print_visible mode n then
      let! rest := go_children fuel indent (n_children n) in
      Ok (PLine indent (n_index n) (n_rule n) (n_start n) (n_end n) (n_result n) (length (n_children n)) :: rest)
    else Ok [].
  Proof. reflexivity. Qed.
  Lemma print_node n0 : (forall k t indent, unfolds root_open p k t -> (theight t <= n0)%nat ->
    exists lines, map line_of lines = map Some (listing mode indent t) /\ forall fuel, (theight t <= fuel)%nat -> print_kernel fuel mode p k indent = Ok lines).
  Proof.
    induction n0 as [|n0 IH]; intros k t indent Hu Hh; [destruct t; rewrite theight_eq in Hh; lia|].
    destruct Hu as [k n F HnO Hn HF]. rewrite theight_eq in Hh.
    assert (Hgo : exists rest, map line_of rest = map Some (listing_forest mode (S indent) F) /\ forall fuel, (fheight F <= fuel)%nat -> go_children fuel indent (n_children n) = Ok rest).
    { assert (Hh' : (fheight F <= n0)%nat) by lia. clear Hn Hh HnO. induction HF as [|c ks t F Ht HF IHF]; [exists []; done|]. cbn [fheight] in Hh'.
      destruct (IH c t (S indent) Ht ltac:(lia)) as (x & Hx & Ex). destruct IHF as (y & Hy & Ey); [lia|]. exists (x ++ y). split.
      - rewrite !map_app, Hx, Hy. unfold listing_forest. cbn [map concat]. by rewrite map_app.
      - intros fuel Hf. cbn [fheight] in Hf. cbn [go_children]. assert (Hc : c <> 0) by (by inversion Ht). rewrite (proj2 (N.eqb_neq c 0) Hc), Ex by lia. cbn [rbind]. rewrite Ey by lia. done. }
    destruct Hgo as (rest & Hr & Er). assert (Elen : length (n_children n) = length F).
    { clear -HF. induction HF; simpl; congruence. }
    rewrite listing_eq. destruct (shown mode (n_result n)) eqn:Es.
    - eexists (_ :: rest). split; [|intros [|fuel] Hf; rewrite theight_eq in Hf; [lia|]; rewrite print_step; unfold get_node; rewrite Hn; cbn [rbind]].
      2:{ unfold print_visible, shown in *. rewrite Es. rewrite Er by lia. cbn [rbind]. done. }
      cbn [map line_of]. rewrite Hr. by rewrite Elen.
    - exists []. split; [done|]. intros [|fuel] Hf; rewrite theight_eq in Hf; [lia|]. rewrite print_step. unfold get_node. rewrite Hn. cbn [rbind].
      unfold print_visible, shown in *. by rewrite Es.
  Qed.
End print.

(** Printing a tree from its root: every mode, every tree. *)
Lemma print_root p mode t : denotes p t ->
  exists lines, map line_of lines = map Some (listing mode 0 t) /\ forall fuel, (theight t <= fuel)%nat -> print fuel p 0 mode = Ok lines.
Proof.
  intros H0. destruct (below_root p t H0) as [_ Hb]. destruct t as [l i j b F].
  inversion H0 as [k n F' HnO Hn HF Hk E]; subst. rewrite theight_eq in *. specialize (Hb _ _ HF ltac:(lia)). clear HF H0.
  assert (Hgo : exists rest, map line_of rest = map Some (listing_forest mode 1 F) /\ forall fuel, (fheight F <= fuel)%nat -> go_children p mode fuel 0 (n_children n) = Ok rest).
  { clear Hn. induction Hb as [|c ks t F Ht HF IHF]; [exists []; done|]. destruct (print_node p mode (theight t) c t 1 Ht ltac:(lia)) as (x & Hx & Ex).
    destruct IHF as (y & Hy & Ey). exists (x ++ y). split; [unfold listing_forest in *; cbn [map concat]; rewrite !map_app; by rewrite Hx, Hy|].
    intros fuel Hf. cbn [fheight] in Hf. cbn [go_children]. assert (Hc : c <> 0) by (by inversion Ht). rewrite (proj2 (N.eqb_neq c 0) Hc), Ex by lia. cbn [rbind]. rewrite Ey by lia. done. }
  destruct Hgo as (rest & Hr & Er). assert (Elen : length (n_children n) = length F) by (clear -Hb; induction Hb; simpl; congruence).
  rewrite listing_eq. destruct (shown mode (n_result n)) eqn:Es.
  - exists (PLine 0 (n_index n) (n_rule n) (n_start n) (n_end n) (n_result n) (length (n_children n)) :: rest). split; [cbn [map line_of]; by rewrite Hr, Elen|].
    intros [|fuel] Hf; [lia|]. unfold print. rewrite print_step. unfold get_node. rewrite Hn. cbn [rbind]. unfold print_visible, shown in *. rewrite Es, Er by lia. done.
  - exists []. split; [done|]. intros [|fuel] Hf; [lia|]. unfold print. rewrite print_step. unfold get_node. rewrite Hn. cbn [rbind]. unfold print_visible, shown in *. by rewrite Es.
Qed.

Lemma print_mono p mode fuel : forall fuel' k indent lines, (fuel <= fuel')%nat -> print_kernel fuel mode p k indent = Ok lines -> print_kernel fuel' mode p k indent = Ok lines.
Proof.
  induction fuel as [|fuel IH]; intros fuel' k indent lines Hle H; [done|]. destruct fuel' as [|fuel']; [lia|]. rewrite print_step in *.
  destruct (get_node p k) as [n| |]; cbn [rbind] in *; [|done..]. destruct (print_visible mode n); [|done].
  destruct (go_children p mode fuel indent (n_children n)) as [rest| |] eqn:E; cbn [rbind] in H; [|done..].
  assert (go_children p mode fuel' indent (n_children n) = Ok rest) as ->; [|done]. clear H. revert rest E.
  induction (n_children n) as [|c l IHl]; intros rest E; [done|]. cbn [go_children] in *. destruct (c =? 0); [done|].
  destruct (print_kernel fuel mode p c (S indent)) as [x| |] eqn:Ex; cbn [rbind] in E; [|done..]. rewrite (IH fuel' c (S indent) x); [|lia|done]. cbn [rbind].
  change ((let! y := go_children p mode fuel indent l in Ok (x ++ y)) = Ok rest) in E. change ((let! y := go_children p mode fuel' indent l in Ok (x ++ y)) = Ok rest).
  destruct (go_children p mode fuel indent l) as [y| |]; cbn [rbind] in E; [|done..]. by rewrite (IHl y eq_refl).
Qed.

(** Everything in a cleaned tree is shown. *)
Lemma pruned_listing depth F : listing_forest (Some true) depth (prune_forest F) = listing_forest None depth (prune_forest F).
Proof.
  revert depth. assert (Ht : forall t depth, keep t = true -> listing (Some true) depth (prune t) = listing None depth (prune t)).
  { induction t as [l i j b F0 IH] using ptree_ind'. intros depth Hk. unfold keep in Hk. simpl in Hk. apply andb_true_iff in Hk as [-> _]. rewrite prune_eq, !listing_eq. cbn [shown eqb]. f_equal.
    generalize (S depth). intros d. apply list.Forall_forall in IH. induction IH as [|t F1 Ht _ IHF]; [done|]. cbn [prune_forest]. destruct (keep t) eqn:E; [|done].
    unfold listing_forest in *. cbn [map concat]. by rewrite Ht, IHF. }
  intros depth. induction F as [|t F IH]; [done|]. cbn [prune_forest]. destruct (keep t) eqn:E; [|done]. unfold listing_forest in *. cbn [map concat]. by rewrite Ht, IH.
Qed.
Lemma listing_inj t : forall t' depth rest rest', listing None depth t ++ rest = listing None depth t' ++ rest' -> t = t' /\ rest = rest'.
Proof.
  induction t as [l i j b F IH] using ptree_ind'. intros [l' i' j' b' F'] depth rest rest'. rewrite !listing_eq. cbn [shown app].
  intros [= <- <- <- <- Hlen H]. generalize dependent (S depth). clear depth. intros d H.
  assert (F = F' /\ rest = rest') as [-> ->]; [|done]. revert F' Hlen H. apply list.Forall_forall in IH. induction IH as [|t F Ht _ IHF]; intros [|t' F'] Hlen H; [by split|done|done|].
  unfold listing_forest in *. cbn [map concat] in H. rewrite <- !app_assoc in H. apply Ht in H as [-> H]. injection Hlen as Hlen. apply IHF in H as [-> ->]; done.
Qed.

(** ** C59 *)
Section C59.
  Context {U : Type} (pr : program U) (fn : N -> N) (s : list N) (u0 : U).
  Context (Hs : N.of_nat (length s) < u32_modulus) (Hpr : program_wf pr fn).
  Context (Pp : panic -> Prop) (HPp : Pp PKeyOverflow).
  Context (Hhooks : hooks_behave (N.of_nat (length s)) (memo_claim pr s fn) Pp pr (source_new s)).
  (** In every session, printing from any key that was handed out shows the
      tree below it, in any mode. *)
  Theorem C59_print st k mode : session pr (expr_wf pr fn) s u0 st -> k < p_len (cx_pub (st_ctx st)) ->
    exists t lines fuel0, unfolds nothing (cx_pub (st_ctx st)) k t /\ map line_of lines = map Some (listing mode 0 t) /\
      forall fuel, (fuel0 <= fuel)%nat -> print fuel (cx_pub (st_ctx st)) k mode = Ok lines.
  Proof using HPp Hhooks Hpr Hs.
    intros HS Hk. pose proof (session_usable pr fn s u0 Hs Hpr Pp HPp Hhooks st HS) as HU. destruct (decide (k = 0)) as [->|Hne].
    - destruct (C16_finite_trees pr fn s u0 Hs Hpr Pp HPp Hhooks st 0 HS Hk) as [t Ht]. destruct (print_root _ mode t Ht) as (lines & H1 & H2). eauto 10.
    - destruct (closed_unfolds _ _ _ (us_all _ _ _ _ HU k Hk Hne)) as [t Ht]. destruct (print_node _ mode (theight t) k t 0 Ht ltac:(lia)) as (lines & H1 & H2).
      exists t, lines, (theight t). split; [|done]. destruct (unfolds_frame root_open nothing (cx_pub (st_ctx st)) (cx_pub (st_ctx st))) as [Hw _]; [|by apply Hw]. intros x n Hx _. split; [by intros []|done].
  Qed.
  (** The returned tree: every node of it is printed. *)
  Theorem C59_returned_tree st fuel p' : session pr (expr_wf pr fn) s u0 st -> clear_false fuel (pr_grammar pr) (cx_pub (st_ctx st)) = Ok p' ->
    exists F lines fuel0, denotes p' (TNode (pr_grammar pr) 0 0 true F) /\ map line_of lines = map Some (listing None 0 (TNode (pr_grammar pr) 0 0 true F)) /\
      forall fuel, (fuel0 <= fuel)%nat -> print fuel p' 0 (Some true) = Ok lines.
  Proof using HPp Hhooks Hpr Hs.
    intros HS Hc. pose proof (session_usable pr fn s u0 Hs Hpr Pp HPp Hhooks st HS) as HU.
    destruct (C16_finite_trees pr fn s u0 Hs Hpr Pp HPp Hhooks st 0 HS) as [[l i j b F] Ht]; [by apply (us_open _ _ _ _ HU)|].
    assert (Hd : exists F', denotes p' (TNode (pr_grammar pr) 0 0 true (prune_forest F'))).
    { destruct b; [exists F; by eapply C17_any_answer|exists []]. inversion Ht as [k n F' HnO Hn HF Hk [E1 E2 E3 Hb E5]]; subst.
      unfold clear_false, get_node in Hc. rewrite Hn in Hc. cbn [rbind] in Hc. rewrite Hb in Hc. injection Hc as <-.
      refine (unf _ _ 0 (Node 0 (pr_grammar pr) 0 0 true []) [] _ _ _); [by intros []|done|constructor]. }
    destruct Hd as [F' Hd]. destruct (print_root _ (Some true) _ Hd) as (lines & H1 & H2). exists (prune_forest F'), lines. eexists. split; [done|]. split; [|exact H2].
    rewrite H1. f_equal. rewrite !listing_eq. cbn [shown eqb]. f_equal. apply pruned_listing.
  Qed.
  Lemma returned_lines st fuel p' fuel' lines : session pr (expr_wf pr fn) s u0 st -> clear_false fuel (pr_grammar pr) (cx_pub (st_ctx st)) = Ok p' ->
    print fuel' p' 0 (Some true) = Ok lines ->
    exists F, denotes p' (TNode (pr_grammar pr) 0 0 true F) /\ map line_of lines = map Some (listing None 0 (TNode (pr_grammar pr) 0 0 true F)).
  Proof using HPp Hhooks Hpr Hs.
    intros HS Hc Hp. destruct (C59_returned_tree st fuel p' HS Hc) as (F & lines' & f0 & H1 & H2 & H3). exists F. split; [done|]. rewrite <- H2. f_equal.
    unfold print in *. apply (print_mono _ _ fuel' (Nat.max f0 fuel')) in Hp; [|lia]. rewrite H3 in Hp by lia. by injection Hp as <-.
  Qed.
End C59.

(** Nothing is lost: a listing of all nodes determines the tree. *)
Theorem C59_faithful t t' depth : listing None depth t = listing None depth t' -> t = t'.
Proof.
  intros H. apply (f_equal (fun l => l ++ [])) in H. apply listing_inj in H. tauto.
Qed.

(** What example 1 prints for 1+2: keys differ from those of the raw store. *)
Definition lines_of (r : res (bool * N * publisher)) : option (list tree_line) :=
  match r with
  | Ok (_, p') => match print 60 p' 0 (Some true) with Ok l => Some (omap line_of l) | _ => None end
  | _ => None end.
Example C59_example_1 : lines_of (parse_with ex1_program tt 60 ex1_entry (bytes "1+2")) = Some
  [TreeLine 0 ex1_R_Grammar 0 0 true 1; TreeLine 1 ex1_R_Grammar 0 3 true 1; TreeLine 2 ex1_R_Expr 0 3 true 1; TreeLine 3 ex1_R_Addition 0 3 true 2;
   TreeLine 4 ex1_R_Expr 0 1 true 1; TreeLine 5 ex1_R_Integer 0 1 true 0; TreeLine 4 ex1_R_Integer 2 3 true 0].
Proof. vm_compute. reflexivity. Qed.
