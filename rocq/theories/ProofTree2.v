(** More on stores: fuel of tree walks does not matter, nodes reachable by
    child keys are the subtrees. *)
From Verif Require Export ProofTree.

Lemma clear_kernel_mono p fuel : forall fuel' new parent index r,
  clear_false_kernel fuel p new parent index = r -> r <> NoFuel -> (fuel <= fuel')%nat ->
  clear_false_kernel fuel' p new parent index = r.
Proof.
  induction fuel as [|fuel IH]; intros fuel' new parent index r H Hr Hle; [by simpl in H; subst|].
  destruct fuel' as [|fuel']; [lia|]. cbn [clear_false_kernel] in *.
  destruct (get_node p index) as [n| |]; cbn [rbind] in *; [|done|done].
  destruct (n_result n && negb (n_start n =? n_end n)); [|done].
  destruct (add_node new _ _ _ _) as [[ci new1]| |]; cbn [rbind] in *; [|done|done].
  destruct (connect new1 parent ci) as [new2| |]; cbn [rbind] in *; [|done|done].
  revert new2 r H Hr. induction (n_children n) as [|c l IHl]; intros new2 r H Hr; [done|].
  destruct (clear_false_kernel fuel p new2 ci c) as [t| |] eqn:E; cbn [rbind] in *.
  - rewrite (IH fuel' _ _ _ _ E) by (done || lia). cbn [rbind]. by apply IHl.
  - rewrite (IH fuel' _ _ _ _ E) by (done || lia). done.
  - by subst.
Qed.
Lemma clear_children_mono p fuel fuel' l : forall new parent r,
  clear_false_children fuel p new parent l = r -> r <> NoFuel -> (fuel <= fuel')%nat ->
  clear_false_children fuel' p new parent l = r.
Proof.
  induction l as [|c l IHl]; intros new parent r H Hr Hle; [done|]. cbn [clear_false_children] in *.
  destruct (clear_false_kernel fuel p new parent c) as [t| |] eqn:E; cbn [rbind] in *.
  - rewrite (clear_kernel_mono _ _ fuel' _ _ _ _ E) by (done || lia). cbn [rbind]. by apply IHl.
  - rewrite (clear_kernel_mono _ _ fuel' _ _ _ _ E) by (done || lia). done.
  - by subst.
Qed.
Lemma clear_false_mono fuel fuel' gr p r :
  clear_false fuel gr p = r -> r <> NoFuel -> (fuel <= fuel')%nat -> clear_false fuel' gr p = r.
Proof.
  unfold clear_false. destruct (get_node p 0) as [n| |]; cbn [rbind]; [|done|done].
  destruct (n_result n); [|done]. destruct (add_node _ _ _ _ _) as [[k t]| |]; cbn [rbind]; [|done|done].
  intros. by eapply clear_children_mono.
Qed.

Lemma partial_eq_mono p q fuel : forall fuel' a b r,
  partial_eq_kernel fuel p q a b = r -> r <> NoFuel -> (fuel <= fuel')%nat ->
  partial_eq_kernel fuel' p q a b = r.
Proof.
  induction fuel as [|fuel IH]; intros fuel' a b r H Hr Hle; [by simpl in H; subst|].
  destruct fuel' as [|fuel']; [lia|]. cbn [partial_eq_kernel] in *.
  destruct (get_node p a) as [n| |]; cbn [rbind] in *; [|done|done].
  destruct (get_node q b) as [m| |]; cbn [rbind] in *; [|done|done].
  destruct (node_eq n m); [|done].
  revert r H Hr. generalize (n_children m). induction (n_children n) as [|c l IHl]; intros [|d l'] r H Hr; try done.
  destruct (partial_eq_kernel fuel p q c d) as [t| |] eqn:E; cbn [rbind] in *.
  - rewrite (IH fuel' _ _ _ E) by (done || lia). cbn [rbind]. destruct t; [by apply IHl|done].
  - rewrite (IH fuel' _ _ _ E) by (done || lia). done.
  - by subst.
Qed.

(** Keys reachable by following children. *)
Inductive reach (p : publisher) (k : N) : N -> Prop :=
  | reach_refl : reach p k k
  | reach_step k' n c : reach p k k' -> p_nodes p !! k' = Some n -> c ∈ n_children n -> reach p k c.

Lemma unfolds_list_elem O p ks F c : unfolds_list O p ks F -> c ∈ ks -> exists u, u ∈ F /\ unfolds O p c u.
Proof.
  induction 1 as [|k ks t F Ht HF IH]; intros Hc; [by apply elem_of_nil in Hc|].
  apply elem_of_cons in Hc as [->|Hc].
  - exists t. split; [by apply elem_of_cons; left|done].
  - destruct (IH Hc) as (u & ? & ?). exists u. split; [by apply elem_of_cons; right|done].
Qed.
Lemma subtree_trans a b c : subtree a b -> subtree b c -> subtree a c.
Proof. intros Hab. induction 1; [done|]. by econstructor. Qed.

Lemma reach_subtree O p k t k' : unfolds O p k t -> reach p k k' ->
  exists u, unfolds O p k' u /\ subtree u t.
Proof.
  intros Ht. induction 1 as [|k' n c Hr IH Hn Hc].
  - exists t. split; [done|constructor].
  - destruct IH as (u & Hu & Hs). inversion Hu as [? n' F HO Hn' HF]; subst. simplify_eq.
    destruct (unfolds_list_elem _ _ _ _ _ HF Hc) as (v & Hv & Huv). exists v. split; [done|].
    eapply subtree_trans; [|exact Hs]. econstructor; [exact Hv|constructor].
Qed.

(** [clear_false] on a finite tree terminates whatever its size; it panics
    exactly when the copy needs more than 2^32 keys (the copy is not shared, so
    it can be exponentially larger than the store). *)
Definition fine (new : publisher) (sz : N) (r : res publisher) : Prop :=
  match r with
  | Ok p' => pub_wf p' /\ p_len p' = p_len new + sz /\ p_len p' <= u32_modulus
  | Panic x => x = PKeyOverflow /\ u32_modulus < p_len new + sz
  | NoFuel => False
  end.

Lemma fsize_prune_cons t F : fsize (prune_forest (t :: F)) = fsize (prune_forest [t]) + fsize (prune_forest F).
Proof. simpl. destruct (keep t); simpl; lia. Qed.

Lemma clear_kernel_total O p fuel : forall t new parent index,
  unfolds O p index t -> (theight t <= fuel)%nat -> pub_wf new -> parent < p_len new -> p_len new <= u32_modulus ->
  fine new (fsize (prune_forest [t])) (clear_false_kernel fuel p new parent index).
Proof.
  induction fuel as [|fuel IH]; intros t new parent index Hu Hh Hw Hp Hm.
  { destruct t. rewrite theight_eq in Hh. lia. }
  destruct Hu as [index n F HnO Hn HF]. cbn [clear_false_kernel].
  unfold get_node at 1. rewrite Hn. cbn [rbind].
  change (prune_forest [?t]) with (if keep t then [prune t] else []).
  unfold keep. cbn [t_ok t_start t_end].
  destruct (n_result n && negb (n_start n =? n_end n)); [|split; [done|]; simpl; lia].
  rewrite prune_eq. change (fsize [?t]) with (tsize t + 0). rewrite tsize_eq.
  unfold add_node. destruct (N.ltb_spec (p_len new) u32_modulus) as [Hk|]; [|split; [done|lia]]. cbn [rbind].
  set (k := p_len new). set (new1 := Publisher _ _).
  assert (Hw1 : pub_wf new1) by (by apply pub_wf_add).
  assert (Hl1 : p_len new1 = k + 1) by done.
  unfold connect. destruct (N.eqb_spec parent k) as [->|Hpk]; [unfold k in *; lia|].
  destruct (get_node_Ok new1 parent Hw1) as (pn & Hpn & ->); [unfold k in *; lia|]. cbn [rbind].
  set (new2 := set_node new1 parent _).
  assert (Hw2 : pub_wf new2) by (apply pub_wf_set; [done|unfold k in *; lia]).
  assert (Hl2 : p_len new2 = k + 1) by done.
  assert (Hh' : (fheight F <= fuel)%nat) by (rewrite theight_eq in Hh; lia).
  assert (Hm2 : p_len new2 <= u32_modulus) by (unfold k in *; lia).
  assert (Hkn : k < p_len new2) by lia.
  enough (Hfin : fine new2 (fsize (prune_forest F)) ((fix go (l : list N) (t : publisher) : res publisher :=
         match l with
         | [] => Ok t
         | i :: l => let! t := clear_false_kernel fuel p t k i in go l t
         end) (n_children n) new2)).
  { match goal with |- fine _ _ ?r => destruct r end; cbn [fine] in *; [|destruct Hfin; split; [done|unfold k in *; lia]|done].
    destruct Hfin as (? & ? & ?). split; [done|]. unfold k in *. lia. }
  clearbody new2 k. clear Hn Hh HnO Hpn Hl2 Hl1 Hw1 new1 Hp Hpk Hk Hm.
  revert new2 Hw2 Hm2 Hkn.
  induction HF as [|c l t F' Ht HF IHl]; intros new3 Hw3 Hle3 Hle4; [split; [done|]; simpl; lia|].
  cbn [fheight] in Hh'. rewrite fsize_prune_cons.
  assert (Hf : fine new3 (fsize (prune_forest [t])) (clear_false_kernel fuel p new3 k c)) by (eapply IH; [done|lia|done|lia|done]).
  destruct (clear_false_kernel fuel p new3 k c) as [new4| |]; cbn [rbind]; cbn [fine] in Hf; [|destruct Hf; split; [done|lia]|done].
  destruct Hf as (Hw4 & Hl4 & Hm4). specialize (IHl ltac:(lia) new4 Hw4 Hm4 ltac:(lia)).
  match goal with |- fine _ _ ?r => destruct r end; cbn [fine] in *; [|destruct IHl; split; [done|lia]|done].
  destruct IHl as (? & ? & ?). split; [done|]. lia.
Qed.

Lemma clear_false_total O p fuel gr l i j F :
  unfolds O p 0 (TNode l i j true F) -> (fheight F <= fuel)%nat ->
  fine (publisher_new gr) (1 + fsize (prune_forest F)) (clear_false fuel gr p).
Proof.
  intros Hu Hh. inversion Hu as [k n F' HnO Hn HF Hk [E1 E2 E3 Hb E5]]; subst. unfold clear_false, get_node. rewrite Hn. cbn [rbind].
  rewrite Hb.
  unfold add_node. cbn [p_len publisher_new]. change (1 <? u32_modulus) with true. cbn iota. cbn [rbind].
  set (new1 := Publisher _ _).
  assert (Hw1 : pub_wf new1) by apply (pub_wf_add (publisher_new gr)), pub_wf_new.
  assert (Hl1 : 1 <= p_len new1) by (simpl; lia).
  assert (Hm1 : p_len new1 <= u32_modulus) by done.
  enough (H : fine new1 (fsize (prune_forest F)) (clear_false_children fuel p new1 0 (n_children n))).
  { destruct (clear_false_children fuel p new1 0 (n_children n)); cbn [fine] in *; [|destruct H as [? H]; split; [done|simpl in H; simpl; lia]|done].
    destruct H as (? & H & ?). split; [done|]. simpl in H. simpl. lia. }
  clear Hu Hn HnO. revert Hw1 Hl1 Hm1. generalize new1. clear new1.
  induction HF as [|c l t F' Ht HF IHl]; intros new1 Hw1 Hl1 Hm1; [split; [done|simpl; lia]|].
  cbn [fheight] in Hh. cbn [clear_false_children]. rewrite fsize_prune_cons.
  assert (Hf : fine new1 (fsize (prune_forest [t])) (clear_false_kernel fuel p new1 0 c)).
  { eapply clear_kernel_total; [done|lia|done|lia|done]. }
  destruct (clear_false_kernel fuel p new1 0 c) as [new4| |]; cbn [rbind]; cbn [fine] in Hf; [|destruct Hf; split; [done|lia]|done].
  destruct Hf as (Hw4 & Hl4 & Hm4). specialize (IHl ltac:(lia) new4 Hw4 ltac:(lia) Hm4).
  destruct (clear_false_children fuel p new4 0 l); cbn [fine] in *; [|destruct IHl; split; [done|lia]|done].
  destruct IHl as (? & ? & ?). split; [done|lia].
Qed.

(** Whatever the fuel: an answer is the pruned tree. *)
Lemma clear_false_denotes p fuel gr l i j F p' :
  denotes p (TNode l i j true F) -> clear_false fuel gr p = Ok p' ->
  denotes p' (TNode gr 0 0 true (prune_forest F)) /\ 2 + fsize (prune_forest F) <= u32_modulus.
Proof.
  intros Hd Hc.
  apply (clear_false_mono _ (Nat.max fuel (fheight F))) in Hc; [|done|lia].
  pose proof (clear_false_total _ p (Nat.max fuel (fheight F)) gr _ _ _ _ Hd ltac:(lia)) as Hf.
  rewrite Hc in Hf. cbn [fine] in Hf. destruct Hf as (_ & Hf1 & Hf2). cbn [p_len publisher_new] in Hf1.
  assert (Hsz : 2 + fsize (prune_forest F) <= u32_modulus) by lia.
  destruct (clear_false_spec _ p (Nat.max fuel (fheight F)) gr _ _ _ _ _ Hd ltac:(lia) Hsz) as (p2 & E & _ & Hd2).
  rewrite Hc in E. by simplify_eq.
Qed.

(** Printing terminates on a finite tree. *)
Lemma print_total O p mode fuel : forall t index indent,
  unfolds O p index t -> (theight t <= fuel)%nat -> exists out, print_kernel fuel mode p index indent = Ok out.
Proof.
  induction fuel as [|fuel IH]; intros t index indent Hu Hh.
  { destruct t. rewrite theight_eq in Hh. lia. }
  destruct Hu as [index n F HnO Hn HF]. cbn [print_kernel]. unfold get_node at 1. rewrite Hn. cbn [rbind].
  destruct (print_visible mode n); [|eauto]. rewrite theight_eq in Hh.
  assert (Hloop : exists rest, (fix go (l : list N) : res (list print_line) :=
           match l with
           | [] => Ok []
           | c :: l =>
             if c =? 0 then Ok [PKeyZero]
             else let! x := print_kernel fuel mode p c (S indent) in
                  let! y := go l in Ok (x ++ y)
           end) (n_children n) = Ok rest).
  { assert (Hh' : (fheight F <= fuel)%nat) by lia. clear Hn Hh HnO.
    induction HF as [|c l t F' Ht HF IHl]; [eauto|]. cbn [fheight] in Hh'.
    destruct (c =? 0); [eauto|]. destruct (IH t c (S indent) Ht ltac:(lia)) as [x ->]. cbn [rbind].
    destruct IHl as [y ->]; [lia|]. cbn [rbind]. eauto. }
  destruct Hloop as [rest ->]. cbn [rbind]. eauto.
Qed.
