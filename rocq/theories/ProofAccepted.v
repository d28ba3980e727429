(** Accepted grammar files are compiled, and the result is a crate. *)
From Verif Require Import SpecAccepted SpecProgram ProofDslComplete ProofLeft ProofMeaning TheoremsGenerator TheoremsMeaning Programs.
From stdpp Require Import relations.
Local Open Scope N_scope.

(** Sequences and choices of a file have items. *)
Fixpoint has_items (e : dexp) : bool :=
  match e with
  | DGroup e | DHook _ e | DAnd e | DNot e | DPlus e | DStar e | DOpt e => has_items e
  | DSeq es | DAlt es => match es with [] => false | _ => true end && forallb has_items es
  | _ => true
  end.
Lemma rhs_items s i j e : rhs_text s i j e -> has_items e = true.
Proof.
  apply (rhs_mut s (fun _ _ e => has_items e = true) (fun _ _ _ es => es <> [] /\ forallb has_items es = true) (fun _ _ e => has_items e = true) (fun _ _ e => has_items e = true));
    intros; simpl; try done.
  - match goal with H : _ /\ _ |- _ => destruct H as [? ->] end. by destruct es.
  - match goal with H : _ /\ _ |- _ => destruct H as [? ->] end. by destruct es.
  - match goal with H : has_items _ = true |- _ => rewrite H end. done.
  - split; [done|]. repeat match goal with H : has_items _ = true |- _ => rewrite H | H : _ /\ _ |- _ => destruct H as [? ->] end. done.
Qed.
Lemma file_items s rules r : file_or_empty s rules -> r ∈ rules -> has_items (dr_body r) = true.
Proof.
  intros [(i & _ & Hr & _)|[_ ->]] Hin; [|by apply elem_of_nil in Hin]. revert Hin. induction Hr as [|i j k r' rs Hr _ IH]; [intros H; by apply elem_of_nil in H|].
  intros [->|H]%elem_of_cons; [|auto]. destruct Hr as (a & b & c & d & e & f & g & _ & _ & _ & _ & _ & _ & Hr & _). by eapply rhs_items.
Qed.

Section accepted.
  Context (rules : list drule) (Hac : accepted rules).
  Lemma rust_emits e : rust_literals e = true -> emits e = true.
  Proof.
    induction e as [c|l|ds|ds|a b|n|e IH|n e IH|e IH|e IH|e IH|e IH|e IH|es IH|es IH] using dexp_ind'; simpl; try done.
    - unfold string_bytes. simpl. destruct (N.ltb_spec (hexval ds) 128); [|done]. intros _. unfold is_scalar. apply orb_true_iff. left. apply N.ltb_lt. lia.
    - intros [Ha Hb]%andb_true_iff. apply andb_true_iff. split; [destruct a as [[|? []]| |]|destruct b as [[|? []]| |]]; first [exact Ha|exact Hb|done].
    - intros H. apply forallb_forall. intros e He. rewrite forallb_forall in H. rewrite List.Forall_forall in IH. apply IH; auto.
    - intros H. apply forallb_forall. intros e He. rewrite forallb_forall in H. rewrite List.Forall_forall in IH. apply IH; auto.
  Qed.
  Lemma rust_plain e : rust_literals e = true -> plain_literals e = true.
  Proof.
    induction e as [c|l|ds|ds|a b|n|e IH|n e IH|e IH|e IH|e IH|e IH|e IH|es IH|es IH] using dexp_ind'; simpl; try done.
    - by destruct c.
    - intros [Ha Hb]%andb_true_iff. apply andb_true_iff. split; [destruct a as [[|? []]| |]|destruct b as [[|? []]| |]]; first [exact Ha|exact Hb|done].
    - intros H. apply forallb_forall. intros e He. rewrite forallb_forall in H. rewrite List.Forall_forall in IH. apply IH; auto.
    - intros H. apply forallb_forall. intros e He. rewrite forallb_forall in H. rewrite List.Forall_forall in IH. apply IH; auto.
  Qed.
  Lemma accepted_regular : regular rules.
  Proof using Hac. split; [apply Hac|apply Hac|]. intros r Hr. apply rust_plain. by apply (ac_literals _ Hac). Qed.

  Lemma fold_op_some (op : expr -> expr -> expr) l : l <> [] -> (forall x, x ∈ l -> is_Some x) -> is_Some (fold_op op l).
  Proof.
    destruct l as [|x l]; [done|]. intros _ H. simpl. assert (Hx : is_Some x) by (apply H; by left).
    assert (Hl : forall y, y ∈ l -> is_Some y) by (intros y Hy; apply H; by right). clear H. revert x Hx. induction l as [|y l IH]; intros x Hx; simpl; [done|].
    apply IH; [intros; apply Hl; by right|]. destruct Hx as [x' ->]. destruct (Hl y) as [y' ->]; [by left|]. simpl. by eexists.
  Qed.

  Section compile.
    Context (involved : name -> option (list name)) (is_inline : name -> bool) (enum hooks : list name).
    Context (Hres : refs_resolved rules involved is_inline) (Hen : enum_for rules enum).
    Notation sc := (Scope (map (fun r => to_lowercase (dr_name r)) rules) enum hooks).
    Lemma declared_rule n : declared rules n -> exists r, r ∈ rules /\ dr_name r = n.
    Proof using. intros [e He]. apply body_of_rule in He as (k & r & Hk & Hn & _). exists r. split; [by eapply elem_of_list_lookup_2|done]. Qed.
    Lemma variant_exists n : declared rules n -> ~ declared_inline rules n -> exists i, enum_index sc n = Some i.
    Proof using Hen.
      intros (r & Hr & Hn)%declared_rule Hi. apply index_of_in. destruct Hen as (ns & _ & Hns & ->). simpl. apply elem_of_list_In, in_map, elem_of_list_In, Hns.
      split; [|done]. by exists r.
    Qed.
    Lemma ref_compiles n : declared rules n -> is_Some (compile_ref sc involved is_inline n).
    Proof using Hac Hres Hen.
      intros Hd. assert (Hf : exists f, fn_index sc n = Some f).
      { destruct (declared_rule n Hd) as (r & Hr & <-). apply index_of_in. simpl. apply elem_of_list_In, in_map_iff. exists r. split; [done|by apply elem_of_list_In]. }
      destruct Hf as [f Hf]. destruct Hres as [H1 H2]. specialize (H1 n). unfold compile_ref. destruct (involved n) as [l|] eqn:El.
      - destruct H1 as [Hlr (ms & _ & Hms & Hl & _)]. destruct (variant_exists n Hd) as [i Hi]; [by apply (ac_inline _ Hac)|]. rewrite Hi, Hf. simpl.
        assert (Hall : exists ls, all_some (map (fun r => index_of r enum) l) = Some ls).
        { assert (Hin : forall v, v ∈ l -> exists i, index_of v enum = Some i).
          { intros v Hv. rewrite Hl in Hv. apply elem_of_list_In, in_map_iff in Hv as (m & <- & Hm%elem_of_list_In). apply Hms in Hm as [Hr Hm].
            apply (variant_exists m); [|by apply (ac_inline _ Hac)]. 
            destruct Hm as (m' & Hr' & Hc). destruct Hr' as [m|m x m' (e & He & _) _]; [|by exists e].
            inversion Hc as [? ? (e & He & _)|? ? ? (e & He & _) _]; subst; by exists e. }
          clear -Hin. induction l as [|v l IH]; [by exists []|]. simpl. destruct (Hin v) as [i ->]; [by left|]. destruct IH as [ls ->]; [intros; apply Hin; by right|]. eauto. }
        destruct Hall as [ls ->]. simpl. by eexists.
      - destruct (is_inline n) eqn:Ei; [rewrite Hf; by eexists|]. destruct (variant_exists n Hd) as [i Hi]; [intros Hx; apply H2 in Hx; congruence|]. rewrite Hi, Hf. simpl. by eexists.
    Qed.
    Lemma compiles e : has_items e = true -> rust_literals e = true -> hooks_of e = [] -> (forall m, m ∈ refs e -> declared rules m) -> is_Some (compile sc involved is_inline e).
    Proof using Hac Hres Hen.
      induction e as [c|l|ds|ds|a b|n|e IH|n e IH|e IH|e IH|e IH|e IH|e IH|es IH|es IH] using dexp_ind'; cbn [has_items rust_literals hooks_of refs compile]; intros Hi Hl Hh Hr; try done;
        try (destruct IH as [e' ->]; [done..|by eexists]).
      - destruct c as [|c l]; [by eexists|]. destruct (quoted_byte (c :: l)); [|done]. by eexists.
      - destruct (string_bytes l); [|done]. by eexists.
      - destruct (string_bytes _); [|done]. by eexists.
      - apply andb_true_iff in Hl as [Ha Hb]. destruct a as [[|x []]| |]; try done; destruct b as [[|y []]| |]; try done; by eexists.
      - apply ref_compiles, Hr. by left.
      - apply andb_true_iff in Hi as [Hne Hi]. apply fold_op_some; [by destruct es|]. intros x Hx. apply elem_of_list_In, in_map_iff in Hx as (e & <- & He).
        rewrite forallb_forall in Hi, Hl. rewrite List.Forall_forall in IH. apply IH; auto.
        + clear -Hh He. induction es as [|e' es IH]; [done|]. apply app_eq_nil in Hh as [H1 H2]. destruct He as [<-|He]; auto.
        + intros m Hm. apply Hr. apply elem_of_list_In, in_concat. exists (refs e). split; [by apply in_map|by apply elem_of_list_In].
      - apply andb_true_iff in Hi as [Hne Hi]. apply fold_op_some; [by destruct es|]. intros x Hx. apply elem_of_list_In, in_map_iff in Hx as (e & <- & He).
        rewrite forallb_forall in Hi, Hl. rewrite List.Forall_forall in IH. apply IH; auto.
        + clear -Hh He. induction es as [|e' es IH]; [done|]. apply app_eq_nil in Hh as [H1 H2]. destruct He as [<-|He]; auto.
        + intros m Hm. apply Hr. apply elem_of_list_In, in_concat. exists (refs e). split; [by apply in_map|by apply elem_of_list_In].
    Qed.
    Lemma rule_declares r m : r ∈ rules -> m ∈ refs (dr_body r) -> declared rules m.
    Proof using Hac.
      intros [k Hk]%elem_of_list_lookup Hm. apply (ac_declared _ Hac (dr_name r)). exists (dr_body r). split; [|done]. eapply rule_body; [apply Hac|done].
    Qed.
    Lemma names_ok : hooks = [] -> names_accepted (map (fun r => to_lowercase (dr_name r)) rules) enum hooks.
    Proof using Hac Hen.
      intros ->. unfold names_accepted. rewrite app_nil_r. destruct Hen as (ns & Hs & Hns & ->).
      assert (Hlow : forall n, n ∈ ns -> exists r, r ∈ rules /\ dr_name r = n) by (intros n [H _]%Hns; done).
      split_and!.
      - apply (ac_names _ Hac).
      - apply NoDup_fmap_2_strong.
        + intros a b (r & Hr & <-)%Hlow (r' & Hr' & <-)%Hlow E. apply (f_equal to_lowercase) in E. rewrite !lower_first_upper in E.
          apply elem_of_list_lookup in Hr as [k Hk]. apply elem_of_list_lookup in Hr' as [k' Hk'].
          assert (k = k') as ->; [|congruence]. eapply (NoDup_lookup _ _ _ _ (ac_names _ Hac)); [rewrite list_lookup_fmap, Hk; done|rewrite list_lookup_fmap, Hk'; simpl; by rewrite E].
        + assert (Hirr : forall a, ~ lex_lt a a) by (intros a Ha; induction a; inversion Ha; subst; [lia|auto]).
          clear -Hs Hirr. induction Hs as [|a l _ IH HF]; constructor; [|done]. intros Ha. rewrite Forall_forall in HF. by apply (Hirr a), HF.
      - intros n Hn. apply elem_of_list_In, in_map_iff in Hn as (r & <- & Hr%elem_of_list_In). by apply (ac_reserved _ Hac).
      - intros Hx. apply elem_of_list_In, in_map_iff in Hx as (n & En & Hn%elem_of_list_In). apply Hlow in Hn as (r & Hr & <-).
        apply (ac_reserved _ Hac r Hr). rewrite <- lower_first_upper, En. vm_compute. repeat (first [by left|right]).
    Qed.
  End compile.

  Lemma accepted_lefts : lefts_declared rules.
  Proof using Hac. intros n m (e & He & Hm). apply (ac_declared _ Hac n). exists e. split; [done|by apply lefts_refs]. Qed.
  Lemma accepted_emits : forallb rule_emits rules = true.
  Proof using Hac.
    apply forallb_forall. intros r Hr%elem_of_list_In. unfold rule_emits. apply andb_true_iff. split; [by apply rust_emits, (ac_literals _ Hac)|].
    apply forallb_forall. intros c Hc%elem_of_list_In. apply negb_true_iff, bool_decide_eq_false. by eapply (ac_comments _ Hac).
  Qed.
  Lemma no_hooks_used : concat (map (fun r => hooks_of (dr_body r)) rules) = [].
  Proof using Hac.
    pose proof (ac_hooks _ Hac) as H. unfold hook_free in H. clear Hac. induction rules as [|r l IH]; [done|]. simpl. rewrite H by (by left). apply IH. intros r' Hr'. apply H. by right.
  Qed.
  (** The generator compiles an accepted file, and rustc accepts the result. *)
  Lemma accepted_table file c : file_or_empty file rules -> generated_for rules c -> exists table, code_table c = Some table.
  Proof using Hac.
    intros Hf [(inv & inl & Hr & HF) Him Hen Hsz]. rewrite no_hooks_used in Him. unfold code_table. unfold scope_of. rewrite Him.
    assert (Efn : map gf_name (gc_fns c) = map (fun r => to_lowercase (dr_name r)) rules).
    { clear -HF. induction HF as [|r f rs fs [H _ _] _ IH]; [done|]. simpl. by rewrite H, IH. }
    rewrite Efn. rewrite decide_True by (by apply names_ok).
    assert (Hall : Forall2 (fun r f => r ∈ rules /\ run_body (Scope (map (fun r => to_lowercase (dr_name r)) rules) (gc_enum c) []) frame_empty (gf_body f)
      = compile (Scope (map (fun r => to_lowercase (dr_name r)) rules) (gc_enum c) []) inv inl (dr_body r)) rules (gc_fns c)).
    { apply Forall2_same_length_lookup. split; [by eapply Forall2_length|]. intros k r f Hk Hk'. split; [by eapply elem_of_list_lookup_2|].
      pose proof (Forall2_lookup_lr _ _ _ _ _ _ HF Hk Hk') as [_ _ H3]. unfold scope_of in H3. by rewrite Efn, Him in H3. }
    assert (Hs : forall r, r ∈ rules -> is_Some (compile (Scope (map (fun r => to_lowercase (dr_name r)) rules) (gc_enum c) []) inv inl (dr_body r))).
    { intros r Hin. apply compiles; [done|done|by eapply file_items|by apply (ac_literals _ Hac)|by apply (ac_hooks _ Hac)|]. intros m. by apply rule_declares. }
    clear HF Efn. set (sc := Scope _ _ _) in *. clearbody sc. clear -Hall Hs.
    induction Hall as [|r f rs fs [Hin He] _ IH]; [by exists []|]. simpl. rewrite He. destruct (Hs r Hin) as [e ->]. destruct IH as [t ->]. eauto.
  Qed.
End accepted.
