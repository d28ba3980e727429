(** The constructor and the emitter compile a right-hand side to the
    expression it stands for (SpecCompile). *)
From Verif Require Import SpecCompile ProofPeg ProofTree ProofTrace ProofDsl.

(** ** Slices *)
Lemma occurs_at_slice s i l : occurs_at s i l ->
  firstn (length l) (skipn (N.to_nat i) s) = l.
Proof.
  revert i. induction l as [|c l IH]; intros i H; [done|].
  apply occurs_at_cons in H as [Hc H]. specialize (IH _ H).
  replace (N.to_nat (i + 1)) with (S (N.to_nat i)) in IH by lia.
  rewrite (drop_S s c _ Hc). simpl. by rewrite IH.
Qed.
Lemma occurs_at_bound s i l : occurs_at s i l -> l <> [] -> (N.to_nat i + length l <= length s)%nat.
Proof.
  intros H Hl. pose proof (occurs_at_slice _ _ _ H) as E. apply (f_equal length) in E.
  rewrite firstn_length, skipn_length in E. assert (length l <> 0%nat) by (by destruct l). lia.
Qed.
Lemma slice_text s i j l l' : text s i j l -> slice_str s i j = Ok l' -> l' = l.
Proof.
  intros [-> H]. unfold slice_str. case_match; [|done]. intros E. simplify_eq.
  replace (N.to_nat (i + N.of_nat (length l) - i)) with (length l) by lia. by apply occurs_at_slice.
Qed.
Lemma slice_bytes_text s i j l : text s i j l -> l <> [] -> slice_bytes s i j = Ok l.
Proof.
  intros [-> H] Hl. unfold slice_bytes. pose proof (occurs_at_bound _ _ _ H Hl).
  destruct (N.leb_spec i (i + N.of_nat (length l))); [|lia].
  destruct (N.leb_spec (i + N.of_nat (length l)) (N.of_nat (length s))); [|lia]. simpl.
  replace (N.to_nat (i + N.of_nat (length l) - i)) with (length l) by lia. by rewrite occurs_at_slice.
Qed.
Lemma inner_text_eq s r i j b F a c z l : text s i j (a :: c ++ [z]) ->
  inner_text s (TNode r i j b F) = Ok l -> l = c.
Proof.
  intros H. unfold inner_text, usub. simpl. pose proof H as [Hj _]. simpl in Hj. rewrite app_length in Hj. simpl in Hj.
  destruct (N.leb_spec 1 j); [|lia]. simpl.
  apply slice_text. change (a :: c ++ [z]) with ([a] ++ c ++ [z]) in H.
  apply text_app_inv in H as [_ H]. apply text_app_inv in H as [H _]. simpl in H.
  replace (j - 1) with (i + 1 + N.of_nat (length c)) by lia. done.
Qed.

Local Arguments bind : simpl never.
Local Arguments lookup_env : simpl never.

(** ** What a key stands for *)
Section build.
  Context (lr : name_map name_set) (sym : symbol_table) (src : list N).
  Notation bld := (build lr sym src).

  (** The enum variants listed in an involved set, as emitted. *)
  Definition variants (s : name_set) : list name := map first_upper (sort_names (map first_upper (elements s))).
  Definition involved_of (n : name) : option (list name) := variants <$> lr !! n.
  Definition cmp (sc : scope) (e : dexp) : option expr := compile sc involved_of (check_symbol_is_inline sym) e.

  Definition glen (g : gstate) : N := N.of_nat (length (g_tree g)).
  Definition runs (sc : scope) (f : frame) (l : list stmt) (lo hi k : N) (x : option expr) : Prop :=
    match x with
    | Some v => exists f', run_stmts sc f l = Some f' /\ lookup_env k (fr_env f') = Some v /\
        forall k', k' < lo \/ hi <= k' -> lookup_env k' (fr_env f') = lookup_env k' (fr_env f)
    | None => run_stmts sc f l = None
    end.
  Record stands (g0 g : gstate) (k : N) (hk : list name) (x : scope -> option expr) : Prop := Stands {
    sd_imports : g_imports g = g_imports g0 ++ hk;
    sd_tree : exists new, g_tree g = g_tree g0 ++ new;
    sd_key : glen g0 <= k < glen g;
    sd_emit : exists l,
      (forall ext fuel, (length (g_tree g) - length (g_tree g0) <= fuel)%nat -> match_ref fuel (g_tree g ++ ext) k = Ok l) /\
      (forall sc f, runs sc f l (glen g0) (glen g) k (x sc)) }.

  Lemma run_stmts_app sc f l1 l2 : run_stmts sc f (l1 ++ l2) = f' ← run_stmts sc f l1; run_stmts sc f' l2.
  Proof.
    revert f. induction l1 as [|x l1 IH]; intros f; simpl; [done|].
    destruct (run_stmt sc f x); simpl; [apply IH|done].
  Qed.
  Lemma lookup_bind_eq k v f : lookup_env k (fr_env (bind k v f)) = Some v.
  Proof. unfold lookup_env, bind. simpl. by rewrite N.eqb_refl. Qed.
  Lemma lookup_bind_ne k k' v f : k' <> k -> lookup_env k' (fr_env (bind k v f)) = lookup_env k' (fr_env f).
  Proof. intros H. unfold lookup_env, bind. simpl. destruct (N.eqb_spec k k'); [congruence|done]. Qed.

  Lemma lookup_push (t : btree) x (ext : btree) : ((t ++ [x]) ++ ext) !! N.to_nat (N.of_nat (length t)) = Some x.
  Proof. rewrite Nat2N.id, lookup_app_l by (rewrite app_length; simpl; lia). by rewrite list_lookup_middle. Qed.

  (** Leaves. *)
  Lemma stands_leaf g r k g' (x : scope -> option expr) l :
    gpush r None None g = Ok (k, g') ->
    (forall fuel t, t !! N.to_nat k = Some (BNode r None None) -> match_ref (S fuel) t k = Ok l) ->
    (forall sc f, runs sc f l (glen g) (glen g') k (x sc)) ->
    stands g g' k [] x.
  Proof.
    unfold gpush, push. intros E Hm Hr. injection E as <- <-.
    constructor; simpl.
    - by rewrite app_nil_r.
    - eauto.
    - unfold glen. simpl. rewrite app_length. simpl. lia.
    - exists l. split; [|done]. intros ext fuel Hf. rewrite app_length in Hf. simpl in Hf.
      destruct fuel as [|fuel]; [lia|]. apply Hm. apply lookup_push.
  Qed.
  Lemma stands_unary g0 g k hk x r (mk : N -> N -> stmt) (op : expr -> expr) k' g' :
    stands g0 g k hk x ->
    gpush r (Some k) None g = Ok (k', g') ->
    (forall fuel t a, t !! N.to_nat k' = Some (BNode r (Some a) None) ->
       match_ref (S fuel) t k' = (let! l := match_ref fuel t a in Ok (l ++ [mk k' a]))) ->
    (forall sc f a, run_stmt sc f (mk k' a) = e ← lookup_env a (fr_env f); Some (bind k' (op e) f)) ->
    stands g0 g' k' hk (fun sc => op <$> x sc).
  Proof.
    intros [Hi [new Ht] Hk (l & Hl & Hr)] E Hm Hx. unfold gpush, push in E. injection E as <- <-.
    pose proof (f_equal (@length _) Ht) as HL. rewrite app_length in HL.
    constructor; simpl.
    - done.
    - rewrite Ht, <- app_assoc. eauto.
    - unfold glen in *. simpl. rewrite app_length. simpl. lia.
    - exists (l ++ [mk (N.of_nat (length (g_tree g))) k]). split.
      + intros ext fuel Hf. rewrite app_length in Hf. simpl in Hf. destruct fuel as [|fuel]; [lia|].
        rewrite (Hm _ _ k) by apply lookup_push. rewrite <- app_assoc, Hl by lia. done.
      + intros sc f. specialize (Hr sc f). unfold runs in *. destruct (x sc) as [v|]; simpl.
        * destruct Hr as (f' & Hf' & Hv & Hold). rewrite run_stmts_app, Hf'. simpl. rewrite Hx, Hv. simpl.
          eexists. split; [done|]. split; [apply lookup_bind_eq|].
          intros k' Hk'. unfold glen in *. simpl in *. rewrite app_length in Hk'. simpl in Hk'.
          etransitivity; [apply lookup_bind_ne; lia|]. apply Hold. lia.
        * by rewrite run_stmts_app, Hr.
  Qed.
  Lemma stands_binary g0 g1 g2 k1 k2 h1 h2 x1 x2 r (mk : N -> N -> N -> stmt) (op : expr -> expr -> expr) k' g' :
    stands g0 g1 k1 h1 x1 -> stands g1 g2 k2 h2 x2 ->
    gpush r (Some k1) (Some k2) g2 = Ok (k', g') ->
    (forall fuel t a b, t !! N.to_nat k' = Some (BNode r (Some a) (Some b)) ->
       match_ref (S fuel) t k' = (let! la := match_ref fuel t a in let! lb := match_ref fuel t b in Ok (la ++ lb ++ [mk k' a b]))) ->
    (forall sc f a b, run_stmt sc f (mk k' a b) = x ← lookup_env a (fr_env f); y ← lookup_env b (fr_env f); Some (bind k' (op x y) f)) ->
    stands g0 g' k' (h1 ++ h2) (fun sc => opt2 op (x1 sc) (x2 sc)).
  Proof.
    intros [Hi1 [new1 Ht1] Hk1 (l1 & Hl1 & Hr1)] [Hi2 [new2 Ht2] Hk2 (l2 & Hl2 & Hr2)] E Hm Hx.
    unfold gpush, push in E. injection E as <- <-.
    pose proof (f_equal (@length _) Ht1) as HL1. rewrite app_length in HL1.
    pose proof (f_equal (@length _) Ht2) as HL2. rewrite app_length in HL2.
    constructor; simpl.
    - by rewrite Hi2, Hi1, app_assoc.
    - rewrite Ht2, Ht1, <- !app_assoc. eauto.
    - unfold glen in *. simpl. rewrite app_length. simpl. lia.
    - exists (l1 ++ l2 ++ [mk (N.of_nat (length (g_tree g2))) k1 k2]). split.
      + intros ext fuel Hf. rewrite app_length in Hf. simpl in Hf. destruct fuel as [|fuel]; [lia|].
        rewrite (Hm _ _ k1 k2) by apply lookup_push. rewrite <- app_assoc. unfold glen in *.
        rewrite Ht2 at 1. rewrite <- (app_assoc _ new2), Hl1 by lia. rewrite Hl2 by lia. done.
      + intros sc f. specialize (Hr1 sc f). unfold runs in *. destruct (x1 sc) as [v1|]; simpl.
        2: { by rewrite run_stmts_app, Hr1. }
        destruct Hr1 as (f1 & Hf1 & Hv1 & Hold1). rewrite run_stmts_app, Hf1. simpl.
        specialize (Hr2 sc f1). destruct (x2 sc) as [v2|]; simpl.
        2: { by rewrite run_stmts_app, Hr2. }
        destruct Hr2 as (f2 & Hf2 & Hv2 & Hold2). rewrite run_stmts_app, Hf2. simpl. rewrite Hx, (Hold2 k1) by lia.
        rewrite Hv1. simpl. rewrite Hv2. simpl. eexists. split; [done|]. split; [apply lookup_bind_eq|].
        intros k' Hk'. unfold glen in *. simpl in *. rewrite app_length in Hk'. simpl in Hk'.
        etransitivity; [apply lookup_bind_ne; lia|]. rewrite Hold2 by lia. apply Hold1. lia.
  Qed.

  Lemma glift_inv {A} (x : res A) g a g' : glift x g = Ok (a, g') -> x = Ok a /\ g' = g.
  Proof. unfold glift. intros H. apply rbind_Ok_inv in H as (a' & -> & H). by simplify_eq. Qed.
  Lemma runs_leaf sc f k lo hi (s : stmt) (x : option expr) : lo <= k < hi ->
    run_stmt sc f s = (v ← x; Some (bind k v f)) -> runs sc f [s] lo hi k x.
  Proof.
    intros Hk H. unfold runs. destruct x as [v|]; simpl in *; rewrite H; simpl; [|done].
    eexists. split; [done|]. split; [apply lookup_bind_eq|]. intros k' Hk'. apply lookup_bind_ne. lia.
  Qed.
  Lemma gpush_key r a b g k g' : gpush r a b g = Ok (k, g') -> glen g <= k < glen g'.
  Proof. unfold gpush, push. intros E. injection E as <- <-. unfold glen. simpl. rewrite app_length. simpl. lia. Qed.
  Lemma gpush_ok r a b g : exists k g', gpush r a b g = Ok (k, g').
  Proof. unfold gpush, push. eauto. Qed.

  Ltac mref := let fuel := fresh in let t := fresh in let H := fresh in intros fuel t; intros; simpl; match goal with H : _ !! _ = Some _ |- _ => rewrite H end; simpl; try done.

  Lemma build_terminal i j F c g k g' : quoted src i j c -> c_terminal src (TNode dsl_R_Terminal i j true F) g = Ok (k, g') ->
    stands g g' k [] (fun sc => cmp sc (DQuoted c)).
  Proof.
    intros Hq H. unfold c_terminal in H. apply mbind_Ok_inv in H as (d & g1 & H1 & H).
    apply glift_inv in H1 as [H1 ->]. unfold usub in H1. simpl in H1. destruct (N.leb_spec i j); [|done]. simplify_eq.
    destruct Hq as [c Ht Hc|c Ht Hc|Ht]; pose proof Ht as [Hj _]; simpl in Hj.
    - destruct (N.eqb_spec (j - i) 2); [lia|]. apply mbind_Ok_inv in H as (l & g1 & H1 & H).
      apply glift_inv in H1 as [H1 ->]. apply (inner_text_eq _ _ _ _ _ _ 39 [c] 39) in H1 as ->; [|done].
      eapply stands_leaf; [exact H|mref|]. intros sc f. eapply runs_leaf; [by eapply gpush_key|]. unfold cmp. simpl.
      repeat case_bool_decide; simplify_eq; simpl; try done.
      destruct (N.eqb_spec c 39); [congruence|]. destruct (N.eqb_spec c 92); [congruence|]. simpl. by case_match.
    - destruct (N.eqb_spec (j - i) 2); [lia|]. apply mbind_Ok_inv in H as (l & g1 & H1 & H).
      apply glift_inv in H1 as [H1 ->]. apply (inner_text_eq _ _ _ _ _ _ 39 [92; c] 39) in H1 as ->; [|done].
      eapply stands_leaf; [exact H|mref|]. intros sc f. eapply runs_leaf; [by eapply gpush_key|].
      destruct Hc as [->|[->| ->]]; done.
    - destruct (N.eqb_spec (j - i) 2); [|lia]. apply mbind_Ok_inv in H as (k1 & g1 & H1 & H). apply mbind_Ok_inv in H as (k2 & g2 & H2 & H).
      assert (Hs : forall g k g', gpush (RTerminal [34]) None None g = Ok (k, g') -> stands g g' k [] (fun _ => Some (ETerminal 34))).
      { clear. intros g k g' H. eapply stands_leaf; [exact H|mref|]. intros sc f. eapply runs_leaf; [by eapply gpush_key|done]. }
      pose proof (stands_binary _ _ _ _ _ _ _ _ _ _ SSeq ESeq _ _ (Hs _ _ _ H1) (Hs _ _ _ H2) H) as HS.
      apply HS; [mref|]. intros; simpl. done.
  Qed.

  Lemma hex_value_eq acc ds v : Forall hex_char ds -> hex_value acc ds = Some v ->
    v = fold_left (fun acc c => acc * 16 + (if c <=? 57 then c - 48 else c - 55)) ds acc.
  Proof.
    revert acc. induction ds as [|c ds IH]; intros acc Hd H; simpl in *; [congruence|].
    apply list.Forall_cons in Hd as [Hc Hd]. unfold hex_digit in H. destruct Hc as [Hc|Hc].
    - destruct (N.leb_spec 48 c); [|lia]. destruct (N.leb_spec c 57); [|lia]. simpl in H. case_match; [|done]. by apply IH.
    - destruct (N.leb_spec 48 c); [|lia]. destruct (N.leb_spec c 57); [lia|]. simpl in H.
      destruct (N.leb_spec 65 c); [|lia]. destruct (N.leb_spec c 70); [|lia]. simpl in H. case_match; [|done]. by apply IH.
  Qed.
  Lemma radix_eq ds v : Forall hex_char ds -> from_str_radix_16 ds = Ok v -> v = hexval ds.
  Proof.
    intros Hd. unfold from_str_radix_16. destruct ds as [|c ds]; [done|].
    destruct (hex_value 0 (c :: ds)) eqn:E; [|done]. intros H. simplify_eq. by apply hex_value_eq.
  Qed.
  Lemma hexnum_slice i j ds l : hexnum src i j ds -> slice_str src (i + 2) j = Ok l -> l = ds.
  Proof.
    intros (Ht & _ & _). apply slice_text. apply (text_app_inv src i j [48; 120] ds) in Ht as [_ Ht]. done.
  Qed.
  Lemma build_range_bound t x v : bound_rep src t x -> range_bound src t = Ok v -> bound_value x = Some v.
  Proof.
    intros Hb H. destruct Hb as [i j F c _ Hq|i j F ds _ Hh|i j F ds _ Hi]; unfold range_bound in H; simpl in H.
    - apply rbind_Ok_inv in H as (l & H1 & H).
      destruct Hq as [c Ht Hc|c Ht Hc|Ht].
      + apply (inner_text_eq _ _ _ _ _ _ 39 [c] 39) in H1 as ->; [|done]. simplify_eq. done.
      + apply (inner_text_eq _ _ _ _ _ _ 39 [92; c] 39) in H1 as ->; [|done]. simplify_eq. done.
      + apply (inner_text_eq _ _ _ _ _ _ 39 [] 39) in H1 as ->; [|done]. done.
    - apply rbind_Ok_inv in H as (l & H1 & H). apply (hexnum_slice _ _ _ _ Hh) in H1 as ->.
      apply radix_eq in H; [|apply Hh]. simpl. by rewrite H.
    - done.
  Qed.
  Lemma build_range i j a b x y g k g' : bound_rep src a x -> bound_rep src b y ->
    c_range src (TNode dsl_R_OrderedChoiceMatchRange i j true [a; b]) g = Ok (k, g') ->
    stands g g' k [] (fun sc => cmp sc (DRange x y)).
  Proof.
    intros Ha Hb H. unfold c_range in H. simpl in H.
    apply mbind_Ok_inv in H as (v & g1 & H1 & H). apply glift_inv in H1 as [H1 ->].
    apply mbind_Ok_inv in H as (w & g1 & H2 & H). apply glift_inv in H2 as [H2 ->].
    apply mbind_Ok_inv in H as (k1 & g1 & H3 & H). injection H as <- <-.
    apply (build_range_bound _ _ _ Ha) in H1. apply (build_range_bound _ _ _ Hb) in H2.
    eapply stands_leaf; [exact H3|mref|]. intros sc f. eapply runs_leaf; [by eapply gpush_key|].
    unfold cmp. simpl. by rewrite H1, H2.
  Qed.
  Lemma string_chars cs l data : Forall2 (ascii_node src) cs l -> map_res (string_char src) cs = Ok data -> data = l.
  Proof.
    intros HF. revert data. induction HF as [|t c cs l Ht HF IH]; intros data H; simpl in H; [congruence|].
    apply rbind_Ok_inv in H as (x & H1 & H). apply rbind_Ok_inv in H as (r & H2 & H). simplify_eq.
    rewrite (IH _ H2). f_equal. destruct Ht as [i c Ht Hc]. unfold string_char in H1. simpl in H1.
    rewrite (slice_bytes_text _ _ _ _ Ht) in H1 by done. simpl in H1. congruence.
  Qed.
  Lemma build_string_data t e l g k g' : (t_label t = t_label t) ->
    map_res (string_char src) (t_children t) = Ok l ->
    (forall sc, cmp sc e = EString <$> string_bytes l) ->
    c_string_terminal src t g = Ok (k, g') -> stands g g' k [] (fun sc => cmp sc e).
  Proof.
    intros _ Hm He H. unfold c_string_terminal in H. apply mbind_Ok_inv in H as (d & g1 & H1 & H). apply glift_inv in H1 as [H1 ->].
    assert (d = l) as -> by congruence.
    destruct (forallb (fun c => c <? 128) l) eqn:E.
    - eapply stands_leaf; [exact H|mref|]. intros sc f. eapply runs_leaf; [by eapply gpush_key|].
      rewrite He. unfold string_bytes. rewrite E. simpl. by destruct (byte_string l).
    - eapply stands_leaf; [exact H|mref|]. intros sc f. rewrite He. unfold string_bytes. rewrite E. done.
  Qed.
  Lemma map_rule_name l l' : map_res rule_name l = Ok l' -> l' = map first_upper l /\ Forall (fun n => n <> []) l.
  Proof.
    revert l'. induction l as [|n l IH]; intros l' H; simpl in H; [by simplify_eq|].
    apply rbind_Ok_inv in H as (x & H1 & H). apply rbind_Ok_inv in H as (r & H2 & H). simplify_eq.
    destruct (IH _ H2) as [-> HF]. destruct n as [|c n]; [done|]. simpl in H1. simplify_eq. split; [done|]. by constructor.
  Qed.
  Lemma map_rule_name_ok l : Forall (fun n => n <> []) l -> map_res rule_name l = Ok (map first_upper l).
  Proof. induction 1 as [|n l Hn _ IH]; [done|]. simpl. rewrite IH. destruct n; done. Qed.
  Lemma insert_sorted_perm x l : insert_sorted x l ≡ₚ x :: l.
  Proof. induction l as [|y l IH]; [done|]. simpl. case_match; [done|]. rewrite IH. apply Permutation_swap. Qed.
  Lemma sort_names_perm l : sort_names l ≡ₚ l.
  Proof. induction l as [|x l IH]; [done|]. simpl. rewrite insert_sorted_perm. unfold sort_names in IH. by rewrite IH. Qed.

  Lemma build_ref i j F n g k g' : text src i j (60 :: n ++ [62]) -> valid_name n ->
    c_var_name lr sym src (TNode dsl_R_Var_Name_Ref i j true F) g = Ok (k, g') ->
    stands g g' k [] (fun sc => cmp sc (DRef n)).
  Proof.
    intros Ht (c & r & -> & _) H. unfold c_var_name in H. apply mbind_Ok_inv in H as (n' & g1 & H1 & H). apply glift_inv in H1 as [H1 ->].
    apply (inner_text_eq _ _ _ _ _ _ 60 (c :: r) 62) in H1 as ->; [|done].
    unfold cmp. simpl. unfold compile_ref, involved_of. destruct (lr !! (c :: r)) as [inv|] eqn:El; simpl.
    - apply mbind_Ok_inv in H as (inv' & g1 & H1 & H). apply glift_inv in H1 as [H1 ->].
      apply map_rule_name in H1 as [-> HF].
      assert (HF' : Forall (fun n : list N => n <> []) (sort_names (map first_upper (elements inv)))).
      { rewrite sort_names_perm. apply list.Forall_fmap. eapply list.Forall_impl; [exact HF|]. intros [|??]; done. }
      eapply stands_leaf; [exact H| |].
      + intros fuel t Hl. simpl. rewrite Hl. simpl. rewrite (map_rule_name_ok _ HF'). simpl. done.
      + intros sc f. unfold variants, runs, enum_index, fn_index. simpl.
        destruct (all_some _) as [ls|]; simpl; [|done].
        destruct (index_of (upper c :: r) (sc_enum sc)) as [ri|]; simpl; [|done].
        destruct (index_of (lower c :: to_lowercase r) (sc_fns sc)) as [fi|]; simpl; [|done].
        eexists. split; [done|]. split; [apply lookup_bind_eq|]. intros k' Hk'. etransitivity; [apply lookup_bind_ne|done].
        pose proof (gpush_key _ _ _ _ _ _ H). lia.
    - destruct (check_symbol_is_inline sym (c :: r)) eqn:Ei.
      + eapply stands_leaf; [exact H|mref|]. intros sc f. eapply runs_leaf; [by eapply gpush_key|].
        unfold fn_index. simpl. by destruct (index_of _ _).
      + eapply stands_leaf; [exact H|mref|]. intros sc f. eapply runs_leaf; [by eapply gpush_key|].
        unfold fn_index, enum_index. simpl.
        destruct (index_of (upper c :: r) (sc_enum sc)); simpl; [|done]. by destruct (index_of _ (sc_fns sc)).
  Qed.

  (** The recursive part. *)
  Fixpoint hooks_list (es : list dexp) : list name :=
    match es with [] => [] | e :: es => hooks_of e ++ hooks_list es end.
  Definition builds (t : ptree) (e : dexp) : Prop :=
    forall g k g', bld t g = Ok (k, g') -> stands g g' k (hooks_of e) (fun sc => cmp sc e).

  Lemma each_one (f : ptree -> gm N) p post c g : p (t_label c) = true ->
    each_child f p post [c] 0 g = (do k <- f c; post k) g.
  Proof.
    intros H. simpl. rewrite H. unfold mbind'. destruct (f c g) as [[k g1]| |]; simpl; [|done|done].
    destruct (post k g1) as [[k' g2]| |]; done.
  Qed.
  Lemma stands_ext g g' k h x y : stands g g' k h x -> (forall sc, x sc = y sc) -> stands g g' k h y.
  Proof. intros [H1 H2 H3 (l & H4 & H5)] E. constructor; try done. exists l. split; [done|]. intros. by rewrite <- E. Qed.

  Lemma left_nested_stands r mk op :
    (r = RSequence /\ mk = SSeq /\ op = ESeq) \/ (r = ROrderedChoice /\ mk = SChoice /\ op = EChoice) ->
    forall cs es, Forall2 builds cs es -> Forall (fun c => t_label c = dsl_R_Atom) cs ->
    forall g0 g k0 h0 x0, stands g0 g k0 h0 x0 -> forall k g', left_nested bld r cs (Some k0) g = Ok (k, g') ->
    stands g0 g' k (h0 ++ hooks_list es) (fun sc => fold_left1 op (x0 sc) (map (cmp sc) es)).
  Proof.
    intros Hr cs es HF. induction HF as [|c e cs es Hc HF IH]; intros Hl g0 g k0 h0 x0 H0 k g' H.
    - simpl in *. unfold mret in H. simplify_eq. by rewrite app_nil_r.
    - apply list.Forall_cons in Hl as [Hl1 Hl]. simpl in H. rewrite Hl1 in H. simpl in H.
      apply mbind_Ok_inv in H as (k1 & g1 & H1 & H). apply mbind_Ok_inv in H as (k2 & g2 & H2 & H).
      apply Hc in H1. simpl. rewrite app_assoc. eapply IH; [done| |exact H].
      eapply (stands_binary _ _ _ _ _ _ _ _ _ r mk op); [exact H0|exact H1|exact H2| |].
      + destruct Hr as [(-> & -> & ->)|(-> & -> & ->)]; intros fuel t a b Ha; simpl; rewrite Ha; done.
      + destruct Hr as [(-> & -> & ->)|(-> & -> & ->)]; done.
  Qed.
  Lemma left_nested_all r mk op :
    (r = RSequence /\ mk = SSeq /\ op = ESeq) \/ (r = ROrderedChoice /\ mk = SChoice /\ op = EChoice) ->
    forall cs es, Forall2 builds cs es -> Forall (fun c => t_label c = dsl_R_Atom) cs -> es <> [] ->
    forall g k g', left_nested bld r cs None g = Ok (k, g') ->
    stands g g' k (hooks_list es) (fun sc => fold_op op (map (cmp sc) es)).
  Proof.
    intros Hr cs es HF Hl Hne g k g' H. destruct HF as [|c e cs es Hc HF]; [done|].
    apply list.Forall_cons in Hl as [Hl1 Hl]. simpl in H. rewrite Hl1 in H. simpl in H.
    apply mbind_Ok_inv in H as (k1 & g1 & H1 & H). apply Hc in H1. simpl.
    by eapply (left_nested_stands r mk op).
  Qed.

  Local Arguments each_child : simpl never.
  Local Arguments left_nested : simpl never.
  Local Arguments c_terminal : simpl never.
  Local Arguments c_range : simpl never.
  Local Arguments c_string_terminal : simpl never.
  Local Arguments c_var_name : simpl never.
  Scheme rep_mut := Minimality for rep Sort Prop with reps_mut := Minimality for reps Sort Prop.

  Ltac unary mk op := 
    match goal with H : each_child _ _ _ [_] _ _ = _ |- _ =>
      rewrite each_one in H by (by match goal with H : t_label _ = _ |- _ => rewrite H end);
      apply mbind_Ok_inv in H as (? & ? & ? & H);
      match goal with IH : builds _ _, H' : build _ _ _ _ _ = _ |- _ => apply IH in H' end;
      eapply (stands_unary _ _ _ _ _ _ mk op); [eassumption|exact H|intros fuel t a Ha; simpl; rewrite Ha; done|done] end.
  Lemma elem_labels (l : N) (L : list N) (p : N -> bool) : l ∈ L -> forallb p L = true -> p l = true.
  Proof. intros H HL. rewrite forallb_forall in HL. apply HL. by apply elem_of_list_In. Qed.
  Lemma each_one_in L (f : ptree -> gm N) p post c g : t_label c ∈ L -> forallb p L = true ->
    each_child f p post [c] 0 g = (do k <- f c; post k) g.
  Proof. intros H HL. apply each_one. by eapply elem_labels. Qed.
  Ltac pass :=
    match goal with H : each_child _ _ _ [_] _ _ = _ |- _ =>
      erewrite each_one_in in H by first [eassumption|reflexivity];
      apply mbind_Ok_inv in H as (? & ? & ? & H); unfold mret in H; simplify_eq; auto end.

  Theorem build_correct t e : rep src t e -> builds t e.
  Proof.
    intros H. revert t e H.
    apply (rep_mut src builds (fun cs es => Forall2 builds cs es /\ Forall (fun c => t_label c = dsl_R_Atom) cs)).
    - intros i j c e Hl _ IH g k g' H. simpl in H. pass.
    - intros i j cs es _ [IH1 IH2] Hlen g k g' H. simpl in H.
      eapply (left_nested_all _ SChoice EChoice) in H; [|by right|exact IH1|done|by destruct es; [simpl in Hlen; lia|]]. exact H.
    - intros i j cs es _ [IH1 IH2] Hlen g k g' H. simpl in H.
      eapply (left_nested_all _ SSeq ESeq) in H; [|by left|exact IH1|done|by destruct es; [simpl in Hlen; lia|]]. exact H.
    - intros i j c e Hl _ IH g k g' H. simpl in H. pass.
    - intros i j c e Hl _ IH g k g' H. simpl in H. unary SAnd EAnd.
    - intros i j c e Hl _ IH g k g' H. simpl in H. unary SNot ENot.
    - intros i j c e Hl _ IH g k g' H. simpl in H. unary SPlus EPlus.
    - intros i j c e Hl _ IH g k g' H. simpl in H. unary SStar EStar.
    - intros i j c e Hl _ IH g k g' H. simpl in H. unary SOpt EOpt.
    - intros i j c e Hl _ IH g k g' H. simpl in H. pass.
    - intros i j a b x y Ha Hb g k g' H. simpl in H. by eapply build_range.
    - intros i a j c n e Hl Hs Ht Hv _ IH g k g' H. simpl in H.
      apply mbind_Ok_inv in H as (c' & g1 & H1 & H). apply glift_inv in H1 as [H1 ->]. unfold child in H1. simpl in H1. injection H1 as <-.
      apply mbind_Ok_inv in H as (e' & g1 & H1 & H). apply glift_inv in H1 as [H1 ->]. unfold usub in H1. rewrite Hs in H1.
      destruct (N.leb_spec 1 (a + 1)); [|lia]. injection H1 as <-. replace (a + 1 - 1) with a in H by lia.
      apply mbind_Ok_inv in H as (n' & g1 & H1 & H). apply glift_inv in H1 as [H1 ->]. apply (slice_text _ _ _ _ _ Ht) in H1 as ->.
      apply mbind_Ok_inv in H as ([] & g1 & H1 & H). unfold gimport in H1. injection H1 as <-.
      apply mbind_Ok_inv in H as (k1 & g1 & H1 & H).
      assert (HS : stands (GState (g_imports g ++ [n]) (g_tree g)) g1 k1 (hooks_of e) (fun sc => cmp sc (DGroup e))).
      { clear H. rename H1 into H. rewrite each_one in H by (by rewrite Hl). apply mbind_Ok_inv in H as (kk & gg & HH & H). apply IH in HH. eapply (stands_unary _ _ _ _ _ _ SSub ESub). eassumption. exact H. intros fuel t a0 Ha. simpl. rewrite Ha. done. done. }
      destruct HS as [S1 S2 S3 (l & S4 & S5)]. unfold gpush, push in H. injection H as <- <-. unfold glen in *. simpl in *.
      constructor; simpl.
      + rewrite S1, <- app_assoc. done.
      + destruct S2 as [new ->]. rewrite <- app_assoc. eauto.
      + unfold glen in *. simpl. rewrite app_length. simpl. lia.
      + exists (l ++ [SHook (N.of_nat (length (g_tree g1))) n k1]). split.
        * intros ext fuel Hf. rewrite app_length in Hf. simpl in Hf. destruct fuel as [|fuel]; [lia|].
          simpl. rewrite lookup_push. simpl. rewrite <- app_assoc, S4 by lia. done.
        * intros sc f. specialize (S5 sc f). unfold runs in *. unfold cmp in *. simpl in *. fold (cmp sc e) in *.
          destruct (ESub <$> cmp sc e) as [v|] eqn:Ev.
          -- destruct S5 as (f' & Hf' & Hvv & Hold). destruct (index_of n (sc_hooks sc)) as [hi|] eqn:Eh; simpl.
             ++ rewrite run_stmts_app, Hf'. simpl. rewrite Hvv. simpl. rewrite Eh. simpl.
                eexists. split; [done|]. split; [apply lookup_bind_eq|].
                intros k' Hk'. unfold glen in Hk'. simpl in Hk'. rewrite app_length in Hk'. simpl in Hk'. etransitivity; [apply lookup_bind_ne; lia|]. apply Hold. lia.
             ++ rewrite run_stmts_app, Hf'. simpl. rewrite Hvv. simpl. rewrite Eh. done.
          -- rewrite run_stmts_app, S5. simpl. by destruct (index_of n (sc_hooks sc)).
    - intros i j c e Hl _ IH g k g' H. simpl in H. unary SSub ESub.
    - intros i j F c _ Hq g k g' H. simpl in H. by eapply build_terminal.
    - intros i j cs l HF Hb g k g' H. simpl in H. pose proof H as H'. unfold c_string_terminal in H'.
      apply mbind_Ok_inv in H' as (d & g1 & H1 & _). apply glift_inv in H1 as [H1 _]. pose proof (string_chars _ _ _ HF H1) as ->.
      eapply build_string_data; [done|exact H1| |exact H]. done.
    - intros i j F ds _ Hh g k g' H. simpl in H. pose proof H as H'. unfold c_string_terminal in H'.
      apply mbind_Ok_inv in H' as (d & g1 & H1 & _). apply glift_inv in H1 as [H1 _].
      eapply build_string_data; [done|exact H1| |exact H]. simpl in H1. unfold string_char in H1. simpl in H1.
      apply rbind_Ok_inv in H1 as (v & H1 & H2). apply rbind_Ok_inv in H1 as (l & H1 & H3).
      apply (hexnum_slice _ _ _ _ Hh) in H1 as ->. apply rbind_Ok_inv in H3 as (w & H3 & H4).
      apply radix_eq in H3 as ->; [|apply Hh]. unfold char_from_u32 in H4. case_match; [|done]. simpl in H2. simplify_eq. done.
    - intros i j F ds _ Hh g k g' H. simpl in H. unfold c_string_terminal in H.
      apply mbind_Ok_inv in H as (d & g1 & H1 & _). apply glift_inv in H1 as [H1 _]. done.
    - intros i j F n _ Ht Hv g k g' H. simpl in H. by eapply build_ref.
    - done.
    - intros c cs e es Hl _ IH _ [IH1 IH2]. split; by constructor.
  Qed.
End build.
