(** What the generator writes is readable: names are plain identifiers, bounds
    fit in 32 bits, comments stay on their line. *)
From Verif Require Import SpecGenerator ProofGenerate ProofDslComplete ProofTree ProofBuild ProofUtf8 ProofRender Render SpecRust TheoremsGenerator.
From stdpp Require Import relations gmap.
From Verif Require Import SpecDsl SpecUtf8.
Local Open Scope N_scope.

(** ** Names *)
Lemma letter_is c : letter c -> is_letter c = true.
Proof. intros [H|H]; unfold is_letter; apply orb_true_iff; [left|right]; apply andb_true_iff; split; apply N.leb_le; lia. Qed.
Lemma lower_letter c : letter c -> is_letter (lower c) = true.
Proof.
  intros H. unfold lower. destruct ((65 <=? c) && (c <=? 90)) eqn:E.
  - apply andb_true_iff in E as [E1 E2]. apply N.leb_le in E1, E2. apply letter_is. left. lia.
  - by apply letter_is.
Qed.
Lemma plain_lower n : valid_name n -> plain_name (to_lowercase n).
Proof.
  intros (c & r & -> & Hc & Hr). exists (lower c), (map lower r). split; [done|]. split; [by apply lower_letter|].
  apply list.Forall_fmap. eapply list.Forall_impl; [exact Hr|]. intros x [Hx| ->]; unfold plain_char; simpl; [|done].
  by rewrite lower_letter.
Qed.
Lemma plain_valid n : valid_name n -> plain_name n.
Proof.
  intros (c & r & -> & Hc & Hr). exists c, r. split; [done|]. split; [by apply letter_is|].
  eapply list.Forall_impl; [exact Hr|]. intros x [Hx| ->]; unfold plain_char; simpl; [|done]. by rewrite letter_is.
Qed.
Lemma upper_upper c : letter c -> (65 <=? upper c) && (upper c <=? 90) = true.
Proof.
  intros H. unfold upper. destruct ((97 <=? c) && (c <=? 122)) eqn:E.
  - apply andb_true_iff in E as [E1 E2]. apply N.leb_le in E1, E2. apply andb_true_iff. split; apply N.leb_le; lia.
  - destruct H as [H|H].
    + exfalso. apply andb_false_iff in E as [E|E]; apply N.leb_gt in E; lia.
    + apply andb_true_iff. split; apply N.leb_le; lia.
Qed.
Lemma plain_upper n : valid_name n -> plain_name (first_upper n).
Proof.
  intros (c & r & -> & Hc & Hr). exists (upper c), r. split; [done|]. split.
  - pose proof (upper_upper c Hc) as H. apply andb_true_iff in H as [H1 H2]. apply N.leb_le in H1, H2. apply letter_is. right. lia.
  - eapply list.Forall_impl; [exact Hr|]. intros x [Hx| ->]; unfold plain_char; simpl; [|done]. by rewrite letter_is.
Qed.

(** ** Hook names *)
Section hooks.
  Context (s : list N).
  Notation HN := (fun e => Forall valid_name (hooks_of e)).
  Lemma hooks_valid i j e : rhs_text s i j e -> HN e.
  Proof.
    intros H. refine (rhs_mut s (fun _ _ e => HN e) (fun _ _ _ es => Forall (fun e => HN e) es) (fun _ _ e => HN e) (fun _ _ e => HN e)
      _ _ _ _ _ _ _ _ _ _ _ _ _ _ _ _ _ _ _ i j e H); intros; simpl; try done; try (by constructor).
    - match goal with H : Forall _ _ |- _ => revert H; clear; induction 1 as [|x xs Hx _ IH]; [constructor|] end. apply Forall_app. by split.
    - match goal with H : Forall _ _ |- _ => revert H; clear; induction 1 as [|x xs Hx _ IH]; [constructor|] end. apply Forall_app. by split.
  Qed.
End hooks.

(** ** Range bounds *)
Lemma utf8_bytes s : utf8 s -> Forall (fun b => b < u32_modulus) s.
Proof. induction 1; repeat constructor; unfold continuation, u32_modulus in *; try lia; done. Qed.
Lemma hex_value_bound acc l v : acc < u32_modulus -> hex_value acc l = Some v -> v < u32_modulus.
Proof.
  revert acc. induction l as [|c l IH]; intros acc Ha H; cbn [hex_value] in H; [congruence|].
  destruct (hex_digit c) as [d|]; [|done]. destruct (acc * 16 + d <? u32_modulus) eqn:E; [|done]. apply N.ltb_lt in E. by eapply IH.
Qed.
Definition ref_ok (r : reference) : Prop := match r with ROrderedChoiceMatchRange a b => a < u32_modulus /\ b < u32_modulus | _ => True end.
Definition bt_ok (t : btree) : Prop := Forall (fun n => ref_ok (b_ref n)) t.
Definition keeps {A} (m : gm A) : Prop := forall g a g', m g = Ok (a, g') -> bt_ok (g_tree g) -> bt_ok (g_tree g').
Lemma keeps_bind {A B} (m : gm A) (f : A -> gm B) : keeps m -> (forall a, keeps (f a)) -> keeps (mbind' m f).
Proof. intros Hm Hf g b g' H Hg. apply mbind_Ok_inv in H as (a & s' & H1 & H2). eapply Hf; [exact H2|]. by eapply Hm. Qed.
Lemma keeps_ret {A} (a : A) : keeps (Base.mret a).
Proof. intros g b g' H Hg. by injection H as <- <-. Qed.
Lemma keeps_push r a b : ref_ok r -> keeps (gpush r a b).
Proof. intros Hr g k g' H Hg. unfold gpush, push in H. injection H as <- <-. apply Forall_app. split; [done|]. by repeat constructor. Qed.
Lemma keeps_lift {A} (x : res A) : keeps (glift x).
Proof. intros g a g' H Hg. unfold glift in H. apply rbind_Ok_inv in H as (y & _ & H). by injection H as <- <-. Qed.
Lemma keeps_panic {A} x : keeps (mpanic x : gm A).
Proof. by intros g a g' H. Qed.
Lemma keeps_import n : keeps (gimport n).
Proof. intros g a g' H Hg. unfold gimport in H. by injection H as <- <-. Qed.

Section ranges.
  Context (lr : name_map name_set) (sym : symbol_table) (src : list N).
  Context (Hsrc : Forall (fun b => b < u32_modulus) src).
  Lemma slice_bounded a b l : slice_str src a b = Ok l -> Forall (fun b => b < u32_modulus) l.
  Proof using Hsrc. unfold slice_str. destruct (_ && _); [|done]. intros [= <-]. by apply Forall_take, Forall_drop. Qed.
  Lemma range_bound_ok c v : range_bound src c = Ok v -> v < u32_modulus.
  Proof using Hsrc.
    unfold range_bound. destruct (t_label c =? dsl_R_Terminal).
    - intros H. apply rbind_Ok_inv in H as (l & H1 & H). unfold inner_text in H1. apply rbind_Ok_inv in H1 as (e & _ & H1).
      apply slice_bounded in H1. destruct l as [|b l]; [done|]. injection H as <-. by inversion H1.
    - destruct (t_label c =? dsl_R_Integer); [done|]. destruct (t_label c =? dsl_R_Hex); [|done].
      intros H. apply rbind_Ok_inv in H as (l & _ & H). unfold from_str_radix_16 in H. destruct l as [|x l]; [done|].
      destruct (hex_value 0 (x :: l)) as [w|] eqn:E; [|done]. injection H as <-. by eapply hex_value_bound; [|exact E].
  Qed.
  Lemma keeps_range_loop l st ret : (forall a, st = Some a -> a < u32_modulus) -> keeps (c_range_loop src l st ret).
  Proof using Hsrc.
    revert st ret. induction l as [|c l IH]; intros st ret Hst; cbn [c_range_loop]; [apply keeps_ret|].
    intros g k g' H Hg. apply mbind_Ok_inv in H as (v & g1 & H1 & H2). unfold glift in H1. apply rbind_Ok_inv in H1 as (v' & Hv & H1). injection H1 as -> ->.
    apply range_bound_ok in Hv. destruct st as [a|].
    - revert H2 Hg. apply keeps_bind; [apply keeps_push; split; [by apply Hst|done]|]. intros k'. by apply IH.
    - revert H2 Hg. apply IH. by intros a [= <-].
  Qed.
  Lemma keeps_each build expected post F ret : Forall (fun t => keeps (build t)) F -> (forall k, keeps (post k)) -> keeps (each_child build expected post F ret).
  Proof using.
    intros HF Hp. revert ret. induction HF as [|t F Ht _ IH]; intros ret; cbn [each_child]; [apply keeps_ret|].
    destruct (expected _); [|apply keeps_panic]. apply keeps_bind; [done|]. intros k. apply keeps_bind; [apply Hp|]. done.
  Qed.
  Lemma keeps_nested build r F last : ref_ok r -> Forall (fun t => keeps (build t)) F -> keeps (left_nested build r F last).
  Proof using.
    intros Hr HF. revert last. induction HF as [|t F Ht _ IH]; intros last; cbn [left_nested]; [apply keeps_ret|].
    destruct (_ =? _); [|apply keeps_panic]. apply keeps_bind; [done|]. intros k. destruct last; [|done]. apply keeps_bind; [by apply keeps_push|]. done.
  Qed.
  Lemma keeps_build t : keeps (build lr sym src t).
  Proof using Hsrc.
    induction t as [l i j b F IH'] using ptree_ind'. assert (IH : Forall (fun t => keeps (build lr sym src t)) F) by (by apply list.Forall_forall). cbn [build].
    repeat (match goal with |- keeps (if ?c then _ else _) => destruct c end);
      try (apply keeps_each; [exact IH|]; intros k; first [apply keeps_ret|by apply keeps_push]);
      try (apply keeps_nested; [done|exact IH]).
    - repeat (apply keeps_bind; [first [apply keeps_lift|apply keeps_import|apply keeps_each; [exact IH|]; intros; by apply keeps_push]|]; intros).
      by apply keeps_push.
    - unfold c_terminal. apply keeps_bind; [apply keeps_lift|]. intros d. destruct (d =? 2).
      + repeat (apply keeps_bind; [by apply keeps_push|]; intros). by apply keeps_push.
      + apply keeps_bind; [apply keeps_lift|]. intros x. by apply keeps_push.
    - unfold c_var_name. apply keeps_bind; [apply keeps_lift|]. intros n. destruct (lr !! n).
      + apply keeps_bind; [apply keeps_lift|]. intros x. by apply keeps_push.
      + destruct (check_symbol_is_inline sym n); by apply keeps_push.
    - unfold c_range. by apply keeps_range_loop.
    - unfold c_string_terminal. apply keeps_bind; [apply keeps_lift|]. intros x. destruct (forallb _ x); by apply keeps_push.
    - apply keeps_panic.
  Qed.
  Lemma match_ref_ok fuel t k l : bt_ok t -> match_ref fuel t k = Ok l -> Forall range_ok l.
  Proof using.
    intros Ht. revert k l. induction fuel as [|fuel IH]; intros k l H; [done|]. cbn [match_ref] in H.
    destruct (t !! N.to_nat k) as [n|] eqn:E; [|done]. assert (ref_ok (b_ref n)) as Hn.
    { eapply (proj1 (list.Forall_lookup _ _) Ht). exact E. }
    destruct (b_ref n) eqn:Er; cbn [ref_ok] in Hn; try done;
      repeat (match goal with H : rbind _ _ = Ok _ |- _ => apply rbind_Ok_inv in H as (? & ? & H) end);
      repeat (match goal with H : match_ref _ _ _ = Ok _ |- _ => apply IH in H end);
      match goal with H : Ok _ = Ok _ |- _ => injection H as <- end;
      rewrite ?Forall_app; repeat split; try done; repeat constructor; try done; destruct Hn; done.
  Qed.
  Lemma rule_loop_ok fuel l imports nm rhs cm f i : Forall range_ok rhs -> c_rule_loop lr sym src fuel l imports nm rhs cm = Ok (f, i) -> Forall range_ok (gf_body f).
  Proof using Hsrc.
    revert imports nm rhs cm. induction l as [|c l IH]; intros imports nm rhs cm Hr H; cbn [c_rule_loop] in H.
    - destruct nm; [|done]. by injection H as <- <-.
    - destruct (_ =? dsl_R_LHS); [|destruct (_ =? dsl_R_RHS); [|destruct (_ =? dsl_R_Comment)]].
      + apply rbind_Ok_inv in H as (n & _ & H). by eapply IH.
      + apply rbind_Ok_inv in H as ([k g] & Hb & H). cbn in H. apply rbind_Ok_inv in H as (body & Hs & H). revert H. apply IH.
        pose proof (keeps_build _ _ _ _ Hb ltac:(by repeat constructor)) as Hb'. unfold btree_to_string in Hs. rewrite Nat2N.id in Hs. unfold btree in Hs. rewrite lookup_app_r in Hs by done.
        rewrite Nat.sub_diag in Hs. cbn in Hs. apply rbind_Ok_inv in Hs as (x & Hm & Hs). injection Hs as <-. apply Forall_app. split; [|by repeat constructor].
        eapply match_ref_ok; [|exact Hm]. apply Forall_app. split; [done|]. by repeat constructor.
      + apply rbind_Ok_inv in H as (n & _ & H). by eapply IH.
      + by eapply IH.
  Qed.
  Lemma generate_loop_ok fuel l imports fs i : generate_loop lr sym src fuel l imports = Ok (fs, i) -> Forall (fun f => Forall range_ok (gf_body f)) fs.
  Proof using Hsrc.
    revert imports fs i. induction l as [|t l IH]; intros imports fs i H; cbn [generate_loop] in H; [by injection H as <- <-|].
    apply rbind_Ok_inv in H as ([f i1] & H1 & H). apply rbind_Ok_inv in H as ([r i2] & H2 & H). injection H as <- <-. constructor; [|by eapply IH].
    unfold match_rule in H1. destruct (_ =? _); [|done]. eapply rule_loop_ok; [|exact H1]. done.
  Qed.
End ranges.

Lemma rules_valid s i j rules : rules_text s i j rules -> Forall (fun r => valid_name (dr_name r) /\ Forall valid_name (hooks_of (dr_body r))) rules.
Proof.
  induction 1 as [|i j k r rs Hr _ IH]; [done|]. constructor; [|done].
  destruct Hr as (a & b & c & d & e & f & g & _ & Hv & _ & _ & _ & _ & Hb & _). split; [done|]. by eapply hooks_valid.
Qed.
Lemma generated_code_ok s fuel ho c : fits s -> orders_ok ho -> generate_parser fuel ho s = Ok (GCode c) -> code_ok c.
Proof.
  intros Hfit Hho H. destruct (generate_spec fuel ho s c (fits_len _ Hfit) (proj1 Hfit) Hho H) as (rules & Hf & Hg & _).
  assert (Hv : Forall (fun r => valid_name (dr_name r) /\ Forall valid_name (hooks_of (dr_body r))) rules).
  { destruct Hf as [(i & _ & Hr & _)|[_ ->]]; [by eapply rules_valid|done]. }
  assert (Hv' := proj1 (list.Forall_forall _ _) Hv).
  destruct (ge_refs _ _ Hg) as (inv & inl & _ & HF). destruct (ge_enum _ _ Hg) as (ns & _ & Hns & He).
  assert (Hen : Forall valid_name ns). { apply list.Forall_forall. intros n Hn. apply Hns in Hn as [(r & Hr & <-) _]. by apply Hv'. }
  split.
  - apply list.Forall_fmap, list.Forall_forall. intros f Hin. apply elem_of_list_lookup in Hin as [k Hk].
    destruct (Forall2_lookup_r _ _ _ _ _ HF Hk) as (r & Hr & Hfn). cbn. rewrite (fu_name _ _ _ _ _ Hfn). apply plain_lower, Hv'. by eapply elem_of_list_lookup_2.
  - rewrite (ge_imports _ _ Hg). clear -Hv. induction Hv as [|r rs Hr _ IH]; [constructor|]. cbn. apply Forall_app. split; [|done].
    destruct Hr as [_ Hr]. eapply list.Forall_impl; [exact Hr|]. apply plain_valid.
  - rewrite He. apply list.Forall_fmap. eapply list.Forall_impl; [exact Hen|]. intros n. apply plain_upper.
  - rewrite He. apply list.Forall_fmap. eapply list.Forall_impl; [exact Hen|]. intros n (x & r & -> & Hx & _). cbn. by apply upper_upper.
  - apply list.Forall_forall. intros f Hin. eapply list.Forall_impl; [by eapply C45_comments_stay_comments|].
    intros l Hl. apply list.Forall_forall. intros x Hx ->. by apply Hl.
  - unfold generate_parser in H. apply rbind_Ok_inv in H as ([[b q] st] & _ & H). destruct (negb _).
    { apply rbind_Ok_inv in H as (n & _ & H). done. }
    do 4 (apply rbind_Ok_inv in H as (? & _ & H)). apply rbind_Ok_inv in H as (code & Hc & H). injection H as ->.
    unfold generated_code_new in Hc. apply rbind_Ok_inv in Hc as ([fns imps] & Hgen & Hc). apply rbind_Ok_inv in Hc as (en & _ & Hc). injection Hc as <-. cbn.
    unfold generate in Hgen. destruct (negb _); [done|]. eapply generate_loop_ok; [|exact Hgen]. apply utf8_bytes, Hfit.
Qed.
