(** The cleaned syntax tree of a grammar file is linear in the file: cleaning
    it never runs out of keys. *)
From Coq Require Import ZArith.
From Verif Require Import Programs SpecDsl SpecProgram SpecLR SpecTerm ProofPeg ProofTree ProofTrace.
From Verif Require Import ProofComplete ProofFuel ProofTree2 ProofSafe SpecSession TheoremsKernel TheoremsPackrat.
From Verif Require Import ProofPegTotal Checks TheoremsTotal ProofDsl ProofDslComplete.

Definition oadd (a b : option Z) : option Z := match a, b with Some x, Some y => Some (x + y)%Z | _, _ => None end.
Definition omax (a b : option Z) : option Z := match a, b with Some x, Some y => Some (Z.max x y) | _, _ => None end.
Lemma oadd_inv a b c : oadd a b = Some c -> exists x y, a = Some x /\ b = Some y /\ c = (x + y)%Z.
Proof. destruct a, b; simpl; intros; simplify_eq; eauto. Qed.
Lemma omax_inv a b c : omax a b = Some c -> exists x y, a = Some x /\ b = Some y /\ c = Z.max x y.
Proof. destruct a, b; simpl; intros; simplify_eq; eauto. Qed.

Section size.
  Context (g : pgrammar) (s : list N) (K : Z) (nul : N -> bool) (oc kc fc : N -> option Z).
  Context (HK : (0 <= K)%Z).
  (** Nodes kept of a failed attempt; of a success; of a success, beyond [K] per byte. *)
  Fixpoint ko_n (e : pexp) : option Z :=
    match e with
    | PChar _ | PStr _ | PRange _ _ | PStar _ | POpt _ => Some 0%Z
    | PSeq a b => omax (ko_n a) (oadd (fx_n a) (ko_n b))
    | PAlt a b => oadd (ko_n a) (ko_n b)
    | PAnd e | PPlus e => ko_n e
    | PNot e => fx_n e
    | PRef None A => kc A
    | PRef (Some _) _ => Some 0%Z
    end
  with fx_n (e : pexp) : option Z :=
    match e with
    | PChar _ | PStr _ | PRange _ _ => Some 0%Z
    | PSeq a b => oadd (fx_n a) (fx_n b)
    | PAlt a b => omax (fx_n a) (oadd (ko_n a) (fx_n b))
    | PAnd e => fx_n e
    | PNot e => ko_n e
    | PStar e | PPlus e => match fx_n e with Some z => if Z.leb z 0 then ko_n e else None | None => None end
    | POpt e => omax (fx_n e) (ko_n e)
    | PRef None A => fc A
    | PRef (Some _) A => oadd (Some 1%Z) (fc A)
    end.
  (** Nodes kept of a failed attempt when the next byte satisfies [P]. *)
  Fixpoint head (e : pexp) : option N := match e with PChar c => Some c | PSeq a _ => head a | PRef None A => match g A with Some (PChar c) => Some c | _ => None end | _ => None end.
  Fixpoint ko_p (P : N -> bool) (e : pexp) : option Z :=
    match e with
    | PAlt a b => oadd (ko_p P a) (ko_p P b)
    | _ => match head e with Some c => if P c then ko_n e else Some 0%Z | None => ko_n e end
    end.
  Fixpoint ok_n (e : pexp) : option Z :=
    match e with
    | PChar _ | PRange _ _ => Some (- K)%Z
    | PStr l => Some (- (K * Z.of_nat (length l)))%Z
    | PSeq a b => oadd (ok_n a) (ok_n b)
    | PAlt a b => omax (ok_n a) (oadd (if nullable nul b then ko_n a else ko_p (may g nul 30 b) a) (ok_n b))
    | PAnd e => fx_n e
    | PNot e => ko_n e
    | PStar e => match ok_n e with Some z => if Z.leb z 0 then ko_n e else None | None => None end
    | PPlus e => match ok_n e with Some z => if Z.leb z 0 then oadd (Some z) (ko_n e) else None | None => None end
    | POpt e => omax (ok_n e) (ko_n e)
    | PRef None A => oc A
    | PRef (Some _) A => oadd (Some 1%Z) (oc A)
    end.
  Definition within (a b : option Z) : Prop := forall c, b = Some c -> exists c', a = Some c' /\ (c' <= c)%Z.
  Hypothesis Hoc : forall A body, g A = Some body -> within (ok_n body) (oc A).
  Hypothesis Hkc : forall A body, g A = Some body -> within (ko_n body) (kc A).
  Hypothesis Hfc : forall A body, g A = Some body -> within (fx_n body) (fc A).

  Definition sz (F : list ptree) : Z := Z.of_N (fsize (prune_forest F)).
  Lemma fsize_app F G : fsize (F ++ G) = fsize F + fsize G.
  Proof using. induction F as [|t F IH]; [done|]. cbn [app fsize]. rewrite IH. lia. Qed.
  Lemma sz_app F G : sz (F ++ G) = (sz F + sz G)%Z.
  Proof using. unfold sz. rewrite prune_forest_app, fsize_app. lia. Qed.
  Lemma sz_nonneg F : (0 <= sz F)%Z.
  Proof using. unfold sz. lia. Qed.
  Definition bounds (e : pexp) (i : N) (o : option N) (F : list ptree) : Prop :=
    match o with
    | Some j => (forall c, ok_n e = Some c -> (sz F <= K * (Z.of_N j - Z.of_N i) + c)%Z) /\ (forall c, fx_n e = Some c -> (sz F <= c)%Z)
    | None => forall c, ko_n e = Some c -> (sz F <= c)%Z
    end.
  Lemma sz_nil : sz [] = 0%Z. Proof using. done. Qed.
  Lemma sz_fail r i F : sz [node_of r i None F] = 0%Z. Proof using. done. Qed.
  Lemma sz_node r i j F : (sz [node_of r i (Some j) F] = if (i =? j)%N then 0 else 1 + sz F)%Z.
  Proof using.
    unfold sz, node_of. cbn [prune_forest]. unfold keep. cbn [t_ok t_start t_end andb]. destruct (N.eqb_spec i j); [done|]. cbn [negb].
    rewrite prune_eq. cbn [fsize]. rewrite tsize_eq. lia.
  Qed.
  Hypothesis Hnul : forall A body, g A = Some body -> nullable nul body = true -> nul A = true.
  Lemma head_fails c : forall e i o F, trace g s e i o F -> head e = Some c -> s !! N.to_nat i <> Some c -> o = None /\ F = [].
  Proof using.
    induction 1; simpl; intros Hh Hc; simplify_eq; try done.
    - by destruct (IHtrace1 Hh Hc).
    - auto.
    - destruct l; [done|]. rewrite H in Hh. destruct body; simplify_eq. destruct (IHtrace eq_refl Hc) as [-> ->]. done.
  Qed.
  Definition bounds_p (e : pexp) (i : N) (o : option N) (F : list ptree) : Prop :=
    o = None -> forall P x, s !! N.to_nat i = Some x -> P x = true -> forall c, ko_p P e = Some c -> (sz F <= c)%Z.
  Definition is_alt (e : pexp) : bool := match e with PAlt _ _ => true | _ => false end.
  Lemma ko_p_plain e i o F : trace g s e i o F -> is_alt e = false -> bounds e i o F -> bounds_p e i o F.
  Proof using.
    intros Ht He IH -> P x Hx HP c Hc. cbn [bounds] in IH.
    assert (Hc' : match head e with Some c => if P c then ko_n e else Some 0%Z | None => ko_n e end = Some c) by (destruct e; done).
    clear Hc. destruct (head e) as [c'|] eqn:Hh; [|auto]. destruct (P c') eqn:HP'; [auto|].
    destruct (head_fails _ _ _ _ _ Ht Hh) as [_ ->]; [intros ?; congruence|]. injection Hc' as <-. by rewrite sz_nil.
  Qed.
  Lemma size_both e i o F : trace g s e i o F -> bounds e i o F /\ bounds_p e i o F.
  Proof using Hoc Hkc Hfc HK Hnul.
    intros H. assert (H' := H). induction H;
      (match goal with |- bounds (PAlt _ _) _ _ _ /\ _ => idtac | |- bounds ?e ?i ?o ?F /\ _ =>
        enough (HB : bounds e i o F) by (split; [exact HB|apply ko_p_plain; [exact H'|done|exact HB]]) end ||idtac); clear H'.
    all: repeat match goal with IH : trace _ _ ?e ?i ?o ?F -> bounds _ _ _ _ /\ _, H : trace _ _ ?e ?i ?o ?F |- _ =>
        let a := fresh "IHt" in let b := fresh "IHp" in destruct (IH H) as [a b]; clear IH; rename a into IH end.
    all: unfold bounds in *; cbn [ok_n ko_n fx_n].
    all: try (intros c0 E; injection E as <-; rewrite sz_nil; lia).
    - split; intros c0 E; injection E as <-; rewrite sz_nil; lia.
    - split; intros c0 E; injection E as <-; rewrite sz_nil; lia.
    - split; intros c0 E; injection E as <-; rewrite sz_nil; lia.
    - destruct IHtrace1 as [A1 A2]. destruct o as [k|].
      + destruct IHtrace2 as [B1 B2]. split; intros c0 (x & y & Ex & Ey & ->)%oadd_inv; rewrite sz_app.
        * specialize (A1 _ Ex). specialize (B1 _ Ey). lia.
        * specialize (A2 _ Ex). specialize (B2 _ Ey). lia.
      + intros c0 (x & y & Ex & (u & v & Eu & Ev & ->)%oadd_inv & ->)%omax_inv. rewrite sz_app. specialize (A2 _ Eu). specialize (IHtrace2 _ Ev). lia.
    - intros c0 (x & y & Ex & Ey & ->)%omax_inv. specialize (IHtrace _ Ex). lia.
    - destruct IHtrace as [A1 A2]. split; [|by intros ?].
      split; intros c0 (x & y & Ex & Ey & ->)%omax_inv; [specialize (A1 _ Ex)|specialize (A2 _ Ex)]; lia.
    - destruct o as [k|].
      + destruct IHtrace2 as [B1 B2]. split; [|by intros ?]. split; intros c0 (x & y & Ex & (u & v & Eu & Ev & ->)%oadd_inv & ->)%omax_inv; rewrite sz_app.
        * assert (Ha : (sz F1 <= u)%Z).
          { destruct (nullable nul e2) eqn:En; [by apply IHtrace1|].
            assert (Hne : i <> k). { intros E. destruct (tr_consumes _ _ _ Hnul _ _ _ _ H0 _ eq_refl) as [_ HN]. rewrite HN in En; done. }
            apply trace_peg in H0. destruct (may_sound g nul Hnul s _ _ _ H0 30 _ eq_refl Hne) as (z & Hz & HP).
            by eapply IHp0. }
          specialize (B1 _ Ev). lia.
        * specialize (IHtrace1 _ Eu). specialize (B2 _ Ev). lia.
      + split.
        * intros c0 (x & y & Ex & Ey & ->)%oadd_inv. rewrite sz_app. specialize (IHtrace1 _ Ex). specialize (IHtrace2 _ Ey). lia.
        * intros _ P z Hz HP c0 (x & y & Ex & Ey & ->)%oadd_inv. rewrite sz_app.
          pose proof (IHp eq_refl _ _ Hz HP _ Ey). pose proof (IHp0 eq_refl _ _ Hz HP _ Ex). lia.
    - destruct IHtrace as [A1 A2]. split; intros c0 E; specialize (A2 _ E); lia.
    - exact IHtrace.
    - split; intros c0 E; specialize (IHtrace _ E); lia.
    - by destruct IHtrace.
    - split; intros c0 E.
      + destruct (ok_n e) as [z|]; [|done]. destruct (Z.leb z 0); [|done]. specialize (IHtrace _ E). lia.
      + destruct (fx_n e) as [z|]; [|done]. destruct (Z.leb z 0); [|done]. specialize (IHtrace _ E). lia.
    - destruct IHtrace1 as [A1 A2]. destruct o as [k|]; [|exfalso; by eapply star_never_fails].
      destruct IHtrace2 as [B1 B2]. cbn [ok_n fx_n] in B1, B2. split; intros c0 E; rewrite sz_app.
      + specialize (B1 _ E). destruct (ok_n e) as [z|]; [|done]. destruct (Z.leb_spec z 0); [|done]. specialize (A1 _ eq_refl). lia.
      + specialize (B2 _ E). destruct (fx_n e) as [z|]; [|done]. destruct (Z.leb_spec z 0); [|done]. specialize (A2 _ eq_refl). lia.
    - done.
    - destruct IHtrace1 as [A1 A2]. destruct o as [k|]; [|exfalso; by eapply star_never_fails].
      destruct IHtrace2 as [B1 B2]. cbn [ok_n fx_n] in B1, B2. split; intros c0 E; rewrite sz_app.
      + destruct (ok_n e) as [z|]; [|done]. destruct (Z.leb_spec z 0); [|done]. apply oadd_inv in E as (x & y & [= <-] & Ey & ->).
        specialize (B1 _ Ey). specialize (A1 _ eq_refl). lia.
      + specialize (B2 _ E). destruct (fx_n e) as [z|]; [|done]. destruct (Z.leb_spec z 0); [|done]. specialize (A2 _ eq_refl). lia.
    - destruct IHtrace as [A1 A2]. split; intros c0 (x & y & Ex & Ey & ->)%omax_inv; [specialize (A1 _ Ex)|specialize (A2 _ Ex)]; lia.
    - split; intros c0 (x & y & Ex & Ey & ->)%omax_inv; specialize (IHtrace _ Ey); lia.
    - destruct o as [j|].
      + destruct IHtrace as [A1 A2]. destruct l as [r|]; cbn [record].
        * rewrite sz_node. pose proof (sz_nonneg F) as Hp. split; intros c0 (x & y & [= <-] & Ey & ->)%oadd_inv.
          -- destruct (Hoc _ _ H _ Ey) as (c' & E & Hle). specialize (A1 _ E). destruct (N.eqb_spec i j); lia.
          -- destruct (Hfc _ _ H _ Ey) as (c' & E & Hle). specialize (A2 _ E). destruct (N.eqb_spec i j); lia.
        * split; intros c0 Ey.
          -- destruct (Hoc _ _ H _ Ey) as (c' & E & Hle). specialize (A1 _ E). lia.
          -- destruct (Hfc _ _ H _ Ey) as (c' & E & Hle). specialize (A2 _ E). lia.
      + destruct l as [r|]; cbn [record]; intros c0 E.
        * rewrite sz_fail. injection E as <-. lia.
        * destruct (Hkc _ _ H _ E) as (c' & E' & Hle). specialize (IHtrace _ E'). lia.
  Qed.
End size.

(** ** The DSL *)
Definition lookup_z (l : list (option Z)) (A : N) : option Z := match l !! N.to_nat A with Some x => x | None => None end.
Definition names52 : list N := map N.of_nat (seq 0 52).
Definition body_n (f : pexp -> option Z) (A : N) : option Z := match dsl_g A with Some b => f b | None => None end.
Fixpoint iter_kf (n : nat) (k f : list (option Z)) : list (option Z) * list (option Z) :=
  match n with
  | O => (k, f)
  | S n => iter_kf n (map (body_n (ko_n (lookup_z k) (lookup_z f))) names52) (map (body_n (fx_n (lookup_z k) (lookup_z f))) names52)
  end.
Definition kf : list (option Z) * list (option Z) := Eval vm_compute in iter_kf 20 (replicate 52 None) (replicate 52 None).
Definition dsl_K : Z := 20.
Fixpoint iter_o (n : nat) (o : list (option Z)) : list (option Z) :=
  match n with
  | O => o
  | S n => iter_o n (map (body_n (ok_n dsl_g dsl_K (nul_of dsl_table) (lookup_z o) (lookup_z kf.1) (lookup_z kf.2))) names52)
  end.
Definition oks : list (option Z) := Eval vm_compute in iter_o 60 (replicate 52 (Some (-100000)%Z)).

Definition leb_o (a b : option Z) : bool := match a, b with _, None => true | Some x, Some y => Z.leb x y | None, Some _ => false end.
Lemma leb_o_within a b : leb_o a b = true -> within a b.
Proof. intros H c ->. destruct a as [x|]; [|done]. exists x. split; [done|]. by apply Z.leb_le. Qed.
Definition checked (f : pexp -> option Z) (t : list (option Z)) : bool := forallb (fun A => leb_o (body_n f A) (lookup_z t A)) names52.
Lemma in_names A : A < 52 -> In A names52.
Proof. intros H. unfold names52. apply in_map_iff. exists (N.to_nat A). split; [lia|]. apply in_seq. lia. Qed.
Lemma checked_ok f t : length t = 52%nat -> checked f t = true -> forall A body, dsl_g A = Some body -> within (f body) (lookup_z t A).
Proof.
  intros Hl Hc A body Hb. destruct (N.ltb_spec A 52) as [HA|HA].
  - unfold checked in Hc. rewrite forallb_forall in Hc. specialize (Hc A (in_names A HA)). unfold body_n in Hc. rewrite Hb in Hc. by apply leb_o_within.
  - unfold lookup_z. assert (E : t !! N.to_nat A = None) by (apply lookup_ge_None; lia). rewrite E. by intros c.
Qed.
Theorem dsl_tree_size s i j F : trace dsl_g s (PRef None dsl_f_grammar) i (Some j) F ->
  (Z.of_N (fsize (prune_forest F)) <= 20 * (Z.of_N j - Z.of_N i))%Z.
Proof.
  intros H. apply (size_both dsl_g s dsl_K (nul_of dsl_table) (lookup_z oks) (lookup_z kf.1) (lookup_z kf.2)) in H as [[H _] _].
  - specialize (H _ eq_refl). change (sz F) with (Z.of_N (fsize (prune_forest F))) in H. change dsl_K with 20%Z in H. lia.
  - done.
  - apply checked_ok; [done|]. vm_compute. done.
  - apply checked_ok; [done|]. vm_compute. done.
  - apply checked_ok; [done|]. vm_compute. done.
  - apply dsl_nul.
Qed.
