(** Generic reasoning tools: partial-correctness predicate on results, fuel
    order on parsers, facts on the source and the node store. *)
From Verif Require Export SpecProgram.
From Coq Require Export Lia.

(** ** Results: [sat] = "if it answers, the answer satisfies Q; if it panics,
    the panic is one of Pp". *)
Definition sat {A} (Pp : panic -> Prop) (r : res A) (Q : A -> Prop) : Prop :=
  match r with Ok a => Q a | Panic p => Pp p | NoFuel => True end.
Definition wp {S A} (Pp : panic -> Prop) (m : M S A) (st : S) (Q : A -> S -> Prop) : Prop :=
  sat Pp (m st) (fun x => Q (fst x) (snd x)).

Lemma sat_mono {A} Pp (r : res A) (Q Q' : A -> Prop) :
  sat Pp r Q -> (forall a, Q a -> Q' a) -> sat Pp r Q'.
Proof. destruct r; simpl; auto. Qed.
Lemma sat_bind {A B} Pp (r : res A) (f : A -> res B) Q :
  sat Pp r (fun a => sat Pp (f a) Q) -> sat Pp (rbind r f) Q.
Proof. destruct r; simpl; auto. Qed.
Lemma wp_mono {S A} Pp (m : M S A) st (Q Q' : A -> S -> Prop) :
  wp Pp m st Q -> (forall a s, Q a s -> Q' a s) -> wp Pp m st Q'.
Proof. unfold wp. intros H HQ. eapply sat_mono; [exact H|]. intros [a s]. apply HQ. Qed.
Lemma wp_bind {S A B} Pp (m : M S A) (f : A -> M S B) st Q :
  wp Pp m st (fun a s => wp Pp (f a) s Q) -> wp Pp (mbind' m f) st Q.
Proof. unfold wp, mbind'. destruct (m st) as [[a s]| |]; simpl; auto. Qed.
Lemma wp_ret {S A} Pp (a : A) (st : S) (Q : A -> S -> Prop) : Q a st -> wp Pp (mret a) st Q.
Proof. done. Qed.
Lemma wp_Ok {S A} Pp (m : M S A) st Q a s : wp Pp m st Q -> m st = Ok (a, s) -> Q a s.
Proof. unfold wp. intros H E. by rewrite E in H. Qed.

(** ** Fuel order. *)
Definition res_le {A} (x y : res A) : Prop := x <> NoFuel -> y = x.
Definition m_le {S A} (x y : M S A) : Prop := forall st, res_le (x st) (y st).
Definition p_le {U} (f g : parser U) : Prop := forall k p, m_le (f k p) (g k p).

Lemma res_le_refl {A} (x : res A) : res_le x x.
Proof. by intros ?. Qed.
Lemma m_le_refl {S A} (x : M S A) : m_le x x.
Proof. by intros ??. Qed.
Lemma p_le_refl {U} (f : parser U) : p_le f f.
Proof. by intros ????. Qed.
Lemma res_le_nofuel {A} (y : res A) : res_le NoFuel y.
Proof. intros ?. done. Qed.
Lemma res_le_Ok {A} (x y : res A) a : res_le x y -> x = Ok a -> y = Ok a.
Proof. intros H ->. by apply H. Qed.
Lemma m_le_bind {S A B} (x y : M S A) (f g : A -> M S B) :
  m_le x y -> (forall a, m_le (f a) (g a)) -> m_le (mbind' x f) (mbind' y g).
Proof.
  intros Hx Hf st Hn. unfold mbind' in *. specialize (Hx st).
  destruct (x st) as [[a s]|p|] eqn:E; simpl in *.
  - rewrite Hx by done. simpl. apply Hf, Hn.
  - rewrite Hx by done. done.
  - done.
Qed.
Lemma m_le_trans {S A} (x y z : M S A) : m_le x y -> m_le y z -> m_le x z.
Proof. intros H1 H2 st Hn. specialize (H1 st Hn). rewrite <-H1. apply H2. by rewrite H1. Qed.
Lemma p_le_trans {U} (x y z : parser U) : p_le x y -> p_le y z -> p_le x z.
Proof. intros H1 H2 k p. eapply m_le_trans; [apply H1|apply H2]. Qed.

(** ** Source. *)
Lemma get_char_spec s i : N.of_nat (length s) < u32_modulus ->
  get_char (source_new s) i = Ok (s !! N.to_nat i).
Proof.
  intros Hs. unfold get_char, source_new, as_u32; simpl.
  rewrite N.mod_small by done. destruct (N.ltb_spec i (N.of_nat (length s))) as [Hi|Hi].
  - destruct (s !! N.to_nat i) eqn:E; [done|]. apply lookup_ge_None in E. lia.
  - by rewrite lookup_ge_None_2 by lia.
Qed.

(** ** Node store. *)
Definition pub_wf (p : publisher) : Prop := forall k, is_Some (p_nodes p !! k) <-> k < p_len p.

Lemma pub_wf_new g : pub_wf (publisher_new g).
Proof.
  intros k. simpl. destruct (decide (k = 0)) as [->|Hk].
  - rewrite lookup_singleton. split; [lia|eauto].
  - rewrite lookup_singleton_ne by done. split; [intros [? ?]; done|lia].
Qed.

Lemma get_node_Ok p k : pub_wf p -> k < p_len p -> exists n, p_nodes p !! k = Some n /\ get_node p k = Ok n.
Proof. intros Hw Hk. apply Hw in Hk as [n Hn]. exists n. unfold get_node. by rewrite Hn. Qed.

Lemma pub_wf_set p k n : pub_wf p -> k < p_len p -> pub_wf (set_node p k n).
Proof.
  intros Hw Hk k'. simpl. destruct (decide (k = k')) as [->|Hne].
  - rewrite lookup_insert. split; eauto.
  - rewrite lookup_insert_ne by done. apply Hw.
Qed.

Lemma pub_wf_add p n : pub_wf p -> pub_wf (Publisher (<[p_len p := n]> (p_nodes p)) (p_len p + 1)).
Proof.
  intros Hw k; simpl. destruct (decide (k = p_len p)) as [->|Hne].
  - rewrite lookup_insert. split; [lia|eauto].
  - rewrite lookup_insert_ne by done. unfold pub_wf in Hw. rewrite Hw. lia.
Qed.

(** ** Unfolding. *)
Scheme unfolds_mut := Induction for unfolds Sort Prop
  with unfolds_list_mut := Induction for unfolds_list Sort Prop.
Combined Scheme unfolds_both from unfolds_mut, unfolds_list_mut.

Lemma unfolds_frame (O O' : N -> Prop) p p' :
  (forall k n, p_nodes p !! k = Some n -> ~ O k -> ~ O' k /\ p_nodes p' !! k = Some n) ->
  (forall k t, unfolds O p k t -> unfolds O' p' k t) /\
  (forall ks F, unfolds_list O p ks F -> unfolds_list O' p' ks F).
Proof.
  intros Hf.
  pose (P1 := fun k t (_ : unfolds O p k t) => unfolds O' p' k t).
  pose (P2 := fun ks F (_ : unfolds_list O p ks F) => unfolds_list O' p' ks F).
  enough ((forall k t H, P1 k t H) /\ (forall ks F H, P2 ks F H)) by done.
  apply unfolds_both; unfold P1, P2.
  - intros k n F HO Hn _ IH. destruct (Hf k n Hn HO). econstructor; eauto.
  - constructor.
  - intros. by constructor.
Qed.

Lemma unfolds_list_app O p ks ks' F F' :
  unfolds_list O p ks F -> unfolds_list O p ks' F' -> unfolds_list O p (ks ++ ks') (F ++ F').
Proof. induction 1; simpl; [done|]. intros. constructor; auto. Qed.

Lemma unfolds_list_length O p ks F : unfolds_list O p ks F -> length ks = length F.
Proof. induction 1; simpl; auto. Qed.

Lemma unfolds_det O O' p : 
  (forall k t, unfolds O p k t -> forall t', unfolds O' p k t' -> t = t') /\
  (forall ks F, unfolds_list O p ks F -> forall F', unfolds_list O' p ks F' -> F = F').
Proof.
  pose (P1 := fun k t (_ : unfolds O p k t) => forall t', unfolds O' p k t' -> t = t').
  pose (P2 := fun ks F (_ : unfolds_list O p ks F) => forall F', unfolds_list O' p ks F' -> F = F').
  enough ((forall k t H, P1 k t H) /\ (forall ks F H, P2 ks F H)) by done.
  apply unfolds_both; unfold P1, P2.
  - intros k n F HO Hn _ IH t' Ht'. inversion Ht'; simplify_eq. f_equal. by apply IH.
  - intros F' HF'. by inversion HF'.
  - intros k ks t F _ IH1 _ IH2 F' HF'. inversion HF'; simplify_eq. f_equal; auto.
Qed.
