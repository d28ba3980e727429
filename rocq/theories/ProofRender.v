(** The text the generator writes reads back as the code it stands for. *)
From Coq Require Import Ascii String.
From Verif Require Import Render SpecRust Programs.
From stdpp Require Import numbers.
Local Open Scope N_scope.
Local Open Scope list_scope.

(** ** Decimal numbers *)
Lemma dec_digits_ok fuel n : (N.to_nat (N.log2 n) < fuel)%nat ->
  Forall (fun c => is_digit c = true) (dec_digits fuel n) /\ dec_digits fuel n <> [] /\
  fold_left (fun a c => 10 * a + (c - 48)) (dec_digits fuel n) 0 = n.
Proof.
  revert n. induction fuel as [|fuel IH]; intros n Hn; [lia|]. cbn [dec_digits]. destruct (N.ltb_spec n 10) as [H|H].
  - split; [|split; [done|]].
    + constructor; [|done]. unfold is_digit. apply andb_true_iff; split; apply N.leb_le; lia.
    + cbn [fold_left]. lia.
  - pose proof (N.mod_lt n 10 ltac:(lia)) as Hm. pose proof (N.div_mod n 10 ltac:(lia)) as Hd.
    destruct (IH (n / 10)) as (H1 & H2 & H3).
    { assert (Hq : 1 <= n / 10) by (apply N.div_le_lower_bound; lia). clear -Hn Hd Hq. 
      assert (H2 : 2 * (n / 10) <= n).
      { revert Hd. generalize (n mod 10) as m. generalize (n / 10) as q. intros q m ->. clear. lia. }
      revert H2 Hq. generalize (n / 10) as q. intros q H2 Hq. clear Hd. apply N.log2_le_mono in H2. rewrite N.log2_double in H2 by lia. lia. }
    revert Hm Hd H1 H2 H3. generalize (n mod 10) as m. generalize (n / 10) as q. intros q m Hm Hd H1 H2 H3. split; [|split].
    + apply Forall_app. split; [done|]. constructor; [|done]. unfold is_digit. apply andb_true_iff; split; apply N.leb_le; lia.
    + by destruct (dec_digits fuel q).
    + rewrite fold_left_app, H3. cbn [fold_left]. lia.
Qed.
Lemma dec_ok n : Forall (fun c => is_digit c = true) (dec n) /\ dec n <> [] /\ fold_left (fun a c => 10 * a + (c - 48)) (dec n) 0 = n.
Proof. apply dec_digits_ok. lia. Qed.
Lemma dec_inj a b : dec a = dec b -> a = b.
Proof. intros H. rewrite <- (proj2 (proj2 (dec_ok a))), <- (proj2 (proj2 (dec_ok b))). by rewrite H. Qed.
Lemma closure_inj a b : closure a = closure b -> a = b.
Proof. intros H. apply dec_inj. by apply app_inv_head in H. Qed.

(** ** Lexing piece by piece *)
Lemma lx_app m a ts m1 b us m2 : lex_from m a = Some (ts, m1) -> lex_from m1 b = Some (us, m2) -> lex_from m (a ++ b) = Some (ts ++ us, m2).
Proof.
  revert m ts. induction a as [|c a IH]; intros m ts.
  - intros [= <- <-] H. exact H.
  - cbn [lex_from app]. destruct (step m c) as [[t0 m0]|] eqn:Es; [|done]. cbn.
    destruct (lex_from m0 a) as [[t1 m']|] eqn:El; [|done]. cbn. intros [= <- <-] H.
    rewrite (IH _ _ El H). cbn. by rewrite app_assoc.
Qed.
(** An identifier. *)
Definition ident (n : list N) : Prop := exists c r, n = c :: r /\ id_start c = true /\ Forall (fun c => id_char c = true) r.
Lemma lx_word_chars n r : Forall (fun c => id_char c = true) r -> lex_from (MWord n) r = Some ([], MWord (n ++ r)).
Proof.
  revert n. induction r as [|c r IH]; intros n; [by rewrite app_nil_r|]. intros [H Hr]%list.Forall_cons. cbn [lex_from step].
  rewrite H. cbn [mbind option_bind]. rewrite (IH _ Hr). cbn. by rewrite <- app_assoc.
Qed.
Lemma id_start_start c : id_start c = true -> start c = Some ([], MWord [c]).
Proof.
  intros H. unfold start. destruct (white c) eqn:E; [|by rewrite H].
  exfalso. unfold white, id_start, is_letter in *. destruct (N.eqb_spec c 32); [by subst|]. simpl in E.
  apply andb_true_iff in E as [E1 E2]. apply N.leb_le in E1, E2.
  repeat (apply orb_true_iff in H as [H|H]); [apply andb_true_iff in H as [H _]..|]; try apply N.leb_le in H; try apply N.eqb_eq in H; lia.
Qed.
Lemma lx_ident n : ident n -> lex_from MStart n = Some ([], MWord n).
Proof.
  intros (c & r & -> & Hc & Hr). cbn [lex_from step]. rewrite (id_start_start _ Hc). cbn [mbind option_bind].
  rewrite (lx_word_chars _ _ Hr). done.
Qed.
(** A separator ends a word. *)
Definition ends_word (c : N) : bool := negb (id_char c || (c =? 39) || (c =? 34) || (c =? 35)).
Lemma lx_word n c l ts m : ends_word c = true -> lex_from MStart (c :: l) = Some (ts, m) -> lex_from (MWord n) (c :: l) = Some (word n :: ts, m).
Proof.
  unfold ends_word. intros H. apply negb_true_iff in H. rewrite !orb_false_iff in H. destruct H as [[[H1 H2] H3] H4].
  cbn [lex_from]. intros Hl. cbn [step] in *. rewrite H1, H2, H3, H4. cbn [andb orb]. unfold emit. destruct (start c) as [[t0 m0]|]; [|done]. cbn in *.
  destruct (lex_from m0 l) as [[t1 m1]|]; [|done]. cbn in *. by inversion Hl; subst.
Qed.
Lemma lx_num v c l ts m : is_digit c = false -> id_char c = false -> c <> 46 -> lex_from MStart (c :: l) = Some (ts, m) ->
  lex_from (MNum v) (c :: l) = Some (TNum v :: ts, m).
Proof.
  intros H1 H2 H3 Hl. cbn [lex_from step] in *. rewrite H1, H2. apply N.eqb_neq in H3. rewrite H3. cbn [orb]. unfold emit.
  destruct (start c) as [[t0 m0]|]; [|done]. cbn in *. destruct (lex_from m0 l) as [[t1 m1]|]; [|done]. cbn in *. by inversion Hl; subst.
Qed.
Lemma lx_literal c l ts m : id_char c = false -> lex_from MStart (c :: l) = Some (ts, m) -> lex_from MLiteralEnd (c :: l) = Some (ts, m).
Proof. intros H Hl. cbn [lex_from step] in *. by rewrite H. Qed.
Lemma digit_id c : is_digit c = true -> id_char c = true.
Proof. intros H. unfold id_char. rewrite H. apply orb_true_r. Qed.
Lemma digit_start c : is_digit c = true -> start c = Some ([], MNum (c - 48)).
Proof.
  intros H. unfold is_digit in H. pose proof H as H'. apply andb_true_iff in H as [H1 H2]. apply N.leb_le in H1, H2. unfold start.
  assert (white c = false) as ->.
  { unfold white. destruct (N.eqb_spec c 32); [lia|]. destruct (N.leb_spec c 13); [lia|]. cbn. apply andb_false_r. }
  assert (id_start c = false) as ->.
  { unfold id_start, is_letter. destruct (N.leb_spec 97 c); [lia|]. destruct (N.leb_spec 65 c); [lia|]. destruct (N.eqb_spec c 95); [lia|]. done. }
  unfold is_digit. by rewrite H'.
Qed.
Lemma lx_digits v r : Forall (fun c => is_digit c = true) r -> lex_from (MNum v) r = Some ([], MNum (fold_left (fun a c => 10 * a + (c - 48)) r v)).
Proof.
  revert v. induction r as [|c r IH]; intros v; [done|]. intros [H Hr]%list.Forall_cons. cbn [lex_from step]. rewrite H. cbn [mbind option_bind].
  rewrite (IH _ Hr). done.
Qed.
Lemma lx_dec v : lex_from MStart (dec v) = Some ([], MNum v).
Proof.
  destruct (dec_ok v) as (H1 & H2 & H3). destruct (dec v) as [|c r]; [done|]. apply list.Forall_cons in H1 as [Hc Hr]. cbn [lex_from step].
  rewrite (digit_start _ Hc). cbn [mbind option_bind]. rewrite (lx_digits _ _ Hr). rewrite <- H3. cbn [fold_left]. by rewrite N.mul_0_r.
Qed.
Lemma ident_closure k : ident (closure k).
Proof.
  exists 99, (bytes "losure_" ++ dec k). split; [done|]. split; [done|]. apply Forall_app. split.
  - by repeat constructor.
  - destruct (dec_ok k) as (H & _). eapply list.Forall_impl; [exact H|]. apply digit_id.
Qed.
Lemma lx_comment l : Forall (fun c => c <> 10) l -> lex_from MComment l = Some ([], MComment).
Proof.
  induction l as [|c l IH]; [done|]. intros [H Hl]%list.Forall_cons. cbn [lex_from step]. apply N.eqb_neq in H. rewrite H. cbn. by rewrite (IH Hl).
Qed.
Lemma lx_byte c b : byte_literal c = Some b -> lex_from MByte (c ++ [39]) = Some ([TByte b], MLiteralEnd).
Proof.
  destruct c as [|x [|y [|z c]]]; try done.
  - cbn [byte_literal app]. destruct (x <? 128) eqn:H1; [|done]. destruct (N.eqb_spec x 39); [done|]. destruct (N.eqb_spec x 92) as [|Hb]; [done|].
    destruct (N.eqb_spec x 10); [done|]. destruct (N.eqb_spec x 13); [done|]. destruct (N.eqb_spec x 9); [done|]. intros [= <-].
    cbn [lex_from step]. apply N.eqb_neq in Hb. rewrite Hb, H1. repeat (match goal with H : ?a <> ?b |- _ => apply N.eqb_neq in H; rewrite H end). done.
  - cbn [byte_literal app]. destruct (N.eqb_spec x 92) as [->|]; [|done]. intros H. cbn [lex_from step]. cbn. rewrite H. done.
Qed.
Lemma lx_bytes c d acc : byte_string c = Some d -> lex_from (MBytes acc) (c ++ [34]) = Some ([TBytes (acc ++ d)], MLiteralEnd).
Proof.
  revert d acc. induction c as [c IH] using (induction_ltof1 _ (@length N)). unfold ltof in IH. intros d acc. destruct c as [|x c].
  - intros [= <-]. rewrite app_nil_r. done.
  - cbn [byte_string]. destruct (N.eqb_spec x 92) as [->|Hx].
    + destruct c as [|e c]; [done|]. destruct (escape e) as [v|] eqn:Ee; [|done]. destruct (byte_string c) as [r|] eqn:Er; [|done].
      intros [= <-]. cbn [lex_from step app]. cbn. rewrite Ee. cbn. rewrite (IH c ltac:(cbn; lia) r _ Er). cbn. by rewrite <- app_assoc.
    + destruct (x <? 128) eqn:H1; [|done]. cbn [andb]. destruct (N.eqb_spec x 34) as [|H2]; [done|]. destruct (N.eqb_spec x 13) as [|H3]; [done|]. cbn.
      destruct (byte_string c) as [r|] eqn:Er; [|done]. intros [= <-]. apply N.eqb_neq in Hx, H2, H3. rewrite H2, Hx, H1, H3. cbn.
      rewrite (IH c ltac:(cbn; lia) r _ Er). cbn. by rewrite <- app_assoc.
Qed.

(** ** Statements: tokens *)
Definition toks (s : string) : list token := match lex (bytes s) with Some l => l | None => [] end.
Definition toks_let (k : N) (rhs : list token) : list token := toks "let" ++ TWord (closure k) :: toks "=" ++ rhs ++ toks ";".
Definition toks_call1 (f : string) (a : N) : list token := toks f ++ toks "(&" ++ TWord (closure a) :: toks ")".
Definition toks_call2 (f : string) (a b : N) : list token := toks f ++ toks "(&" ++ TWord (closure a) :: toks ", &" ++ TWord (closure b) :: toks ")".
Fixpoint toks_rules (l : list name) : list token :=
  match l with
  | [] => []
  | [r] => toks "Rules::" ++ [TWord r]
  | r :: l => toks "Rules::" ++ TWord r :: toks "," ++ toks_rules l
  end.
Definition toks_stmt (s : stmt) : list token :=
  match s with
  | SString k c => []
  | SStringAscii k c => toks_let k (toks "_string_terminal_opt_ascii(" ++ TBytes (default [] (byte_string c)) :: toks ")")
  | SRange k a b => toks_let k (toks "_ordered_choice_match_range(" ++ TNum a :: toks "," ++ TNum b :: toks ")")
  | SAnd k a => toks_let k (toks_call1 "_and_predicate" a)
  | SNot k a => toks_let k (toks_call1 "_not_predicate" a)
  | SPlus k a => toks_let k (toks_call1 "_one_or_more" a)
  | SStar k a => toks_let k (toks_call1 "_zero_or_more" a)
  | SHook k h a => toks_let k (TWord h :: toks "(user_state, parent, context, source, position, &" ++ TWord (closure a) :: toks ")")
  | SSub k a => toks_let k (toks_call1 "_subexpression" a)
  | SOpt k a => toks_let k (toks_call1 "_optional" a)
  | SChoice k a b => toks_let k (toks_call2 "_ordered_choice" a b)
  | SSeq k a b => toks_let k (toks_call2 "_sequence" a b)
  | STerminal k c => toks_let k (toks "_terminal(" ++ TByte (default 0 (byte_literal c)) :: toks ")")
  | SVar k r f => toks_let k (toks "_var_name(user_state, Rules::" ++ TWord r :: toks ", context, " ++ TWord f :: toks ")")
  | SInvolved rs => toks "let involved_set: Vec<Rules> = [" ++ toks_rules rs ++ toks "].to_vec();"
  | SLR k r f => toks_let k (toks "_var_name_indirect_left_recursion(user_state, &involved_set, Rules::" ++ TWord r :: toks ", context, " ++ TWord f :: toks ")")
  | SInline k f => toks_let k (toks "move |parent: Key, source: &Source, position: u32|" ++ TWord f :: toks "(user_state, parent, context, source, position)")
  | SExec k => TWord (closure k) :: toks "(parent, source, position)"
  end.

(** Names that lex as themselves. *)
Definition good_name (n : list N) : Prop := ident n /\ n ∉ keywords.
Lemma word_good n : n ∉ keywords -> word n = TWord n.
Proof. intros H. unfold word. by rewrite bool_decide_false. Qed.
Lemma closure_digit k : exists c, c ∈ closure k /\ is_digit c = true.
Proof.
  destruct (dec_ok k) as (H1 & H2 & _). unfold closure. destruct (dec k) as [|c r]; [done|]. exists c. apply list.Forall_cons in H1 as [H1 _].
  split; [|done]. apply elem_of_app. right. by left.
Qed.
(** No fixed name contains a digit. *)
Lemma closure_not_in k (l : list (list N)) : Forall (fun n => Forall (fun c => is_digit c = false) n) l -> closure k ∉ l.
Proof.
  intros H Hk. destruct (closure_digit k) as (c & Hc & Hd). rewrite list.Forall_forall in H. specialize (H _ Hk). rewrite list.Forall_forall in H.
  specialize (H _ Hc). congruence.
Qed.
Lemma closure_good k : good_name (closure k).
Proof. split; [apply ident_closure|]. apply closure_not_in. repeat (constructor; [by repeat constructor|]). constructor. Qed.
Lemma word_closure k : word (closure k) = TWord (closure k).
Proof. apply word_good, closure_good. Qed.

(** What must hold of a statement for its text to be read. *)
Definition stmt_names_ok (s : stmt) : Prop :=
  match s with
  | SString _ _ => False
  | SStringAscii _ c => byte_string c <> None
  | STerminal _ c => byte_literal c <> None
  | SHook _ h _ => good_name h
  | SVar _ r f | SLR _ r f => good_name r /\ good_name f
  | SInvolved rs => Forall good_name rs
  | SInline _ f => good_name f
  | _ => True
  end.
Ltac lx_lit := lazymatch goal with
  | |- lex_from MStart _ = _ => vm_compute; reflexivity
  | |- lex_from (MWord _) _ = _ => apply lx_word; [reflexivity|vm_compute; reflexivity]
  | |- lex_from (MNum _) _ = _ => apply lx_num; [reflexivity|reflexivity|discriminate|vm_compute; reflexivity]
  | |- lex_from MLiteralEnd _ = _ => apply lx_literal; [reflexivity|vm_compute; reflexivity]
  end.
Lemma lx_let k rhs ts : lex_from MStart rhs = Some (ts, MStart) -> lex_from MStart (let_closure k rhs) = Some (toks_let k ts, MStart).
Proof.
  intros H. unfold let_closure, toks_let. eapply (lx_app _ _ (toks "let") MStart); [reflexivity|].
  eapply (lx_app _ _ [] (MWord (closure k)) _ (TWord (closure k) :: _)); [apply lx_ident, ident_closure|].
  eapply (lx_app _ _ (TWord (closure k) :: toks "=") MStart); [rewrite <- word_closure; lx_lit|].
  eapply lx_app; [exact H|reflexivity].
Qed.
Lemma lx_name n s ts : good_name n -> lex_from (MWord n) (bytes s) = Some (word n :: ts, MStart) ->
  lex_from MStart (n ++ bytes s) = Some (TWord n :: ts, MStart).
Proof. intros [Hi Hk] H. rewrite <- (word_good _ Hk). eapply (lx_app _ _ []); [by apply lx_ident|done]. Qed.
Lemma lx_app3 n s ts l us m : good_name n -> lex_from (MWord n) (bytes s) = Some (word n :: ts, MStart) -> lex_from MStart l = Some (us, m) ->
  lex_from MStart (n ++ bytes s ++ l) = Some (TWord n :: ts ++ us, m).
Proof. intros Hn H Hl. rewrite app_assoc. eapply (lx_app _ _ (TWord n :: ts)); [by apply lx_name|done]. Qed.
Lemma lx_call1 f a ts : lex_from MStart (bytes f ++ bytes "(&") = Some (ts, MStart) ->
  lex_from MStart (call1 (bytes f) a) = Some (ts ++ TWord (closure a) :: toks ")", MStart).
Proof. intros H. unfold call1. rewrite app_assoc. eapply lx_app; [exact H|]. apply lx_name; [apply closure_good|]. lx_lit. Qed.
Lemma lx_call2 f a b ts : lex_from MStart (bytes f ++ bytes "(&") = Some (ts, MStart) ->
  lex_from MStart (call2 (bytes f) a b) = Some (ts ++ TWord (closure a) :: toks ", &" ++ TWord (closure b) :: toks ")", MStart).
Proof.
  intros H. unfold call2. rewrite app_assoc. eapply lx_app; [exact H|]. eapply lx_app3; [apply closure_good|lx_lit|].
  apply lx_name; [apply closure_good|]. lx_lit.
Qed.
Lemma lx_rules rs s ts : Forall good_name rs -> (rs = [] -> lex_from MStart (bytes s) = Some (ts, MStart)) ->
  (forall n, lex_from (MWord n) (bytes s) = Some (word n :: ts, MStart)) ->
  lex_from MStart (rules_list rs ++ bytes s) = Some (toks_rules rs ++ ts, MStart).
Proof.
  intros Hrs H0 H. induction rs as [|r rs IH]; [by apply H0|]. apply list.Forall_cons in Hrs as [Hr Hrs]. destruct rs as [|r' rs].
  - cbn [rules_list toks_rules]. rewrite <- !app_assoc. eapply (lx_app _ _ (toks "Rules::")); [reflexivity|]. by apply lx_name.
  - change (rules_list (r :: r' :: rs)) with (bytes "Rules::" ++ r ++ bytes ", " ++ rules_list (r' :: rs)).
    change (toks_rules (r :: r' :: rs)) with (toks "Rules::" ++ TWord r :: toks "," ++ toks_rules (r' :: rs)).
    rewrite <- !app_assoc. eapply (lx_app _ _ (toks "Rules::")); [reflexivity|]. cbn [app]. rewrite <- app_assoc.
    eapply lx_app3; [done|lx_lit|]. apply IH; [done|discriminate].
Qed.
Lemma lx_stmt dbg s : stmt_names_ok s -> lex_from MStart (render_stmt dbg s) = Some (toks_stmt s, MStart).
Proof.
  destruct s; intros H; [destruct H|..].
  all: cbn [render_stmt toks_stmt].
  all: lazymatch goal with
       | |- lex_from _ (let_closure _ (call1 (bytes ?f) ?a)) = _ => apply lx_let; apply (lx_call1 f a (toks f ++ toks "(&")); vm_compute; reflexivity
       | |- lex_from _ (let_closure _ (call2 (bytes ?f) ?a ?b)) = _ => apply lx_let; apply (lx_call2 f a b (toks f ++ toks "(&")); vm_compute; reflexivity
       | _ => cbn [stmt_names_ok] in H
       end.
  - (* string *) apply lx_let. destruct (byte_string chars) as [d|] eqn:E; [|done]. cbn [default].
    eapply (lx_app _ _ (toks "_string_terminal_opt_ascii(") (MBytes [])); [reflexivity|].
    change (bytes """)") with ([34] ++ bytes ")"). rewrite app_assoc. eapply (lx_app _ _ [_]); [apply (lx_bytes _ _ [] E)|]. lx_lit.
  - (* range *) apply lx_let. eapply (lx_app _ _ (toks "_ordered_choice_match_range(") MStart); [reflexivity|].
    eapply (lx_app _ _ []); [apply lx_dec|]. eapply (lx_app _ _ (TNum a :: toks ",")); [lx_lit|]. eapply (lx_app _ _ []); [apply lx_dec|]. lx_lit.
  - (* hook *) apply lx_let. eapply lx_app3; [done|lx_lit|]. apply lx_name; [apply closure_good|]. lx_lit.
  - (* terminal *) apply lx_let. destruct (byte_literal contents) as [d|] eqn:E; [|done]. cbn [default].
    eapply (lx_app _ _ (toks "_terminal(") MByte); [reflexivity|].
    change (bytes "')") with ([39] ++ bytes ")"). rewrite app_assoc. eapply (lx_app _ _ [_]); [apply (lx_byte _ _ E)|]. lx_lit.
  - (* var *) destruct H as [Hr Hf]. apply lx_let. eapply (lx_app _ _ (toks "_var_name(user_state, Rules::") MStart); [reflexivity|].
    eapply lx_app3; [done|lx_lit|]. apply lx_name; [done|]. lx_lit.
  - (* involved *) eapply (lx_app _ _ (toks "let involved_set: Vec<Rules> = [") MStart); [reflexivity|]. apply lx_rules; [done|reflexivity|]. intros n. lx_lit.
  - destruct H as [Hr Hf]. apply lx_let. eapply (lx_app _ _ (toks "_var_name_indirect_left_recursion(user_state, &involved_set, Rules::") MStart); [reflexivity|].
    eapply lx_app3; [done|lx_lit|]. apply lx_name; [done|]. lx_lit.
  - apply lx_let. eapply (lx_app _ _ (toks "move |parent: Key, source: &Source, position: u32|") MStart); [reflexivity|]. apply lx_name; [done|]. lx_lit.
  - apply lx_name; [apply closure_good|]. lx_lit.
Qed.

(** ** Statements: reading the tokens *)
Definition rstmt_of (s : stmt) : rstmt :=
  let one f k a := RLet (closure k) (bytes f) [ARef (closure a)] in
  let two f k a b := RLet (closure k) (bytes f) [ARef (closure a); ARef (closure b)] in
  match s with
  | SString k c => RInvolved []
  | SStringAscii k c => RLet (closure k) (bytes "_string_terminal_opt_ascii") [ABytes (default [] (byte_string c))]
  | SRange k a b => RLet (closure k) (bytes "_ordered_choice_match_range") [ANum a; ANum b]
  | SAnd k a => one "_and_predicate"%string k a
  | SNot k a => one "_not_predicate"%string k a
  | SPlus k a => one "_one_or_more"%string k a
  | SStar k a => one "_zero_or_more"%string k a
  | SHook k h a => RLet (closure k) h (map AName parameters ++ [ARef (closure a)])
  | SSub k a => one "_subexpression"%string k a
  | SOpt k a => one "_optional"%string k a
  | SChoice k a b => two "_ordered_choice"%string k a b
  | SSeq k a b => two "_sequence"%string k a b
  | STerminal k c => RLet (closure k) (bytes "_terminal") [AByte (default 0 (byte_literal c))]
  | SVar k r f => RLet (closure k) (bytes "_var_name") [AName (bytes "user_state"); AVariant r; AName (bytes "context"); AName f]
  | SInvolved rs => RInvolved rs
  | SLR k r f => RLet (closure k) (bytes "_var_name_indirect_left_recursion")
      [AName (bytes "user_state"); ARef involved_set; AVariant r; AName (bytes "context"); AName f]
  | SInline k f => RMove (closure k) f (map AName parameters)
  | SExec k => RTail (closure k) (map AName [bytes "parent"; bytes "source"; bytes "position"])
  end.
Lemma read_rules_list rs rest : read_variants (toks_rules rs ++ TPunct 93 :: rest) = Some (rs, rest).
Proof.
  induction rs as [|r rs IH]; [done|]. destruct rs as [|r' rs]; [done|].
  change (toks_rules (r :: r' :: rs)) with (TWord rules_name :: TPath :: TWord r :: TPunct 44 :: toks_rules (r' :: rs)).
  cbn [app read_variants]. rewrite bool_decide_true by done. by rewrite IH.
Qed.
Lemma read_one s rest : match s with SString _ _ | SExec _ => False | _ => True end -> read_stmt (toks_stmt s ++ rest) = Some (rstmt_of s, rest).
Proof.
  destruct s as [| | | | | | | | | | | | | |rs| | |]; intros H; try destruct H; cbn [toks_stmt rstmt_of].
  all: lazymatch goal with
       | |- context [toks_rules] => idtac
       | _ => unfold toks_let, toks_call1, toks_call2; repeat (match goal with |- context [closure ?k] => generalize (closure k); intros end); vm_compute; reflexivity
       end.
  rewrite <- !app_assoc. set (l := toks_rules rs ++ toks "].to_vec();" ++ rest).
  assert (Hl : read_variants l = Some (rs, toks ".to_vec();" ++ rest)) by apply read_rules_list.
  transitivity ('(vs, r) ← read_variants l; '(_, _, r) ← matches t_to_vec r; Some (RInvolved vs, r)); [|rewrite Hl].
  - clearbody l. vm_compute. reflexivity.
  - vm_compute. reflexivity.
Qed.
Lemma read_exec k rest : read_stmt (toks_stmt (SExec k) ++ brace :: rest) = Some (rstmt_of (SExec k), rest).
Proof. cbn [toks_stmt rstmt_of]. generalize (closure k). intros n. vm_compute. reflexivity. Qed.

(** ** Bodies *)
Definition plain_stmt (s : stmt) : Prop := match s with SString _ _ | SExec _ => False | _ => True end.
Lemma run_body_cons sc fr s l : l <> [] \/ (forall k, s <> SExec k) -> run_body sc fr (s :: l) = (f ← run_stmt sc fr s; run_body sc f l).
Proof.
  intros H. destruct s; try reflexivity. destruct l; [|reflexivity]. exfalso. destruct H as [H|H]; [done|]. by eapply H.
Qed.
Lemma run_stmt_plain sc fr s f : run_stmt sc fr s = Some f -> plain_stmt s.
Proof. by destruct s. Qed.
Lemma run_body_shape sc fr l e : run_body sc fr l = Some e -> exists ls k, l = ls ++ [SExec k] /\ Forall plain_stmt ls.
Proof.
  revert fr. induction l as [|s l IH]; [done|]. intros fr H.
  assert ((exists k, s = SExec k /\ l = []) \/ (l <> [] \/ forall k, s <> SExec k)) as [(k & -> & ->)|Hs].
  { destruct l; [|by right; left]. destruct s; try (by right; right). left. by eexists. }
  - exists [], k. done.
  - rewrite (run_body_cons _ _ _ _ Hs) in H. destruct (run_stmt sc fr s) as [f|] eqn:E; [|done]. cbn in H.
    destruct (IH _ H) as (ls & k & -> & Hls). exists (s :: ls), k. split; [done|]. constructor; [by eapply run_stmt_plain|done].
Qed.
Lemma read_body_toks ls k rest fuel : (length ls < fuel)%nat -> Forall plain_stmt ls ->
  read_body fuel (concat (map toks_stmt (ls ++ [SExec k])) ++ brace :: rest) = Some (map rstmt_of (ls ++ [SExec k]), rest).
Proof.
  revert fuel. induction ls as [|s ls IH]; intros fuel Hf Hp; (destruct fuel as [|fuel]; [cbn in Hf; lia|]).
  - cbn [app map concat read_body]. rewrite app_nil_r. rewrite read_exec. reflexivity.
  - apply list.Forall_cons in Hp as [Hs Hp]. cbn [app map concat read_body]. rewrite <- app_assoc. rewrite (read_one _ _ Hs). cbn [mbind option_bind].
    rewrite (IH fuel ltac:(cbn in Hf; lia) Hp). destruct s; done.
Qed.

(** ** Meaning of bodies *)
Definition lo_of (fr : frame) : locals := Locals (map (fun x => (closure (fst x), snd x)) (fr_env fr)) (fr_inv fr).
Lemma local_closure k (env : list (N * expr)) : local (closure k) (map (fun x => (closure (fst x), snd x)) env) = lookup_env k env.
Proof.
  unfold local, lookup_env. induction env as [|[k' e] env IH]; [done|]. cbn [map List.find fst snd].
  destruct (N.eqb_spec k' k) as [->|Hk]; [by rewrite bool_decide_true|]. rewrite bool_decide_false; [done|]. intros H. by apply closure_inj in H.
Qed.
Lemma local_global n (env : list (N * expr)) : (forall k, n <> closure k) -> local n (map (fun x => (closure (fst x), snd x)) env) = None.
Proof.
  intros Hn. unfold local. induction env as [|[k' e] env IH]; [done|]. cbn [map List.find fst snd]. rewrite bool_decide_false; [done|]. intros H. by eapply Hn.
Qed.
Lemma closure_bindable k : bindable (closure k) = true.
Proof. unfold bindable. apply bool_decide_eq_true. apply closure_not_in. repeat (constructor; [by repeat constructor|]). constructor. Qed.
Lemma index_of_elem n l i : index_of n l = Some i -> n ∈ l.
Proof.
  revert i. induction l as [|x l IH]; intros i; [done|]. cbn. case_bool_decide as H; [subst; by left|]. destruct (index_of n l) as [j|]; [|done]. right. by eapply IH.
Qed.
Definition range_ok (s : stmt) : Prop := match s with SRange _ a b => a < u32_modulus /\ b < u32_modulus | _ => True end.

(** The calls the generator writes. *)
Lemma co_terminal sc lo b : closure_of sc lo (bytes "_terminal") [AByte b] = Some (ETerminal b).
Proof. reflexivity. Qed.
Lemma co_string sc lo d : closure_of sc lo (bytes "_string_terminal_opt_ascii") [ABytes d] = Some (EString d).
Proof. reflexivity. Qed.
Lemma co_range sc lo a b : a < u32_modulus -> b < u32_modulus -> closure_of sc lo (bytes "_ordered_choice_match_range") [ANum a; ANum b] = Some (ERange a b).
Proof.
  intros Ha Hb. transitivity (if (a <? u32_modulus) && (b <? u32_modulus) then Some (ERange a b) else None); [reflexivity|].
  apply N.ltb_lt in Ha, Hb. by rewrite Ha, Hb.
Qed.
Lemma co_one sc lo f g x : f ∈ combinators -> unary f = Some g -> closure_of sc lo f [ARef x] = (e ← local x (lo_vars lo); Some (g e)).
Proof. intros Hf Hg. unfold closure_of. rewrite bool_decide_true by done. by rewrite Hg. Qed.
Lemma co_two sc lo f g x y : f ∈ combinators -> binary f = Some g ->
  closure_of sc lo f [ARef x; ARef y] = (e ← local x (lo_vars lo); e' ← local y (lo_vars lo); Some (g e e')).
Proof. intros Hf Hg. unfold closure_of. rewrite bool_decide_true by done. by rewrite Hg. Qed.
Lemma co_var sc lo r f : closure_of sc lo (bytes "_var_name") [AName (bytes "user_state"); AVariant r; AName (bytes "context"); AName f] =
  (i ← variant sc r; j ← global sc lo f; Some (EVar i j)).
Proof. reflexivity. Qed.
Lemma co_lr sc lo r f : closure_of sc lo (bytes "_var_name_indirect_left_recursion")
  [AName (bytes "user_state"); ARef involved_set; AVariant r; AName (bytes "context"); AName f] =
  (l ← lo_involved lo; i ← variant sc r; j ← global sc lo f; Some (ELR l i j)).
Proof. reflexivity. Qed.
Lemma co_hook sc lo h x : h ∉ combinators -> local h (lo_vars lo) = None ->
  closure_of sc lo h (map AName parameters ++ [ARef x]) = (i ← index_of h (sc_hooks sc); e ← local x (lo_vars lo); Some (EHook i e)).
Proof. intros Hh Hl. unfold closure_of. rewrite bool_decide_false by done. rewrite Hl. reflexivity. Qed.

Lemma opt_bind {A B} (x : option A) (k : A -> option B) y : (x ≫= k) = Some y -> exists a, x = Some a /\ k a = Some y.
Proof. destruct x as [a|]; [|done]. intros H. by exists a. Qed.
Ltac in_combinators := match goal with |- ?P => apply (@bool_decide_eq_true_1 P _); vm_compute; reflexivity end.
Section body.
  Context (sc : scope) (Hfns : forall n k, n ∈ sc_fns sc -> n <> closure k) (Hhooks : forall n k, n ∈ sc_hooks sc -> n <> closure k)
    (Hcomb : forall n, n ∈ sc_hooks sc -> n ∉ combinators).
  Lemma global_of fr n i : index_of n (sc_fns sc) = Some i -> global sc (lo_of fr) n = Some i.
  Proof using Hfns. intros H. unfold global, lo_of. cbn [lo_vars]. rewrite local_global; [done|]. intros k. apply Hfns. by eapply index_of_elem. Qed.
  Lemma let_meaning fr k f a e l : closure_of sc (lo_of fr) f a = Some e ->
    body_meaning sc (lo_of fr) (RLet (closure k) f a :: l) = body_meaning sc (lo_of (bind k e fr)) l.
  Proof using. intros H. cbn [body_meaning]. rewrite closure_bindable, H. reflexivity. Qed.
  Lemma stmt_meaning fr s f l : run_stmt sc fr s = Some f -> range_ok s -> body_meaning sc (lo_of fr) (rstmt_of s :: l) = body_meaning sc (lo_of f) l.
  Proof using Hfns Hhooks Hcomb.
    assert (Hv : forall k e, lookup_env k (fr_env fr) = Some e -> local (closure k) (lo_vars (lo_of fr)) = Some e).
    { intros k e H. unfold lo_of. cbn [lo_vars]. by rewrite local_closure. }
    intros H Hr. destruct s as [| | | | | | | | | | | | | |rs| |k fn|k]; cbn [run_stmt] in H; try discriminate H; cbn [rstmt_of];
      repeat (match goal with H : (_ ≫= _) = Some _ |- _ => apply opt_bind in H as (? & ? & H) end); injection H as <-.
    1: match goal with H : byte_string _ = _ |- _ => rewrite H end; apply let_meaning, co_string.
    1: destruct Hr; by apply let_meaning, co_range.
    all: lazymatch goal with
         | |- body_meaning _ _ (RLet _ (bytes _) [ARef _] :: _) = _ =>
             apply let_meaning; erewrite co_one; [erewrite Hv by eassumption; reflexivity|in_combinators|reflexivity]
         | |- body_meaning _ _ (RLet _ (bytes _) [ARef _; ARef _] :: _) = _ =>
             apply let_meaning; erewrite co_two; [do 2 (erewrite Hv by eassumption); reflexivity|in_combinators|reflexivity]
         | _ => idtac
         end.
    - (* hook *) match goal with H : index_of _ _ = _ |- _ => rename H into Hi end. pose proof (index_of_elem _ _ _ Hi) as Hin.
      apply let_meaning. rewrite co_hook; [rewrite Hi; cbn [mbind option_bind]; by erewrite Hv by eassumption|by apply Hcomb|].
      unfold lo_of. cbn [lo_vars]. apply local_global. intros k'. by apply Hhooks.
    - match goal with H : byte_literal _ = _ |- _ => rewrite H end. apply let_meaning, co_terminal.
    - apply let_meaning. rewrite co_var. unfold variant. match goal with H : index_of _ (sc_enum _) = _ |- _ => rewrite H end. cbn [mbind option_bind].
      by erewrite global_of by eassumption.
    - cbn [body_meaning]. match goal with H : all_some _ = _ |- _ => rename H into Ha end. unfold variant. rewrite Ha. reflexivity.
    - apply let_meaning. rewrite co_lr. unfold variant. change (lo_involved (lo_of fr)) with (fr_inv fr). match goal with H : fr_inv _ = _ |- _ => rewrite H end. cbn [mbind option_bind].
      match goal with H : index_of _ (sc_enum _) = _ |- _ => rewrite H end. cbn [mbind option_bind]. by erewrite global_of by eassumption.
    - cbn [body_meaning]. rewrite closure_bindable. rewrite bool_decide_true by done. cbn [andb]. by erewrite global_of by eassumption.
  Qed.
  Lemma body_means fr l e : run_body sc fr l = Some e -> Forall range_ok l -> body_meaning sc (lo_of fr) (map rstmt_of l) = Some e.
  Proof using Hfns Hhooks Hcomb.
    revert fr. induction l as [|s l IH]; [done|]. intros fr H [Hr Hl]%list.Forall_cons.
    assert ((exists k, s = SExec k /\ l = []) \/ (l <> [] \/ forall k, s <> SExec k)) as [(k & -> & ->)|Hs].
    { destruct l; [|by right; left]. destruct s; try (by right; right). left. by eexists. }
    - cbn [map rstmt_of body_meaning]. rewrite !bool_decide_true by done. cbn [andb]. unfold lo_of. cbn [lo_vars]. by rewrite local_closure.
    - rewrite (run_body_cons _ _ _ _ Hs) in H. apply opt_bind in H as (f & Hf & H). cbn [map]. rewrite (stmt_meaning _ _ _ _ Hf Hr). by apply IH.
  Qed.
End body.

(** ** parser.rs *)
Definition toks_fn (f : gen_fn) : list token :=
  toks "#[allow(dead_code)] pub fn" ++ TWord (gf_name f) ::
  toks "<T: Context>(user_state: &RefCell<UserState>, parent: Key, context: &RefCell<T>, source: &Source, position: u32) -> (bool, u32) {" ++
  concat (map toks_stmt (gf_body f)) ++ [brace].
Fixpoint toks_names (l : list name) : list token :=
  match l with [] => [] | [n] => [TWord n] | n :: l => TWord n :: TPunct 44 :: toks_names l end.
Definition toks_attributes : list token := toks "#![allow(non_camel_case_types)] #![allow(unused_variables)] #![allow(unused_imports)]".
Definition toks_uses : list token := toks "use crate::*; use std::cell::RefCell;".
Definition toks_hooks (imports : list name) : list token :=
  if bool_decide (imports = []) then [] else toks "use crate::hooked_calls::{" ++ toks_names imports ++ toks "};".

Definition comment_ok (f : gen_fn) : Prop := Forall (Forall (fun c => c <> 10)) (gf_comment f).
Definition fn_ok (f : gen_fn) : Prop := good_name (gf_name f) /\ comment_ok f /\ Forall stmt_names_ok (gf_body f).
Lemma lx_comments cs : Forall (Forall (fun c => c <> 10)) cs -> lex_from MStart (render_comment cs) = Some ([], MStart).
Proof.
  unfold render_comment. induction cs as [|c cs IH]; [done|]. intros [H Hcs]%list.Forall_cons. cbn [map concat].
  apply (lx_app _ _ [] MStart); [|by apply IH]. rewrite app_assoc. apply (lx_app _ _ [] MComment); [reflexivity|].
  apply (lx_app _ _ [] MComment); [by apply lx_comment|reflexivity].
Qed.
Lemma lx_body dbg l : Forall stmt_names_ok l -> lex_from MStart (render_body dbg l) = Some (concat (map toks_stmt l), MStart).
Proof.
  unfold render_body. induction l as [|s l IH]; [done|]. intros [H Hl]%list.Forall_cons. cbn [map concat].
  eapply lx_app; [|by apply IH]. apply (lx_app _ _ [] MStart _ (toks_stmt s)); [reflexivity|]. rewrite <- (app_nil_r (toks_stmt s)).
  eapply lx_app; [by apply lx_stmt|reflexivity].
Qed.
Lemma lx_fn dbg f : fn_ok f -> lex_from MStart (render_fn dbg f) = Some (toks_fn f, MStart).
Proof.
  intros (Hn & Hc & Hb). unfold render_fn, toks_fn. rewrite (app_assoc (bytes "#[allow(dead_code)]")). rewrite (app_assoc (_ ++ _) (bytes "pub fn ")).
  eapply lx_app; [vm_compute; reflexivity|]. rewrite (app_assoc (gf_name f)). eapply (lx_app _ _ (TWord _ :: _) MStart).
  { apply lx_name; [done|]. lx_lit. }
  apply (lx_app _ _ [] MStart); [reflexivity|]. apply (lx_app _ _ [] MStart); [by apply lx_comments|].
  apply (lx_app _ _ [] MStart); [reflexivity|]. eapply lx_app; [by apply lx_body|]. reflexivity.
Qed.
Lemma lx_fns dbg fs : Forall fn_ok fs -> lex_from MStart (concat (map (render_fn dbg) fs)) = Some (concat (map toks_fn fs), MStart).
Proof.
  induction fs as [|f fs IH]; [done|]. intros [H Hl]%list.Forall_cons. cbn [map concat]. eapply lx_app; [by apply lx_fn|by apply IH].
Qed.
Lemma lx_names ns s ts : ns <> [] -> Forall good_name ns -> (forall n, lex_from (MWord n) (bytes s) = Some (word n :: ts, MStart)) ->
  lex_from MStart (comma_separated ns ++ bytes s) = Some (toks_names ns ++ ts, MStart).
Proof.
  intros Hne Hns H. induction ns as [|n ns IH]; [done|]. apply list.Forall_cons in Hns as [Hn Hns]. destruct ns as [|n' ns].
  - by apply lx_name.
  - change (comma_separated (n :: n' :: ns)) with (n ++ bytes "," ++ comma_separated (n' :: ns)).
    change (toks_names (n :: n' :: ns)) with (TWord n :: TPunct 44 :: toks_names (n' :: ns)). rewrite <- !app_assoc.
    apply (lx_app3 n "," [TPunct 44]); [done|lx_lit|]. by apply IH.
Qed.
Lemma lx_header imports : Forall good_name imports ->
  lex_from MStart (parser_header imports) = Some ((toks_attributes ++ toks_uses) ++ toks_hooks imports, MStart).
Proof.
  intros H. unfold parser_header, toks_hooks. eapply lx_app; [vm_compute; reflexivity|]. case_bool_decide as Hi; [done|].
  eapply lx_app; [vm_compute; reflexivity|]. apply lx_names; [done..|]. intros n. lx_lit.
Qed.
Definition toks_parser (c : gen_code) : list token :=
  toks_attributes ++ toks_uses ++ toks_hooks (gc_imports c) ++ concat (map toks_fn (gc_fns c)).
Lemma lex_parser dbg c : Forall good_name (gc_imports c) -> Forall fn_ok (gc_fns c) -> lex (parser_file_content dbg c) = Some (toks_parser c).
Proof.
  intros Hi Hf. assert (lex_from MStart (parser_file_content dbg c) = Some (toks_parser c, MStart)) as H.
  { unfold parser_file_content, toks_parser. rewrite !(app_assoc toks_attributes). rewrite (app_assoc (_ ++ _)).
    eapply lx_app; [by apply lx_header|]. apply (lx_app _ _ [] MStart); [reflexivity|]. by apply lx_fns. }
  unfold lex. rewrite H. cbn [mbind option_bind finish]. by rewrite app_nil_r.
Qed.

Lemma fns_start fs : concat (map toks_fn fs) = [] \/ exists r, concat (map toks_fn fs) = TPunct 35 :: r.
Proof. destruct fs as [|f fs]; [by left|]. right. by eexists. Qed.
Lemma skip_attributes_ok n r : skip_attributes (3 + n) (toks_attributes ++ TKey (bytes "use") :: r) = TKey (bytes "use") :: r.
Proof. destruct n; vm_compute; reflexivity. Qed.
Lemma read_names_ok ns r : ns <> [] -> read_names (toks_names ns ++ TPunct 125 :: r) = Some (ns, r).
Proof.
  intros Hne. induction ns as [|n ns IH]; [done|]. destruct ns as [|n' ns]; [done|].
  change (toks_names (n :: n' :: ns)) with (TWord n :: TPunct 44 :: toks_names (n' :: ns)). cbn [app read_names]. by rewrite IH.
Qed.
Lemma read_imports_stop n fs : read_imports n (concat (map toks_fn fs)) = ([], concat (map toks_fn fs)).
Proof. destruct n; [done|]. destruct (fns_start fs) as [->|[r ->]]; vm_compute; reflexivity. Qed.
Lemma read_hooks n imports fs : read_imports (1 + n) (toks_hooks imports ++ concat (map toks_fn fs)) =
  (if bool_decide (imports = []) then [] else [IHooks imports], concat (map toks_fn fs)).
Proof.
  unfold toks_hooks. case_bool_decide as Hi; [apply read_imports_stop|]. set (l := concat (map toks_fn fs)).
  pose proof (read_imports_stop n fs) as Hs. fold l in Hs. clearbody l. cbn [read_imports Nat.add].
  assert (read_import ((toks "use crate::hooked_calls::{" ++ toks_names imports ++ toks "};") ++ l) = Some (IHooks imports, l)) as ->; [|by rewrite Hs].
  rewrite <- !app_assoc. change (toks "};" ++ l) with (TPunct 125 :: semicolon :: l).
  pose proof (read_names_ok imports (semicolon :: l) Hi) as Hn. set (x := toks_names imports ++ TPunct 125 :: semicolon :: l) in *.
  assert (Hu : matches t_use_hook (toks "use crate::hooked_calls::{" ++ x) = None) by reflexivity.
  transitivity ('(ns, r) ← read_names x; r ← expect semicolon r; Some (IHooks ns, r)); [clearbody x; vm_compute; reflexivity|].
  rewrite Hn. reflexivity.
Qed.
Lemma read_uses n r : read_imports (2 + n) (toks_uses ++ r) = (let '(is, r) := read_imports n r in (ICrate :: IRefCell :: is, r)).
Proof.
  transitivity (let '(is, r1) := (let '(is, r2) := read_imports n r in (IRefCell :: is, r2)) in (ICrate :: is, r1)); [reflexivity|].
  by destruct (read_imports n r).
Qed.

Lemma matches_fn n r : matches t_fn (toks "pub fn" ++ TWord n ::
  toks "<T: Context>(user_state: &RefCell<UserState>, parent: Key, context: &RefCell<T>, source: &Source, position: u32) -> (bool, u32) {" ++ r) = Some ([n], [], r).
Proof. vm_compute. reflexivity. Qed.
Definition rfn_of (f : gen_fn) : rfn := RFn (gf_name f) (map rstmt_of (gf_body f)).
Definition body_shape (l : list stmt) : Prop := exists ls k, l = ls ++ [SExec k] /\ Forall plain_stmt ls.
Lemma toks_stmt_length s : plain_stmt s -> (1 <= length (toks_stmt s))%nat.
Proof. by destruct s; intros H; try destruct H; cbn [toks_stmt]; rewrite ?app_length; vm_compute; lia. Qed.
Lemma body_length ls k r : Forall plain_stmt ls -> (length ls < length (concat (map toks_stmt (ls ++ [SExec k])) ++ r))%nat.
Proof.
  intros H. rewrite app_length, map_app, concat_app, app_length. assert (length ls <= length (concat (map toks_stmt ls)))%nat.
  { induction H as [|s ls Hs _ IH]; [done|]. cbn [map concat length]. rewrite app_length. pose proof (toks_stmt_length s Hs). lia. }
  assert (1 <= length (concat (map toks_stmt [SExec k])))%nat by (vm_compute; lia). lia.
Qed.
Lemma read_fns_ok fs fuel : (length fs <= fuel)%nat -> Forall (fun f => body_shape (gf_body f)) fs -> read_fns fuel (concat (map toks_fn fs)) = Some (map rfn_of fs).
Proof.
  revert fuel. induction fs as [|f fs IH]; intros fuel Hf Hb; [by destruct fuel|]. destruct fuel as [|fuel]; [cbn in Hf; lia|].
  apply list.Forall_cons in Hb as [(ls & k & Hl & Hp) Hb]. cbn [map concat]. unfold toks_fn at 1. rewrite Hl. set (rest := concat (map toks_fn fs)) in *.
  rewrite <- !app_assoc. cbn [app]. rewrite <- !app_assoc.
  set (b := concat (map toks_stmt (ls ++ [SExec k])) ++ [brace] ++ rest).
  assert (Hrb : read_body (length b) b = Some (map rstmt_of (ls ++ [SExec k]), rest)).
  { apply read_body_toks; [|done]. by apply body_length. }
  specialize (IH fuel ltac:(cbn in Hf; lia) Hb). clearbody b.
  transitivity ('(ss, r) ← read_body (length b) b; fs ← read_fns fuel r; Some (RFn (gf_name f) ss :: fs)).
  { generalize (gf_name f). intros n. clear. vm_compute. reflexivity. }
  rewrite Hrb. cbn [mbind option_bind]. rewrite IH. cbn. unfold rfn_of. by rewrite Hl.
Qed.
Lemma fns_length fs : (length fs <= length (concat (map toks_fn fs)))%nat.
Proof.
  induction fs as [|f fs IH]; [done|]. cbn [map concat length]. rewrite app_length.
  assert (Hf : exists t l, toks_fn f = t :: l) by (by do 2 eexists). destruct Hf as (t & l & ->). cbn [length]. lia.
Qed.
Lemma read_parser_ok dbg c : Forall good_name (gc_imports c) -> Forall fn_ok (gc_fns c) -> Forall (fun f => body_shape (gf_body f)) (gc_fns c) ->
  read_parser_rs (parser_file_content dbg c) = Some (gc_imports c, map rfn_of (gc_fns c)).
Proof.
  intros H1 H2 H3. unfold read_parser_rs. rewrite lex_parser by done. cbn [mbind option_bind]. unfold toks_parser.
  set (r1 := toks_hooks (gc_imports c) ++ concat (map toks_fn (gc_fns c))).
  assert (Hu : exists u, toks_uses ++ r1 = TKey (bytes "use") :: u) by (by eexists). destruct Hu as [u Hu].
  assert (exists n, length (toks_attributes ++ toks_uses ++ r1) = 3 + n)%nat as [n ->].
  { exists (length (toks_attributes ++ toks_uses ++ r1) - 3)%nat. rewrite app_length. assert (length toks_attributes = 24%nat) as -> by reflexivity. lia. }
  rewrite Hu, skip_attributes_ok, <- Hu.
  assert (exists n, length (toks_uses ++ r1) = 2 + (1 + n))%nat as [n' ->].
  { exists (length (toks_uses ++ r1) - 3)%nat. rewrite app_length. assert (length toks_uses = 12%nat) as -> by (vm_compute; reflexivity). lia. }
  rewrite read_uses. unfold r1. rewrite read_hooks. cbn [mbind]. rewrite !bool_decide_true by (by repeat constructor). cbn [andb].
  rewrite read_fns_ok; [|apply fns_length|done]. cbn [mbind option_bind]. f_equal. f_equal. case_bool_decide as Hi; [by rewrite Hi|].
  unfold hooks_in. cbn. by rewrite app_nil_r.
Qed.

(** ** rules.rs *)
Definition toks_rules_head : list token := toks
  "#![allow(non_camel_case_types)] use num_derive::FromPrimitive;
   impl From<u32> for Rules { fn from(i: u32) -> Rules { let element = num::FromPrimitive::from_u32(i);
     match element { Some(rule) => rule, None => panic!(""Not a valid Rule""), } } }
   #[allow(dead_code)] pub static RULES_SIZE: u32 = ".
Definition toks_rules_head_2 : list token := toks
  ";#[allow(clippy::upper_case_acronyms)] #[derive(PartialEq, Eq, Hash, FromPrimitive, Clone, Copy, Debug, Ord, PartialOrd)] pub enum Rules {".
Definition toks_variants (l : list name) : list token := concat (map (fun r => [TWord r; TPunct 44]) l).
Definition toks_rules_file (c : gen_code) : list token :=
  toks_rules_head ++ TNum (gc_size c) :: toks_rules_head_2 ++ toks_variants (gc_enum c) ++ [brace].
Lemma lx_variants l : Forall good_name l -> lex_from MStart (concat (map (fun r => [9] ++ r ++ bytes "," ++ [10]) l)) = Some (toks_variants l, MStart).
Proof.
  induction l as [|r l IH]; [done|]. intros [H Hl]%list.Forall_cons. unfold toks_variants. cbn [map concat]. eapply lx_app; [|by apply IH].
  apply (lx_app _ _ [] MStart); [reflexivity|]. apply (lx_name r ("," ++ String (ascii_of_N 10) "")%string); [done|]. lx_lit.
Qed.
Lemma lex_rules c : Forall good_name (gc_enum c) -> lex (rules_enum_file_content c) = Some (toks_rules_file c).
Proof.
  intros Hi. assert (lex_from MStart (rules_enum_file_content c) = Some (toks_rules_file c, MStart)) as H.
  { unfold rules_enum_file_content, toks_rules_file, rules_size, rules_enum. rewrite <- !app_assoc.
    rewrite (app_assoc rules_enum_header), (app_assoc (_ ++ _) (bytes "#[allow(dead_code)]")), (app_assoc (_ ++ _) [10]).
    rewrite (app_assoc (_ ++ _) (bytes "pub static RULES_SIZE: u32 = ")), (app_assoc (_ ++ _) (bytes " ")).
    eapply lx_app; [vm_compute; reflexivity|]. apply (lx_app _ _ [] (MNum (gc_size c))); [apply lx_dec|].
    rewrite (app_assoc (bytes ";")), (app_assoc (_ ++ _) rules_enum_header_2), (app_assoc (_ ++ _) [10]), (app_assoc (_ ++ _) (bytes "pub enum Rules {")), (app_assoc (_ ++ _) [10]).
    eapply (lx_app _ _ (_ :: toks_rules_head_2) MStart); [lx_lit|]. eapply lx_app; [by apply lx_variants|]. reflexivity. }
  unfold lex. rewrite H. cbn [mbind option_bind finish]. by rewrite app_nil_r.
Qed.
Lemma read_variants_ok l : read_names (toks_variants l ++ [brace]) = Some (l, []).
Proof. induction l as [|r l IH]; [done|]. unfold toks_variants in *. cbn [map concat app read_names]. by rewrite IH. Qed.
Lemma read_rules_ok c : Forall good_name (gc_enum c) -> read_rules_rs (rules_enum_file_content c) = Some (gc_enum c, gc_size c).
Proof.
  intros H. unfold read_rules_rs. rewrite (lex_rules c H). cbn [mbind option_bind]. unfold toks_rules_file.
  pose proof (read_variants_ok (gc_enum c)) as Hv. set (x := toks_variants (gc_enum c) ++ [brace]) in *.
  assert (matches t_rules (toks_rules_head ++ TNum (gc_size c) :: toks_rules_head_2 ++ x) = Some ([], [gc_size c], x)) as ->.
  { clearbody x. generalize (gc_size c). intros n. vm_compute. reflexivity. }
  cbn [mbind option_bind]. rewrite Hv. done.
Qed.

(** ** The crate *)
Definition plain_char (c : N) : bool := is_letter c || (c =? 95).
Definition plain_name (n : list N) : Prop := exists c r, n = c :: r /\ is_letter c = true /\ Forall (fun c => plain_char c = true) r.
Lemma plain_ident n : plain_name n -> ident n.
Proof.
  intros (c & r & -> & Hc & Hr). exists c, r. split; [done|]. split.
  - unfold id_start. by rewrite Hc.
  - eapply list.Forall_impl; [exact Hr|]. intros x Hx. unfold id_char, id_start. unfold plain_char in Hx. by rewrite Hx.
Qed.
Lemma plain_no_digit n : plain_name n -> Forall (fun c => is_digit c = false) n.
Proof.
  assert (Hp : forall c, plain_char c = true -> is_digit c = false).
  { intros c. unfold plain_char, is_letter, is_digit. intros H.
    destruct (N.leb_spec 48 c); [|done]. destruct (N.leb_spec c 57); [|done]. exfalso.
    destruct (N.leb_spec 97 c); [lia|]. destruct (N.leb_spec 65 c); [lia|]. destruct (N.eqb_spec c 95); [lia|]. done. }
  intros (c & r & -> & Hc & Hr). constructor.
  - apply Hp. unfold plain_char. by rewrite Hc.
  - eapply list.Forall_impl; [exact Hr|]. exact Hp.
Qed.
Lemma plain_not_closure n k : plain_name n -> n <> closure k.
Proof. intros H ->. destruct (closure_digit k) as (c & Hc & Hd). apply plain_no_digit in H. rewrite list.Forall_forall in H. specialize (H _ Hc). congruence. Qed.
Lemma plain_not_combinator n : plain_name n -> n ∉ combinators.
Proof.
  intros (c & r & -> & Hc & _) H. assert (Hl : Forall (fun n => match n with x :: _ => is_letter x = false | [] => True end) combinators) by (by repeat constructor).
  rewrite list.Forall_forall in Hl. apply Hl in H. congruence.
Qed.

Record code_ok (c : gen_code) : Prop := CodeOk {
  co_fns : Forall plain_name (map gf_name (gc_fns c));
  co_imports : Forall plain_name (gc_imports c);
  co_enum : Forall plain_name (gc_enum c);
  co_upper : Forall (fun n => match n with x :: _ => (65 <=? x) && (x <=? 90) = true | [] => True end) (gc_enum c);
  co_comments : Forall comment_ok (gc_fns c);
  co_ranges : Forall (fun f => Forall range_ok (gf_body f)) (gc_fns c) }.
Lemma keyword_reserved n : n ∈ keywords -> n ∈ reserved.
Proof.
  assert (H : Forall (fun n => n ∈ reserved) keywords); [|by rewrite list.Forall_forall in H; apply H].
  match goal with |- ?P => apply (@bool_decide_eq_true_1 P _); vm_compute; reflexivity end.
Qed.
Lemma upper_keyword n : n ∈ keywords -> match n with x :: _ => (65 <=? x) && (x <=? 90) = true | [] => True end -> n = enum_reserved.
Proof.
  assert (H : Forall (fun n => match n with x :: _ => (65 <=? x) && (x <=? 90) = true | [] => True end -> n = enum_reserved) keywords); [|by rewrite list.Forall_forall in H; apply H].
  repeat (constructor; [by vm_compute|]). constructor.
Qed.
Lemma run_stmt_names sc fr s f : Forall good_name (sc_fns sc) -> Forall good_name (sc_hooks sc) -> Forall good_name (sc_enum sc) ->
  run_stmt sc fr s = Some f -> stmt_names_ok s.
Proof.
  rewrite !list.Forall_forall. intros Hf Hh He H.
  destruct s; cbn [run_stmt stmt_names_ok] in *; try done;
    repeat (match goal with H : (_ ≫= _) = Some _ |- _ => apply opt_bind in H as (? & ? & H) end);
    try (match goal with H : byte_string _ = _ |- _ => by rewrite H | H : byte_literal _ = _ |- _ => by rewrite H end);
    try (solve [eauto using index_of_elem]); try (solve [split; eauto using index_of_elem]).
  apply list.Forall_forall. intros n Hn. apply He. match goal with H : all_some _ = Some ?l |- _ => rename H into Ha; rename l into l0 end. clear -Hn Ha. revert l0 Ha.
  induction rules as [|r rs IH]; [by apply elem_of_nil in Hn|]. intros l H. cbn in H. destruct (index_of r (sc_enum sc)) as [i|] eqn:Ei; [|done].
  destruct (all_some _) as [l'|] eqn:El in H; [|done]. apply elem_of_cons in Hn as [->|Hn]; [by eapply index_of_elem|]. by eapply IH.
Qed.
Lemma run_body_names sc fr l e : Forall good_name (sc_fns sc) -> Forall good_name (sc_hooks sc) -> Forall good_name (sc_enum sc) ->
  run_body sc fr l = Some e -> Forall stmt_names_ok l.
Proof.
  intros Hf Hh He. revert fr. induction l as [|s l IH]; [done|]. intros fr H.
  assert ((exists k, s = SExec k /\ l = []) \/ (l <> [] \/ forall k, s <> SExec k)) as [(k & -> & ->)|Hs].
  { destruct l; [|by right; left]. destruct s; try (by right; right). left. by eexists. }
  - by repeat constructor.
  - rewrite (run_body_cons _ _ _ _ Hs) in H. apply opt_bind in H as (f & Hr & H). constructor; [by eapply run_stmt_names|by eapply IH].
Qed.
Lemma all_some_map {A B} (f g : A -> option B) (l : list A) t : all_some (map f l) = Some t -> (forall x y, x ∈ l -> f x = Some y -> g x = Some y) -> all_some (map g l) = Some t.
Proof.
  revert t. induction l as [|x l IH]; intros t H Hg; [done|]. cbn in *. destruct (f x) as [y|] eqn:E; [|done]. rewrite (Hg x y ltac:(by left) E).
  destruct (all_some (map f l)) as [t'|]; [|done]. rewrite (IH t'); [done|done|]. intros z w Hz. apply Hg. by right.
Qed.
Lemma all_some_elem {A B} (f : A -> option B) (l : list A) t x : all_some (map f l) = Some t -> x ∈ l -> exists y, f x = Some y.
Proof.
  revert t. induction l as [|z l IH]; intros t H Hx; [by apply elem_of_nil in Hx|]. cbn in H. destruct (f z) as [y|] eqn:E; [|done].
  destruct (all_some (map f l)) as [t'|]; [|done]. apply elem_of_cons in Hx as [->|Hx]; [by exists y|]. by eapply IH.
Qed.

Theorem read_back dbg c table : code_ok c -> code_table c = Some table ->
  read_crate (parser_file_content dbg c) (rules_enum_file_content c) =
    Some (Crate (map gf_name (gc_fns c)) (gc_imports c) (gc_enum c) (gc_size c) table).
Proof.
  intros [H1 H2 H3 H4 H5 H6] Ht. unfold code_table in Ht. destruct (decide _) as [(Hnd & Hne & Hres & Hself)|]; [|done].
  assert (Hgf : Forall good_name (map gf_name (gc_fns c))).
  { rewrite list.Forall_forall in *. intros n Hn. split; [by apply plain_ident, H1|]. intros Hk. apply (Hres n); [apply elem_of_app; by left|by apply keyword_reserved]. }
  assert (Hgi : Forall good_name (gc_imports c)).
  { rewrite list.Forall_forall in *. intros n Hn. split; [by apply plain_ident, H2|]. intros Hk. apply (Hres n); [apply elem_of_app; by right|by apply keyword_reserved]. }
  assert (Hge : Forall good_name (gc_enum c)).
  { rewrite list.Forall_forall in *. intros n Hn. split; [by apply plain_ident, H3|]. intros Hk. apply Hself. rewrite <- (upper_keyword n Hk (H4 n Hn)). done. }
  assert (Hrun : forall f, f ∈ gc_fns c -> exists e, run_body (scope_of c) frame_empty (gf_body f) = Some e).
  { intros f Hf. by eapply (all_some_elem (fun f => run_body (scope_of c) frame_empty (gf_body f))). }
  unfold read_crate. rewrite read_parser_ok; [|done|..].
  - cbn [mbind option_bind]. rewrite (read_rules_ok c Hge). cbn [mbind option_bind]. rewrite map_map. cbn [rfn_of rf_name].
    rewrite bool_decide_true.
    + rewrite map_map. cbn [rfn_of rf_body].
      change (fun x : gen_fn => gf_name x) with gf_name.
      rewrite (all_some_map _ (fun f => body_meaning (Scope (map gf_name (gc_fns c)) (gc_enum c) (gc_imports c)) (Locals [] None) (map rstmt_of (gf_body f))) _ _ Ht).
      * done.
      * intros f e Hf He. pose proof (proj1 (list.Forall_forall _ _) H1) as H1'. pose proof (proj1 (list.Forall_forall _ _) H2) as H2'. pose proof (proj1 (list.Forall_forall _ _) H6) as H6'. apply (body_means (scope_of c)) with (fr := frame_empty); [..|by apply H6'].
        -- intros n k Hn. apply plain_not_closure. by apply H1'.
        -- intros n k Hn. apply plain_not_closure. by apply H2'.
        -- intros n Hn. apply plain_not_combinator. by apply H2'.
        -- done.
    + split; [|done].
      assert (Hfix : NoDup (involved_set :: parameters ++ combinators)).
      { match goal with |- ?P => apply (@bool_decide_eq_true_1 P _); vm_compute; reflexivity end. }
      rewrite (app_assoc parameters), app_comm_cons. apply NoDup_app. split; [done|]. split; [|done].
      intros n Hn Hin. assert (plain_name n) as Hp.
      { apply elem_of_app in Hin as [Hin|Hin]; [exact (proj1 (list.Forall_forall _ _) H1 _ Hin)|exact (proj1 (list.Forall_forall _ _) H2 _ Hin)]. }
      rewrite app_comm_cons in Hn. apply elem_of_app in Hn as [Hn|Hn]; [|by eapply plain_not_combinator].
      apply (Hres n Hin). clear -Hn. assert (H : Forall (fun n => n ∈ reserved) (involved_set :: parameters)); [|by rewrite list.Forall_forall in H; apply H].
      match goal with |- ?P => apply (@bool_decide_eq_true_1 P _); vm_compute; reflexivity end.
  - rewrite list.Forall_forall in *. intros f Hf. split_and!; [apply (proj1 (list.Forall_forall _ _) Hgf); by apply elem_of_list_fmap_1|by apply H5|].
    destruct (Hrun f Hf) as [e He]. eapply (run_body_names (scope_of c)); [..|exact He]; unfold scope_of; cbn; assumption.
  - rewrite list.Forall_forall in *. intros f Hf. destruct (Hrun f Hf) as [e He]. by eapply run_body_shape.
Qed.
