(** Theorems C25, C32 - C38, C45, C46: the generator. *)
From Coq Require Import Sorted.
From Verif Require Import SpecUtf8 SpecLeft SpecCompile SpecGenerator SpecEmit ProofPeg ProofTree ProofTrace ProofDsl ProofBuild ProofRules ProofSymbols.
From Verif Require Import ProofUtf8 ProofGraph ProofLeft ProofGenerate ProofEmit ProofDslComplete ProofDslUnique ProofDslSize ProofGenTotal.
From Verif Require Import TheoremsKernel TheoremsPackrat TheoremsTotal Checks SpecSession SpecTerm ProofTree2 ProofFuel.
From stdpp Require Import relations gmap.
Local Open Scope N_scope.

(** Files the theorems range over: valid UTF-8, less than about 143 MB; any
    order in which the hash maps are iterated. *)
Definition fits (s : list N) : Prop := utf8 s /\ 1 + 30 * (N.of_nat (length s) + 1) <= u32_modulus.
Lemma fits_len s : fits s -> N.of_nat (length s) < u32_modulus.
Proof. intros [_ H]. unfold u32_modulus in *. lia. Qed.

(** generator/src/lib.rs:25-45 — the part of generate_parser before the symbol
    table: the cleaned tree, when the whole file was read. *)
Definition read_grammar (fuel : nat) (s : list N) : res ptree :=
  let! ((b, q), st) := run_entry dsl_program tt fuel (EInline dsl_f_grammar) s in
  if negb (q =? as_u32 (N.of_nat (length s))) then Panic PExplicit
  else
    let! p := clear_false fuel dsl_R_Grammar (cx_pub (st_ctx st)) in
    GenTree.read_tree fuel p 0.
Lemma read_grammar_tree fuel s tree : N.of_nat (length s) < u32_modulus -> read_grammar fuel s = Ok tree ->
  exists ts rules, tree = TNode dsl_R_Grammar 0 0 true ts /\ Forall2 (rule_rep s) ts rules /\ file_or_empty s rules.
Proof.
  intros Hs H. unfold read_grammar in H. change (EInline dsl_f_grammar) with gen_entry in H.
  destruct (run_entry dsl_program tt fuel gen_entry s) as [[[b q] st]| |] eqn:Er; cbn [rbind] in H; [|clear Er; by inversion H|clear Er; by inversion H].
  destruct (N.eqb_spec q (as_u32 (N.of_nat (length s)))) as [Hq|Hq]; cbn [negb] in H; [|done].
  rewrite as_u32_small in Hq by done.
  apply rbind_Ok_inv in H as (p & Hc & Hr).
  destruct (file_tree s Hs _ _ _ _ _ _ Er Hq Hc) as (ts & rules & Hd & HF & Hfile).
  apply gen_read_tree in Hr. destruct (unfolds_det nothing nothing p) as [Hdet _]. pose proof (Hdet _ _ Hd _ Hr) as E. subst tree.
  exists ts, rules. done.
Qed.

Section theorems.
  Context (s : list N) (Hfit : fits s).
  Notation len := (N.of_nat (length s)).

  (** ** C25: the DSL parser implements the grammar language *)
  Theorem C25_grammar_files (fuel : nat) b q st : run_entry dsl_program tt fuel (EInline dsl_f_grammar) s = Ok ((b, q), st) ->
    (b = true /\ q = len) <-> exists rules, file_text s rules.
  Proof using Hfit.
    intros Hr. change (EInline dsl_f_grammar) with gen_entry in Hr. pose proof (fits_len _ Hfit) as Hs. split.
    - intros [-> ->].
      destruct (C15_tree_is_trace dsl_program dsl_fn s tt Hs dsl_ok gen_entry fuel true _ st gen_entry_ok Hr) as (F & _ & Ht).
      apply inline_grammar in Ht. apply (tr_grammar s) in Ht as (ts & rules & k & _ & Hne & _ & H1 & H2). exists rules, k. done.
    - intros [rules H]. pose proof (file_accepted s None rules H) as Ha.
      apply (C10_packrat_sound dsl_program dsl_fn s tt Hs dsl_ok) in Hr; [|apply gen_entry_ok]. destruct Hr as [Hr _].
      pose proof (peg_det _ _ _ _ _ _ Ha Hr) as E. destruct b; [|done]. injection E as ->. done.
  Qed.
  Theorem C25_answers : exists fuel0 b q st, forall fuel, (fuel0 <= fuel)%nat -> run_entry dsl_program tt fuel (EInline dsl_f_grammar) s = Ok ((b, q), st).
  Proof using Hfit.
    pose proof (fits_len _ Hfit) as Hs. destruct Hfit as [_ Hb].
    destruct (C24_plain_total dsl_program dsl_fn (nul_of dsl_table) (lvl_of dsl_table) tt dsl_ok (table_no_hooks _ _) dsl_wf dsl_labels dsl_labels_in
      s gen_entry _ ltac:(by rewrite dsl_labels_size) Hs gen_entry_allowed gen_entry_guarded) as (f1 & b & q & st & Hrun & _).
    exists f1, b, q, st. exact Hrun.
  Qed.
  Theorem C25_unambiguous rules rules' : file_text s rules -> file_text s rules' -> rules = rules'.
  Proof using. apply file_unique. Qed.

  (** ** C32 *)
  Theorem C32_symbol_table fuel tree rules : read_grammar fuel s = Ok tree -> file_or_empty s rules ->
    exists sym, symbol_table_new s tree = Ok sym /\
      StronglySorted lex_lt (sy_names sym) /\ (forall n, check_symbol sym n = true <-> declared_name rules n) /\
      (forall n, check_symbol_is_inline sym n = true <-> declared_inline rules n).
  Proof using Hfit.
    intros Hr Hf. apply read_grammar_tree in Hr as (ts & rules' & -> & HF & Hf'); [|by apply fits_len].
    rewrite (file_or_empty_unique _ _ _ Hf Hf') in *. destruct Hfit as [Hu _]. destruct (symbols_ok s Hu rules' ts HF) as [sym Hsym].
    exists sym. split; [done|]. destruct (sym_spec s rules' ts HF 0 0 true sym Hsym) as (H1 & H2 & H3). split; [done|]. split; [|done].
    intros n. unfold check_symbol. rewrite bool_decide_eq_true. apply H2.
  Qed.

  (** ** C33, C34 *)
  Theorem C33_detector fuel fuel' ho tree rules lr : orders_ok ho -> read_grammar fuel s = Ok tree -> file_or_empty s rules ->
    left_recursion_rules fuel' ho s tree = Ok lr -> forall n, is_Some (lr !! n) <-> left_recursive rules n.
  Proof using Hfit.
    intros Hho Hr Hf Hlr. apply read_grammar_tree in Hr as (ts & rules' & -> & HF & Hf'); [|by apply fits_len].
    rewrite (file_or_empty_unique _ _ _ Hf Hf') in *. destruct Hfit as [Hu _].
    by destruct (detector_spec s Hu rules' ho Hho 0 0 true ts HF fuel' lr Hlr) as (_ & H1 & _).
  Qed.
  Theorem C34_involved_sets fuel fuel' ho tree rules lr : orders_ok ho -> read_grammar fuel s = Ok tree -> file_or_empty s rules ->
    left_recursion_rules fuel' ho s tree = Ok lr -> forall n S, lr !! n = Some S ->
    forall m, m ∈ S <-> reaches rules n m /\ left_recursive rules m.
  Proof using Hfit.
    intros Hho Hr Hf Hlr. apply read_grammar_tree in Hr as (ts & rules' & -> & HF & Hf'); [|by apply fits_len].
    rewrite (file_or_empty_unique _ _ _ Hf Hf') in *. destruct Hfit as [Hu _].
    by destruct (detector_spec s Hu rules' ho Hho 0 0 true ts HF fuel' lr Hlr) as (_ & _ & H1).
  Qed.
  Theorem C33_hash_order fuel f f' ho ho' tree lr lr' : orders_ok ho -> orders_ok ho' -> read_grammar fuel s = Ok tree ->
    left_recursion_rules f ho s tree = Ok lr -> left_recursion_rules f' ho' s tree = Ok lr' -> lr = lr'.
  Proof using Hfit.
    intros Hho Hho' Hr H H'. apply read_grammar_tree in Hr as (ts & rules' & -> & HF & Hf'); [|by apply fits_len].
    destruct Hfit as [Hu _]. eapply (detector_order s Hu rules' ts HF ho ho' Hho Hho'); [exact H|exact H'].
  Qed.
  Theorem C34_terminates fuel ho tree rules : orders_ok ho -> read_grammar fuel s = Ok tree -> file_or_empty s rules ->
    (lefts_declared rules -> exists fuel0 lr, forall fuel', (fuel0 <= fuel')%nat -> left_recursion_rules fuel' ho s tree = Ok lr) /\
    (~ lefts_declared rules -> exists fuel0, forall fuel', (fuel0 <= fuel')%nat -> left_recursion_rules fuel' ho s tree = Panic PExplicit).
  Proof using Hfit.
    intros Hho Hr Hf. apply read_grammar_tree in Hr as (ts & rules' & -> & HF & Hf'); [|by apply fits_len].
    rewrite (file_or_empty_unique _ _ _ Hf Hf') in *. destruct Hfit as [Hu _]. split.
    - apply (detector_total s Hu rules' ho Hho 0 0 true ts HF).
    - apply (detector_panics s Hu rules' ho Hho 0 0 true ts HF).
  Qed.

  (** ** C46: the generator always comes to an end, and how *)
  Theorem C46_answers ho : orders_ok ho ->
    exists fuel0 o, (forall fuel, (fuel0 <= fuel)%nat -> generate_parser fuel ho s = o) /\
      ((exists q rules, (forall rules', ~ file_or_empty s rules') /\ reads_up_to s q rules /\ q < len /\ o = Ok (GSyntaxError (line_of s q))) \/
       (exists rules, file_or_empty s rules /\
         ((lefts_declared rules /\ forallb rule_emits rules = true /\ exists c, o = Ok (GCode c) /\ generated_for rules c) \/
          (~ (lefts_declared rules /\ forallb rule_emits rules = true) /\ exists x, o = Panic x)))).
  Proof using Hfit.
    intros Hho. destruct Hfit as [Hu Hb]. by apply generate_total.
  Qed.

  (** ** C38: which files are compiled, and into what *)
  Theorem C38_compiled ho : orders_ok ho ->
    (exists fuel c, generate_parser fuel ho s = Ok (GCode c)) <->
    exists rules, file_or_empty s rules /\ lefts_declared rules /\ forallb rule_emits rules = true.
  Proof using Hfit.
    intros Hho. destruct (C46_answers ho Hho) as (f0 & o & H0 & H). split.
    - intros (fuel & c & Hc). assert (o = Ok (GCode c)) as ->.
      { rewrite <- (H0 (Nat.max f0 fuel)) by lia. rewrite <- Hc. apply generate_mono; [lia|]. by rewrite Hc. }
      destruct H as [(q & rules & _ & _ & _ & [=])|(rules & Hf & [(H1 & H2 & _)|(_ & x & [=])])]. exists rules. done.
    - intros (rules & Hf & H1 & H2). destruct H as [(q & rules' & Hn & _)|(rules' & Hf' & H)]; [by apply Hn in Hf|].
      rewrite (file_or_empty_unique _ _ _ Hf Hf') in *. destruct H as [(_ & _ & c & -> & _)|(Hn & _)]; [|by destruct Hn].
      exists f0, c. by apply H0.
  Qed.
  Theorem C38_code fuel ho rules c : orders_ok ho -> generate_parser fuel ho s = Ok (GCode c) -> file_or_empty s rules -> generated_for rules c.
  Proof using Hfit.
    intros Hho H Hf. destruct (generate_spec fuel ho s c (fits_len _ Hfit) (proj1 Hfit) Hho H) as (rules' & Hf' & Hg & _).
    by rewrite (file_or_empty_unique _ _ _ Hf Hf').
  Qed.
  (** An empty file is compiled although it spells no rules. *)
  Theorem C38_empty_file rules : file_or_empty [] rules -> rules = [] /\ forall rules', ~ file_text [] rules'.
  Proof using.
    intros Hf. assert (He : file_or_empty [] []) by (by right). split; [by eapply file_or_empty_unique|].
    intros rules' H. assert (E : file_or_empty [] rules') by (by left). rewrite (file_or_empty_unique _ _ _ E He) in H. by destruct H as (? & ? & _).
  Qed.

  (** ** C37: syntax errors *)
  Theorem C37_syntax_error ho : orders_ok ho -> forall fuel n, generate_parser fuel ho s = Ok (GSyntaxError n) ->
    (forall rules, ~ file_or_empty s rules) /\ exists q rules, reads_up_to s q rules /\ q < len /\ n = line_of s q.
  Proof using Hfit.
    intros Hho fuel n Hn. destruct (C46_answers ho Hho) as (f0 & o & H0 & H). assert (o = Ok (GSyntaxError n)) as ->.
    { rewrite <- (H0 (Nat.max f0 fuel)) by lia. rewrite <- Hn. apply generate_mono; [lia|]. by rewrite Hn. }
    destruct H as [(q & rules & H1 & H2 & H3 & [= ->])|(rules & Hf & [(_ & _ & c & [=] & _)|(_ & x & [=])])]. split; [done|]. by exists q, rules.
  Qed.
  Theorem C37_reported ho : orders_ok ho -> (forall rules, ~ file_or_empty s rules) ->
    exists fuel0 n, forall fuel, (fuel0 <= fuel)%nat -> generate_parser fuel ho s = Ok (GSyntaxError n).
  Proof using Hfit.
    intros Hho Hn. destruct (C46_answers ho Hho) as (f0 & o & H0 & [(q & rules & _ & _ & _ & ->)|(rules & Hf & _)]); [by exists f0, (line_of s q)|by apply Hn in Hf].
  Qed.

  (** ** C33: what is generated does not depend on hash orders *)
  Theorem C33_same_code ho ho' : orders_ok ho -> orders_ok ho' ->
    exists fuel0, forall fuel, (fuel0 <= fuel)%nat -> generate_parser fuel ho s = generate_parser fuel ho' s.
  Proof using Hfit. destruct Hfit. by apply generate_order. Qed.
End theorems.

(** count_lines itself. *)
Theorem C37_count_lines s p : p <= N.of_nat (length s) -> count_lines s p = Ok (line_of s p).
Proof.
  intros Hp. unfold count_lines, slice_bytes. destruct (N.leb_spec 0 p); [|lia]. destruct (N.leb_spec p (N.of_nat (length s))); [|lia].
  cbn [andb rbind]. rewrite N.sub_0_r. done.
Qed.

(** ** C45: comments cannot inject code *)
Lemma split_lines_clean l : Forall (fun x => 10 ∉ x) (split_lines l).
Proof.
  induction l as [|c l IH]; simpl.
  - constructor; [apply not_elem_of_nil|constructor].
  - destruct (N.eqb_spec c 10); [constructor; [apply not_elem_of_nil|done]|].
    destruct (split_lines l) as [|x r]; [constructor; [|constructor]; intros H; apply elem_of_list_singleton in H; congruence|].
    apply list.Forall_cons in IH as [H1 H2]. constructor; [|done]. intros H. apply elem_of_cons in H as [H|H]; congruence || done.
Qed.
Lemma trim_start_sub l c : c ∈ trim_start l -> c ∈ l.
Proof. induction l as [|x l IH]; simpl; [done|]. destruct (is_space x); [|done]. intros H. right. auto. Qed.
Lemma trim_sub l c : c ∈ trim l -> c ∈ l.
Proof.
  assert (Hr : forall l : list N, c ∈ rev l -> c ∈ l) by (intros l0; rewrite !elem_of_list_In, <- in_rev; done).
  unfold trim. intros H. apply trim_start_sub. apply Hr. apply trim_start_sub. by apply Hr.
Qed.
Theorem C45_comments_stay_comments s fuel ho c f : fits s -> orders_ok ho -> generate_parser fuel ho s = Ok (GCode c) ->
  f ∈ gc_fns c -> Forall (fun line => 10 ∉ line) (gf_comment f).
Proof.
  intros Hfit Hho H Hin. destruct (generate_spec fuel ho s c (fits_len _ Hfit) (proj1 Hfit) Hho H) as (rules & Hf & Hg & _).
  destruct (ge_refs _ _ Hg) as (inv & inl & _ & HF). apply elem_of_list_lookup in Hin as [k Hk].
  destruct (Forall2_lookup_r _ _ _ _ _ HF Hk) as (r & _ & Hfn). rewrite (fu_comment _ _ _ _ _ Hfn). unfold comment_of.
  destruct (list.last (dr_comments r)) as [l|]; [|constructor]. apply list.Forall_fmap. eapply list.Forall_impl; [apply split_lines_clean|].
  intros x Hx. simpl. intros Ht. by apply Hx, trim_sub.
Qed.

(** ** C36: the emitted statements, read as Rust, are the rules *)
Lemma all_some_forall2 {A B C} (R : A -> B -> Prop) (f : A -> option C) (g : B -> option C) l m :
  Forall2 R l m -> (forall a b, R a b -> g b = f a) -> all_some (map g m) = all_some (map f l).
Proof. intros H Hfg. induction H as [|a b l m Hab _ IH]; [done|]. simpl. by rewrite (Hfg _ _ Hab), IH. Qed.
Theorem C36_code s fuel ho rules c : fits s -> orders_ok ho -> generate_parser fuel ho s = Ok (GCode c) -> file_or_empty s rules ->
  exists involved is_inline enum, refs_resolved rules involved is_inline /\ enum_for rules enum /\ gc_size c = N.of_nat (length enum) /\
    let fns := map (fun r => to_lowercase (dr_name r)) rules in
    let hooks := concat (map (fun r => hooks_of (dr_body r)) rules) in
    code_table c = if decide (names_accepted fns enum hooks)
      then all_some (map (fun r => compile (Scope fns enum hooks) involved is_inline (dr_body r)) rules) else None.
Proof.
  intros Hfit Hho H Hf. pose proof (C38_code s Hfit fuel ho rules c Hho H Hf) as [(inv & inl & Hr & HF) Him Hen Hsz].
  exists inv, inl, (gc_enum c). split; [done|]. split; [done|]. split; [done|]. cbv zeta.
  assert (Efn : map gf_name (gc_fns c) = map (fun r => to_lowercase (dr_name r)) rules).
  { clear -HF. induction HF as [|r f rs fs [H _ _] _ IH]; [done|]. simpl. by rewrite H, IH. }
  unfold code_table. rewrite Efn, Him. destruct (decide _); [|done]. unfold scope_of. rewrite Efn, Him.
  eapply (all_some_forall2 _ _ _ _ _ HF). intros r f [_ _ H3]. unfold scope_of in H3. rewrite Efn, Him in H3. exact H3.
Qed.

(** ** Concrete cases *)
Definition as_is : hash_order := fun V l => l.
Definition as_is_orders : hash_orders := HashOrders (fun _ => as_is) as_is (fun _ => as_is) as_is.
Definition backwards : hash_order := fun V l => rev l.
Definition backwards_orders : hash_orders := HashOrders (fun _ => backwards) backwards (fun _ => backwards) backwards.
Lemma as_is_ok : orders_ok as_is_orders.
Proof. split_and!; intros; try done; intros V l; done. Qed.
Lemma backwards_ok : orders_ok backwards_orders.
Proof. split_and!; intros; intros V l; symmetry; apply Permutation_rev. Qed.
Lemma ascii_utf8 l : forallb (fun c => c <? 128) l = true -> utf8 l.
Proof. induction l as [|c l IH]; simpl; [constructor|]. intros [H1%N.ltb_lt H2]%andb_true_iff. constructor; auto. Qed.
Definition demo : list N := bytes "<Grammar>=<Sum>,'.';
<Sum>=(<Sum>,'+',<Num>)/<Num>;#left recursive#
<Num> Inline=['0'..'9']+;".
Example demo_fits : fits demo.
Proof. split; [apply ascii_utf8; vm_compute; done|]. vm_compute. done. Qed.
Definition demo_code : gen_code := match generate_parser 300 as_is_orders demo with Ok (GCode c) => c | _ => GenCode [] [] [] 0 end.
Example demo_compiled : generate_parser 300 as_is_orders demo = Ok (GCode demo_code) /\
  code_table demo_code = Some [ESeq (ELR [1] 1 1) (ETerminal 46);
    EChoice (ESub (ESeq (ESeq (ELR [1] 1 1) (ETerminal 43)) (EInline 2))) (EInline 2);
    EPlus (ERange 48 57)] /\ gc_enum demo_code = [bytes "Grammar"; bytes "Sum"].
Proof. vm_compute. done. Qed.
Example demo_code_other_order : generate_parser 300 backwards_orders demo = Ok (GCode demo_code).
Proof. vm_compute. done. Qed.
Example demo_rules : exists rules, file_or_empty demo rules /\ lefts_declared rules /\ forallb rule_emits rules = true.
Proof. apply (C38_compiled demo demo_fits as_is_orders as_is_ok). exists 300%nat, demo_code. apply demo_compiled. Qed.
Example demo_syntax_error : generate_parser 300 as_is_orders (bytes "<A>='a';
<B>='b'
<C>='c';") = Ok (GSyntaxError 2).
Proof. vm_compute. done. Qed.
Example demo_undeclared : exists x, generate_parser 300 as_is_orders (bytes "<A>=<B>,'a';") = Panic x.
Proof. eexists. vm_compute. done. Qed.
Example demo_empty_comment : exists x, generate_parser 300 as_is_orders (bytes "<A>='a';##") = Panic x.
Proof. eexists. vm_compute. done. Qed.
