(** Theorem C55: the JSON grammar of the examples directory. *)
From Verif Require Import DslSources TheoremsGenerator TheoremsBootstrap Generator Programs TheoremsText Render SpecRust SpecCode SpecDsl DslReader ProofReader GrammarChecks ProofGenTotal ProofGenerate ProofFirst.
From stdpp Require Import relations gmap.
From Verif Require Import SpecMeaning TheoremsMeaning TheoremsTermination.
Local Open Scope N_scope.

(** The file without one line: the rule <wsc>, which no other rule uses. *)
Definition wsc_line : list N := bytes "<wsc> = 0x000D;
".
Fixpoint starts (l s : list N) : bool :=
  match l, s with [], _ => true | a :: l, b :: s => (a =? b) && starts l s | _, _ => false end.
Fixpoint without (l s : list N) : list N :=
  match s with [] => [] | c :: t => if starts l s then drop (length l) s else c :: without l t end.
Definition json_repaired := without wsc_line json_source.
Example json_repaired_shorter : length json_source = (length wsc_line + length json_repaired)%nat.
Proof. vm_compute. reflexivity. Qed.

Lemma json_fits : fits json_source.
Proof. split; [apply ascii_utf8; vm_compute; done|]. vm_compute. done. Qed.
Definition the_code (r : res gen_outcome) : gen_code := match r with Ok (GCode c) => c | _ => GenCode [] [] [] 0 end.
Definition json_code : gen_code := the_code (generate_parser 3000 as_is_orders json_source).
Lemma json_generates : generate_parser 3000 as_is_orders json_source = Ok (GCode json_code).
Proof. vm_compute. reflexivity. Qed.
Lemma same_code s fuel ho c fuel' ho' c' : fits s -> orders_ok ho -> orders_ok ho' ->
  generate_parser fuel ho s = Ok (GCode c) -> generate_parser fuel' ho' s = Ok (GCode c') -> c = c'.
Proof.
  intros Hfit Ho Ho' H H'. destruct (C33_same_code s Hfit ho ho' Ho Ho') as [f0 Hf].
  specialize (Hf (f0 + fuel + fuel')%nat ltac:(lia)).
  rewrite (generate_mono fuel (f0 + fuel + fuel')) in Hf; [|lia|by rewrite H].
  rewrite (generate_mono fuel' (f0 + fuel + fuel')) in Hf; [|lia|by rewrite H'].
  congruence.
Qed.
(** json.dsl is a grammar file, and the generator writes code for it, but -
    whatever the hash orders - what it writes is not Rust: the literal of
    <wsc>, written out, has a bare carriage return in it. *)
Theorem C55_json_is_not_rust : file_text json_source (rules_of json_source) /\
  (exists parser_rs rules_rs, writes json_source parser_rs rules_rs) /\
  (forall parser_rs rules_rs, writes json_source parser_rs rules_rs -> read_crate parser_rs rules_rs = None).
Proof.
  split; [apply spelled_ok; vm_compute; reflexivity|]. split.
  - exists (parser_file_content (fun _ => []) json_code), (rules_enum_file_content json_code), 3000%nat, as_is_orders, (fun _ => []), json_code.
    split; [apply as_is_ok|]. split; [exact json_generates|]. split; reflexivity.
  - intros p r (fuel & ho & dbg & c & Hho & Hc & -> & ->).
    rewrite (same_code json_source fuel ho c 3000 as_is_orders json_code json_fits Hho as_is_ok Hc json_generates).
    vm_compute. reflexivity.
Qed.

(** Without that rule it is. *)
Definition repaired_code : gen_code := the_code (generate_parser 4000 as_is_orders json_repaired).
Definition json_table : list expr := default [] (code_table repaired_code).
Definition json_fns := map gf_name (gc_fns repaired_code).
Definition json_enum := gc_enum repaired_code.
Definition json_rules := rules_of json_repaired.
Definition json_f_grammar : N := 7.
Lemma json_regenerates : regenerates json_repaired json_table json_fns [] json_enum 19.
Proof. apply regenerates_ok. vm_cast_no_check (eq_refl true). Qed.
Lemma json_checks : regular_b json_rules && no_empty_loops_b json_rules && not_left_recursive_b json_rules && first_acyclic_b json_rules &&
  entry_b json_rules json_enum grammar_name 0 json_f_grammar = true.
Proof. vm_cast_no_check (eq_refl true). Qed.
Lemma json_checked : regular json_rules /\ no_empty_loops json_rules /\ (forall n, ~ left_recursive json_rules n) /\ (forall n, ~ tc (first_calls json_rules) n n) /\
  entry_b json_rules json_enum grammar_name 0 json_f_grammar = true.
Proof.
  destruct (five_checks _ _ _ _ _ json_checks) as (H1 & H2 & H3 & H4 & H5).
  exact (conj (regular_ok _ H1) (conj (no_empty_loops_ok _ H2) (conj (not_left_recursive_ok _ H3) (conj (first_acyclic_ok _ H4) H5)))).
Qed.
Lemma repaired_table : code_table repaired_code = Some json_table.
Proof. vm_cast_no_check (eq_refl (Some json_table)). Qed.
Lemma repaired_spelled : spelled json_repaired = true.
Proof. vm_cast_no_check (eq_refl true). Qed.
Lemma enum_length : N.of_nat (length json_enum) = 19.
Proof. vm_cast_no_check (eq_refl 19). Qed.
Global Opaque json_table json_rules json_enum repaired_code.
(** The parser generated from the repaired file answers on every input what
    the file says. *)
Theorem C55_json_repaired s : 1 + 19 * (N.of_nat (length s) + 1) <= u32_modulus ->
  file_text json_repaired json_rules /\ code_table repaired_code = Some json_table /\
  exists fuel0 (b : bool) q st, means json_rules s (DRef grammar_name) 0 (if b then Some q else None) /\
    forall fuel, (fuel0 <= fuel)%nat -> run_entry (table_program json_table 0 : program unit) tt fuel (EVar 0 json_f_grammar) s = Ok ((b, q), st).
Proof.
  intros Hb. assert (Hs : N.of_nat (length s) < u32_modulus) by lia.
  split; [exact (spelled_ok _ repaired_spelled)|]. split; [exact repaired_table|].
  destruct (regenerates_crate _ _ _ _ _ _ json_regenerates repaired_spelled) as (c & Hc & Hcr). destruct json_checked as (H1 & H2 & H3 & H4 & H5).
  apply (C48_total _ _ _ _ Hcr H1 0 H2 s Hs grammar_name (EVar 0 json_f_grammar) H4 H3); [rewrite Hc|].
  - rewrite enum_length. exact Hb.
  - apply entry_ok. rewrite Hc. exact H5.
Qed.

(** But its strings have no escapes: a string it matches has no backslash. *)
Definition sstring_name : name := bytes "sstring".
Definition sstring_item : dexp := DGroup (DSeq [DNot (DGroup (DAlt [DQuoted [34]; DGroup (DSeq [DQuoted [92]; DQuoted [92]; DRef (bytes "escape")]); DQuoted [92]])); DRef (bytes "ASCII")]).
Definition sstring_body : dexp := DSeq [DQuoted [34]; DStar sstring_item; DQuoted [34]].
Example sstring_is : body_of json_rules sstring_name = Some sstring_body.
Proof. vm_compute. reflexivity. Qed.

Section strings.
  Context (rules : list drule) (s : list N).
  Notation means := (means rules s).
  Lemma occurs_one i c : occurs_at s i [c] <-> s !! N.to_nat i = Some c.
  Proof.
    unfold occurs_at. cbn [length]. rewrite <- (Nat.add_0_r (N.to_nat i)), <- lookup_drop, Nat.add_0_r. destruct (drop (N.to_nat i) s) as [|x l]; cbn.
    - split; discriminate.
    - change (take 1 (x :: l)) with [x]. split; [intros [= ->]; done|intros [= ->]; done].
  Qed.
  Lemma m_quoted c i o : means (DQuoted [c]) i o -> match o with Some j => j = i + 1 /\ s !! N.to_nat i = Some c | None => s !! N.to_nat i <> Some c end.
  Proof.
    intros H. inversion H as [e l i0 Hl Ho|e l i0 Hl Ho| | | | | | | | | | | | | | | |]; subst; cbn in Hl; injection Hl as <-.
    - split; [done|by apply occurs_one].
    - intros Hc. by apply Ho, occurs_one.
  Qed.
  Lemma m_alt_none es i : means_alt rules s es i None -> forall e, e ∈ es -> means e i None.
  Proof.
    induction es as [|e es IH]; intros H e' He; [by apply elem_of_nil in He|]. inversion H; subst. apply elem_of_cons in He as [->|He]; [done|]. by apply IH.
  Qed.
  Context (a b : dbound) (Hascii : body_of rules (bytes "ASCII") = Some (DRange a b)).
  Lemma item_inv i o : means sstring_item i (Some o) -> o = i + 1 /\ s !! N.to_nat i <> Some 92.
  Proof using Hascii.
    unfold sstring_item. intros H. inversion H as [? ? ? Hl|? ? ? Hl| | | |? ? ? H1| | | | | | | | | | | |]; subst; [by cbn in Hl|].
    inversion H1 as [? ? ? Hl|? ? ? Hl| | | | | | | | | | | | | | |? ? ? H2|]; subst; [by cbn in Hl|].
    inversion H2 as [| |? ? ? m ? H3 H4]; subst. inversion H4 as [| |? ? ? m' ? H5 H6]; subst. inversion H6; subst.
    inversion H3 as [? ? ? Hl|? ? ? Hl| | | | | | |? ? H7| | | | | | | | |]; subst; [by cbn in Hl|].
    inversion H7 as [? ? ? Hl|? ? ? Hl| | | |? ? ? H8| | | | | | | | | | | |]; subst; [by cbn in Hl|].
    inversion H8 as [? ? ? Hl|? ? ? Hl| | | | | | | | | | | | | | | |? ? ? H9]; subst; [by cbn in Hl|].
    split.
    - inversion H5 as [? ? ? Hl|? ? ? Hl| | |? ? ? ? Hb H10| | | | | | | | | | | | |]; subst; [by cbn in Hl|]. rewrite Hascii in Hb. injection Hb as <-.
      inversion H10 as [? ? ? Hl|? ? ? Hl| | | | | | | | | | | | | | | |]; subst; [by cbn in Hl|done].
    - apply (m_quoted 92 _ None). eapply m_alt_none; [exact H9|]. do 2 apply elem_of_list_further. apply elem_of_list_here.
  Qed.
  Lemma star_inv e i o : means e i o -> e = DStar sstring_item -> forall j, o = Some j -> forall k, i <= k -> k < j -> s !! N.to_nat k <> Some 92.
  Proof using Hascii.
    induction 1 as [? ? ? Hl|? ? ? Hl| | | | | | | | | | |e i He IHe|e i j o He IHe Hs IHs| | | |]; intros [= ->] j' [= E] k Hk1 Hk2; subst; try discriminate; try lia.
    apply item_inv in He as [-> Hn]. destruct (N.eq_dec k i) as [->|]; [done|]. apply (IHs eq_refl j' eq_refl); lia.
  Qed.
  Lemma sstring_inv i j : means sstring_body i (Some j) -> forall k, i <= k -> k < j -> s !! N.to_nat k <> Some 92.
  Proof using Hascii.
    unfold sstring_body. intros H. inversion H as [? ? ? Hl|? ? ? Hl| | | | | | | | | | | | | | |? ? ? H2|]; subst; [by cbn in Hl|].
    inversion H2 as [| |? ? ? m ? H3 H4]; subst. inversion H4 as [| |? ? ? m' ? H5 H6]; subst. inversion H6 as [| |? ? ? m'' ? H7 H8]; subst. inversion H8; subst.
    apply m_quoted in H3 as [-> H3], H7 as [-> H7]. intros k Hk1 Hk2. destruct (N.eq_dec k i) as [->|]; [rewrite H3; discriminate|].
    destruct (N.eq_dec k m') as [->|]; [rewrite H7; discriminate|]. apply (star_inv _ _ _ H5 eq_refl m' eq_refl); lia.
  Qed.
End strings.
Lemma ascii_is : body_of json_rules (bytes "ASCII") = Some (DRange (BHex (bytes "00")) (BHex (bytes "FF"))).
Proof. vm_compute. reflexivity. Qed.
Theorem C55_json_strings s i j : means json_rules s (DRef sstring_name) i (Some j) ->
  forall k, i <= k -> k < j -> s !! N.to_nat k <> Some 92.
Proof.
  intros H. inversion H as [? ? ? Hl|? ? ? Hl| | |? ? ? ? Hb H1| | | | | | | | | | | | |]; subst; [by cbn in Hl|]. rewrite sstring_is in Hb. injection Hb as <-.
  exact (sstring_inv _ _ _ _ ascii_is _ _ H1).
Qed.
(** A document without escapes is parsed, one with an escape is not - and one
    with a bare newline in a string is, though it is not JSON. *)
Definition the_answer (r : res ((bool * N) * pstate unit)) : option (bool * N) := match r with Ok (r, _) => Some r | _ => None end.
Definition json_answer (s : list N) : option (bool * N) :=
  the_answer (run_entry (table_program json_table 0 : program unit) tt 300 (EVar 0 json_f_grammar) s).
Example C55_json_runs :
  json_answer (bytes "{ ""a"" : [1, -2.5e3, true], ""b"" : {} }") = Some (true, 37) /\
  json_answer (bytes """a\n""") = Some (false, 0) /\
  json_answer ([34; 10; 34]) = Some (true, 3).
Proof. split_and!; vm_compute; reflexivity. Qed.
