(** Theorems C63: the RefCells of a parse are never borrowed in conflict. *)
From Verif Require Import Borrow Release SpecProgram SpecSession SpecSafe ProofBasics ProofSound ProofSafe TheoremsKernel TheoremsLR TheoremsHook TheoremsRelease Checks ExampleTables.
Local Open Scope N_scope.

(** What the model without borrow flags computes, the flags being [b]
    throughout. *)
Definition beside {U A} (b : cells) (r : res (A * pstate U)) : res (A * cell_state U) :=
  match r with Ok (a, st) => Ok (a, PState (st_ctx st) (st_user st, b)) | Panic p => Panic p | NoFuel => NoFuel end.
Definition ignores {U A} (b : cells) (M1 : M (cell_state U) A) (M0 : M (pstate U) A) : Prop :=
  forall c u, M1 (PState c (u, b)) = beside b (M0 (PState c u)).
Definition parser_ignores {U} (b : cells) (F : cell_parser U) (f : parser U) : Prop := forall k i, ignores b (F k i) (f k i).

Section ignores.
  Context {U : Type} (x : cell).
  Notation b := (Cells Free x).
  Notation ig := (ignores (U:=U) b).
  Lemma ig_ret {A} (a : A) : ig (mret a) (mret a). Proof. by intros c u. Qed.
  Lemma ig_panic {A} p : ig (mpanic p : M _ A) (mpanic p). Proof. by intros c u. Qed.
  Lemma ig_nofuel {A} : ig (mnofuel : M _ A) mnofuel. Proof. by intros c u. Qed.
  Lemma ig_bind {A B} (m1 : M _ A) (m0 : M _ A) (f1 : A -> M _ B) (f0 : A -> M _ B) : ig m1 m0 -> (forall a, ig (f1 a) (f0 a)) -> ig (mbind' m1 f1) (mbind' m0 f0).
  Proof. intros H Hf c u. unfold mbind'. rewrite H. destruct (m0 (PState c u)) as [[a [c' u']]| |]; cbn; [apply Hf|done..]. Qed.
  Lemma ig_write_with {A} (f : context -> res (A * context)) : ig (write_with f) (with_ctx f).
  Proof. intros c u. unfold write_with, borrow_mut_context, drop_context, with_ctx, mbind', mret, flags, with_flags. cbn. destruct (f c) as [[a c']| |]; done. Qed.
  Lemma ig_read_with {A} (f : context -> res (A * context)) : ig (read_with f) (with_ctx f).
  Proof. intros c u. unfold read_with, borrow_context, drop_context, with_ctx, mbind', mret, flags, with_flags. cbn. destruct (f c) as [[a c']| |]; done. Qed.
  Lemma ig_write f : ig (write f) (upd_ctx f).
  Proof. intros c u. unfold write, borrow_mut_context, drop_context, upd_ctx, with_ctx, mbind', mret, flags, with_flags. cbn. destruct (f c) as [c'| |]; done. Qed.
  Lemma ig_read : ig read_context get_ctx.
  Proof. by intros c u. Qed.
  Lemma ig_check rule i : ig (write_with (fun c => Ok (check c rule i, c))) (do c <- get_ctx; mret (check c rule i)).
  Proof. by intros c u. Qed.
  Lemma ig_source {A} (r : res A) : ig (fun st => let! o := r in Ok (o, st)) (fun st => let! o := r in Ok (o, st)).
  Proof. intros c u. by destruct r. Qed.
End ignores.

(** Walk down both programs at once. *)
Local Ltac walk := repeat (cbv beta zeta in *; first
  [ assumption | apply ig_ret | apply ig_panic | apply ig_nofuel | apply ig_read | apply ig_write | apply ig_write_with | apply ig_read_with
  | match goal with
    | H : parser_ignores _ ?f ?g |- ignores _ (?f _ _) (?g _ _) => apply H
    | H : forall _, _ |- ignores _ _ _ => solve [apply H]
    | |- parser_ignores _ _ _ => intros ? ?
    | |- ignores _ (mbind' _ _) (mbind' _ _) => apply ig_bind; [|intros ?]
    | |- ignores _ (read_char _ _) (read_char _ _) => intros ? ?; unfold read_char; match goal with |- context [get_char ?a ?b] => destruct (get_char a b); reflexivity end
    | |- ignores _ (incr ?i) (incr ?i) => unfold incr
    | |- ignores _ (if ?b then _ else _) _ => destruct b
    | |- ignores _ (match ?x with _ => _ end) _ => destruct x
    end ]).

Section kernels.
  Context {U : Type} (x : cell).
  Notation b := (Cells Free x).
  Notation pig := (parser_ignores (U:=U) b).
  Lemma loop_ig fuel F f : pig F f -> forall k i, ignores b (repeat_loop fuel F k i) (repeat_loop fuel f k i).
  Proof. intros H. induction fuel as [|n IH]; intros k i; cbn [repeat_loop]; walk. Qed.
  Lemma string_ig src i data : forall j, ignores (U:=U) b (string_terminal_loop src i data j) (string_terminal_loop src i data j).
  Proof. induction data as [|c data IH]; intros j; cbn [string_terminal_loop]; walk. Qed.
  Lemma default_ig r F f : pig F f -> forall k i, ignores b (default_behaviour_cell F r k i) (default_behaviour f r k i).
  Proof.
    intros H k i. apply ig_bind; [apply ig_write_with|]. intros key. apply ig_bind; [apply H|]. intros o c u.
    unfold mbind', mret, borrow_mut_context, drop_context, flags, with_flags, upd_ctx, with_ctx. cbn.
    destruct (update_publisher_entry _ _ _ _ _) as [c1| |]; cbn; [|done..]. destruct (ctx_connect _ _ _) as [c2| |]; done.
  Qed.
  Lemma var_ig r F f : pig F f -> pig (var_name_kernel_cell r F) (var_name_kernel r f).
  Proof. intros H k i. pose proof (default_ig r F f H). unfold var_name_kernel_cell, var_name_kernel, memoized_behaviour_cell, memoized_behaviour. walk. Qed.
  Lemma growth_ig F f r parent pos prev : pig F f -> forall fuel last lk ck,
    ignores b (growth_loop_cell fuel r parent pos F prev last lk ck) (growth_loop fuel r parent pos f prev last lk ck).
  Proof.
    intros H fuel. induction fuel as [|n IH]; intros last lk ck; cbn [growth_loop growth_loop_cell]; [walk|].
    apply ig_bind; [apply ig_write|]. intros _. apply ig_bind; [apply H|]. intros o c u.
    match goal with |- mbind' _ ?K _ = beside _ (mbind' _ ?K0 _) => change (K (check c r pos) (PState c (u, b)) = beside b (K0 c (PState c u))) end.
    cbv beta. generalize (check c r pos) as m. intros m.
    match goal with |- ?l (PState c (u, _)) = beside _ (?r0 (PState c u)) => cut (ignores b l r0); [intros HH; apply HH|] end. clear c u.
    destruct m as [[[? ?] ?]|]; walk.
  Qed.
  Lemma should_ig r i : ignores (U:=U) b (should_go_into_growth_function_cell r i) (should_go_into_growth_function r i).
  Proof.
    intros c u. unfold should_go_into_growth_function_cell, should_go_into_growth_function, mbind', mret, borrow_mut_context, drop_context, flags, with_flags, get_ctx, upd_ctx, with_ctx. cbn.
    destruct (get_current_active_lr_position c) as [lr|] eqn:E; cbn; [|by rewrite E]. destruct (check_head c r i); cbn; [done|].
    destruct (rule_in_involved_set c lr r) as [[]| |]; cbn; [done| |done..]. by rewrite E.
  Qed.
  Lemma lr_ig fuel inv r F f : pig F f -> pig (var_name_kernel_indirect_left_recursion_cell fuel inv r F) (var_name_kernel_indirect_left_recursion fuel inv r f).
  Proof.
    intros H k i. pose proof (fun rr pa po pv => growth_ig F f rr pa po pv H) as HG. pose proof (should_ig r i) as HS.
    unfold var_name_kernel_indirect_left_recursion_cell, var_name_kernel_indirect_left_recursion, growth_function_cell, growth_function. walk.
  Qed.
  (** Hand-written hooks: when the closure they wrap leaves the flags as it
      finds them, so do they, and they do not run into a conflict. *)
  Definition hooks_ignore (prb : program (U * cells)) (pr : program U) (src : source) : Prop :=
    forall h F f, pig F f -> pig (pr_hook prb h src F) (pr_hook pr h src f).
  Lemma eval_ig prb pr src : pr_fn prb = pr_fn pr -> hooks_ignore prb pr src -> forall fuel e, pig (eval_cell prb src fuel e) (eval pr src fuel e).
  Proof.
    intros Hfn Hh fuel. induction fuel as [|n IH]; intros e; [by intros k i c u|]. cbn [eval eval_cell].
    assert (Hcall : forall f, pig (fun key position => match pr_fn prb f with Some body => eval_cell prb src n body key position | None => mpanic PNoFunction end)
                              (fun key position => match pr_fn pr f with Some body => eval pr src n body key position | None => mpanic PNoFunction end)).
    { intros f k i. rewrite Hfn. destruct (pr_fn pr f); [apply IH|apply ig_panic]. }
    destruct e; try (intros k i).
    - unfold terminal_kernel. walk.
    - apply string_ig.
    - unfold ordered_choice_match_range_kernel. walk.
    - pose proof (IH e1). pose proof (IH e2). unfold sequence_kernel. walk.
    - pose proof (IH e1). pose proof (IH e2). unfold ordered_choice_kernel. walk.
    - pose proof (IH e). unfold and_predicate_kernel. walk.
    - pose proof (IH e). unfold not_predicate_kernel. walk.
    - pose proof (loop_ig n _ _ (IH e)). pose proof (IH e). unfold one_or_more_kernel. walk.
    - apply loop_ig, IH.
    - pose proof (IH e). unfold optional_kernel. walk.
    - pose proof (IH e). unfold subexpression_kernel. walk.
    - by apply var_ig.
    - apply Hcall.
    - by apply lr_ig.
    - by apply Hh.
  Qed.
End kernels.

(** A parser that borrows its cells computes what the one without cells does:
    no borrow is refused, and all flags are back where they were at the end.
    The user state may be borrowed all along if no hook minds. *)
Theorem C63_borrows {U} (prb : program (U * cells)) (pr : program U) src x fuel e k i c u :
  pr_fn prb = pr_fn pr -> hooks_ignore x prb pr src ->
  eval_cell prb src fuel e k i (PState c (u, Cells Free x)) =
  match eval pr src fuel e k i (PState c u) with
  | Ok (o, st) => Ok (o, PState (st_ctx st) (st_user st, Cells Free x))
  | Panic p => Panic p
  | NoFuel => NoFuel
  end.
Proof. intros Hfn Hh. apply (eval_ig x prb pr src Hfn Hh fuel e). Qed.

(** The whole parse. *)
Theorem C63_parse {U} (prb : program (U * cells)) (pr : program U) u0 fuel e s :
  pr_fn prb = pr_fn pr -> pr_grammar prb = pr_grammar pr -> hooks_ignore Free prb pr (source_new s) ->
  parse_with_cells prb u0 fuel e s = parse_with pr u0 fuel e s.
Proof.
  intros Hfn Hg Hh. unfold parse_with_cells, parse_with, run_entry. rewrite (C63_borrows prb pr) by done. rewrite Hg.
  by destruct (eval _ _ _ _ _ _ _) as [[[b q] [c u]]| |].
Qed.

(** Generated parsers without hooks never panic on a borrow, at any point of
    any session. *)
Theorem C63_no_conflict {U} (pr : program U) fn s u0 st fuel e pos x :
  N.of_nat (length s) < u32_modulus -> program_wf pr fn -> no_hooks pr ->
  session pr (expr_wf pr fn) s u0 st -> expr_wf pr fn e -> pos <= N.of_nat (length s) ->
  eval_cell (without_hooks pr) (source_new s) fuel e 0 pos (PState (st_ctx st) (st_user st, Cells Free x)) <> Panic PBorrow.
Proof.
  intros Hs Hpr Hnh HS He Hpos.
  rewrite (C63_borrows (without_hooks pr) pr) by (try done; intros h F f HF; rewrite Hnh; exact HF).
  assert (Hh : hooks_behave (N.of_nat (length s)) (memo_claim pr s fn) key_overflow pr (source_new s)) by (by apply no_hooks_behave).
  pose proof (eval_safe pr s fn Hs key_overflow eq_refl Hpr Hh fuel e He root_open st 0 pos (session_usable pr fn s u0 Hs Hpr key_overflow eq_refl Hh st HS) eq_refl Hpos) as H.
  destruct st as [c u]. cbn [st_ctx st_user].
  destruct (eval pr (source_new s) fuel e 0 pos (PState c u)) as [[o st']|[]|]; done.
Qed.

(** With hooks: those that keep to the contract of SpecSafe.v, leave the flags
    alone and do not run into a conflict of their own. *)
Theorem C63_no_conflict_hooks {U} (prb : program (U * cells)) (pr : program U) fn s u0 (Pp : panic -> Prop) st fuel e pos x :
  N.of_nat (length s) < u32_modulus -> program_wf pr fn -> Pp PKeyOverflow -> ~ Pp PBorrow ->
  hooks_behave (N.of_nat (length s)) (memo_claim pr s fn) Pp pr (source_new s) ->
  pr_fn prb = pr_fn pr -> hooks_ignore x prb pr (source_new s) ->
  session pr (expr_wf pr fn) s u0 st -> expr_wf pr fn e -> pos <= N.of_nat (length s) ->
  eval_cell prb (source_new s) fuel e 0 pos (PState (st_ctx st) (st_user st, Cells Free x)) <> Panic PBorrow.
Proof.
  intros Hs Hpr HK HB Hh Hfn Hi HS He Hpos. rewrite (C63_borrows prb pr) by done.
  pose proof (eval_safe pr s fn Hs Pp HK Hpr Hh fuel e He root_open st 0 pos (session_usable pr fn s u0 Hs Hpr Pp HK Hh st HS) eq_refl Hpos) as H.
  destruct st as [c u]. cbn [st_ctx st_user].
  destruct (eval pr (source_new s) fuel e 0 pos (PState c u)) as [[o st']|[]|]; done.
Qed.

(** The crate with a hook: its hook lets go of the user state before it
    returns, and does not hold it while it calls the closure. *)
Lemma ex11_hooks_ignore src : hooks_ignore Free ex11_program_cell ex11_program src.
Proof.
  intros h F f HF. cbn [pr_hook ex11_program ex11_program_cell]. destruct (h =? _); [|done]. intros k i. unfold unique_line_cache, unique_line_cache_cell.
  apply ig_bind; [apply HF|]. intros [b q]. cbn [fst snd]. destruct b; [|apply ig_ret]. intros c u.
  unfold mbind', mret, mpanic, borrow_mut_user, drop_user, flags, with_flags. destruct (get_string src i q) as [[l|]| |]; cbn; try done.
  destruct (bool_decide _); done.
Qed.
Theorem C63_hook_no_conflict s fuel e pos st : N.of_nat (length s) < u32_modulus ->
  session ex11_program (expr_wf ex11_program ex11_fn) s [] st -> expr_wf ex11_program ex11_fn e -> pos <= N.of_nat (length s) ->
  eval_cell ex11_program_cell (source_new s) fuel e 0 pos (PState (st_ctx st) (st_user st, Cells Free Free)) <> Panic PBorrow.
Proof.
  intros Hs. apply (C63_no_conflict_hooks ex11_program_cell ex11_program ex11_fn s [] (fun p => p = PKeyOverflow \/ p = PStrSlice)); try done.
  - exact ex11_wf.
  - by left.
  - by intros [].
  - by apply C31_hook_behaves.
  - apply ex11_hooks_ignore.
Qed.
Definition same_with_cells {U} (prb : program (U * cells)) (pr : program U) (u0 : U) (e : expr) : Prop :=
  forall fuel s, parse_with_cells prb u0 fuel e s = parse_with pr u0 fuel e s.
Lemma table_same_with_cells table gr e : same_with_cells (without_hooks (table_program (U:=unit) table gr)) (table_program table gr) tt e.
Proof. intros fuel s. apply C63_parse; [done..|]. intros h F f HF. exact HF. Qed.
Theorem C63_shipped :
  Forall (fun '(p, e) => same_with_cells (without_hooks p) p tt e)
    [(dsl_program, dsl_entry); (ex1_program, ex1_entry); (ex2_program, ex2_entry); (ex3_program, ex3_entry); (ex4_program, ex4_entry); (ex5_program, ex5_entry);
     (ex6_program, ex6_entry); (ex7_program, ex7_entry); (ex8_program, ex8_entry); (ex9_program, ex9_entry); (ex10_program, ex10_entry)] /\
  same_with_cells ex11_program_cell ex11_program [] ex11_entry.
Proof. split; [repeat apply List.Forall_cons; try apply table_same_with_cells; apply List.Forall_nil|]. intros fuel s. apply C63_parse; [done..|apply ex11_hooks_ignore]. Qed.

(** A hook that keeps the context borrowed, in either way, while it calls the
    closure: every rule call in the closure panics. *)
Theorem C63_context_held {U} (prb : program (U * cells)) src n r f k i c u b :
  context_cell b <> Free -> eval_cell prb src (S n) (EVar r f) k i (PState c (u, b)) = Panic PBorrow.
Proof.
  intros Hb. cbn [eval_cell]. unfold var_name_kernel_cell, read_context, memoized_behaviour_cell, default_behaviour_cell, write, write_with, mbind', borrow_context, borrow_mut_context, drop_context, get_ctx, mret, flags, with_flags.
  destruct b as [cc cu]. destruct cc as [|m|]; cbn in *; [done| |done]. by destruct (check c r i) as [[[? ?] ?]|].
Qed.
(** A hook that keeps the user state while it calls the closure works as long
    as no other hook runs below it, and panics when it is used twice, one
    inside the other. *)
Definition holding (src : source) (func : cell_parser unit) : cell_parser unit := fun k i =>
  do _ <- borrow_mut_user; do o <- func k i; do _ <- drop_user; mret o.
Definition holding_program (inner : expr) : program (unit * cells) :=
  Program (fun f => if f =? 0 then Some (EHook 0 inner) else if f =? 1 then Some (EHook 0 (ETerminal 97)) else None) (fun _ => holding) 0.
Theorem C63_user_held :
  (exists p, parse_with_cells (holding_program (ETerminal 97)) tt 10 (EVar 0 0) [97] = Ok (true, 1, p)) /\
  parse_with_cells (holding_program (EVar 1 1)) tt 10 (EVar 0 0) [97] = Panic PBorrow.
Proof. split; [eexists|]; vm_compute; reflexivity. Qed.
(** Instance of the hypotheses, with the user state borrowed throughout. *)
Definition seen (r : res ((bool * N) * cell_state unit)) : option (bool * N * cells) := match r with Ok (o, st) => Some (o, snd (st_user st)) | _ => None end.
Example C63_instance :
  seen (eval_cell (without_hooks ex6_program) (source_new (bytes "1+2*3")) 60 ex6_entry 0 0 (PState (context_new ex6_R_Grammar) (tt, Cells Free Exclusive))) = Some (true, 5, Cells Free Exclusive).
Proof. vm_cast_no_check (eq_refl (Some (true, 5, Cells Free Exclusive))). Qed.
