(** Specification: what the user finds on disk after running the tool. *)
From Verif Require Export SpecAccepted SpecRust SpecPrint Tool Programs.
Local Open Scope N_scope.

(** The package directory [src] holds parser.rs and rules.rs which, read as
    Rust, are the crate [cr]. *)
Definition holds_crate (s : fsys) (src : list N) (cr : crate) : Prop :=
  exists parser_rs rules_rs, fs_files s !! (src, bytes "parser.rs") = Some (File parser_rs) /\
    fs_files s !! (src, bytes "rules.rs") = Some (File rules_rs) /\ read_crate parser_rs rules_rs = Some cr.

Definition generated_files : list (list N) := map bytes ["rules.rs"; "parser.rs"; "main.rs"; "sample_main.txt"]%string.
(** ... and around them the runtime: every other file of the runtime, except
    hand-written ones that were there before; main.rs is the sample with a
    first line that imports the package. *)
Definition holds_runtime (before after : fsys) (core src name main : list N) : Prop :=
  fs_files after !! (src, bytes "main.rs") = Some (File (sample_main_header name ++ main)) /\
  (forall n i, n ∉ generated_files -> fs_files before !! (core, n) = Some i ->
    n ∉ [bytes "hooked_calls.rs"; bytes "user_state.rs"] \/ fs_files before !! (src, n) = None -> fs_files after !! (src, n) = Some i) /\
  (forall n i, n ∈ [bytes "hooked_calls.rs"; bytes "user_state.rs"] -> fs_files before !! (src, n) = Some i -> fs_files after !! (src, n) = Some i).

(** Running a crate: the expression table with the runtime of parser/src;
    parse() starts the variant Grammar at the function grammar. *)
Definition crate_program (cr : crate) : program unit := table_program (rc_table cr) (default 0 (index_of (bytes "Grammar") (rc_variants cr))).
(** Calling rule [n]: its function, or [_var_name] with its variant. *)
Definition starts_rule (cr : crate) (n : list N) (entry : expr) : Prop :=
  exists f, index_of (to_lowercase n) (rc_fns cr) = Some f /\
    (entry = EInline f \/ exists v, index_of (first_upper n) (rc_variants cr) = Some v /\ entry = EVar v f).

(** A printed line without the key of the node. *)
Definition printed (x : print_line) : option tree_line :=
  match x with PLine d _ l i j b n => Some (TreeLine d l i j b n) | PKeyZero => None end.
(** The lines list a tree with these children of the root. *)
Definition lists (lines : list print_line) (root : N) (F : list ptree) : Prop :=
  map printed lines = map Some (listing None 0 (TNode root 0 0 true F)).
(** Every node names a rule of the file that matches its span. *)
Definition nodes_mean (rules : list drule) (variants : list name) (s : list N) (F : list ptree) : Prop :=
  forall t u, t ∈ F -> subtree u t -> exists r, r ∈ rules /\ dr_inline r = false /\ variants !! N.to_nat (t_label u) = Some (first_upper (dr_name r)) /\
    t_ok u = true /\ t_start u < t_end u <= N.of_nat (length s) /\ means rules s (DRef (dr_name r)) (t_start u) (Some (t_end u)).

(** The crate does what the grammar says. *)
Record parses (rules : list drule) (cr : crate) : Prop := {
  pa_fns : rc_fns cr = map (fun r => to_lowercase (dr_name r)) rules;
  (** every rule can be called *)
  pa_rules : forall r, r ∈ rules -> exists entry, starts_rule cr (dr_name r) entry;
  pa_variants : forall r, r ∈ rules -> dr_inline r = false -> exists v f, starts_rule cr (dr_name r) (EVar v f);
  (** whatever is matched can be derived *)
  pa_derivable : forall r entry s fuel q st, r ∈ rules -> starts_rule cr (dr_name r) entry -> N.of_nat (length s) < u32_modulus ->
    run_entry (crate_program cr) tt fuel entry s = Ok ((true, q), st) -> derives rules s (DRef (dr_name r)) 0 q;
  (** a failed call ends where it began, a successful one inside the input *)
  pa_positions : forall r entry s fuel b q st, r ∈ rules -> starts_rule cr (dr_name r) entry -> N.of_nat (length s) < u32_modulus ->
    run_entry (crate_program cr) tt fuel entry s = Ok ((b, q), st) -> (b = false -> q = 0) /\ q <= N.of_nat (length s);
  (** the tree of an answered call can be cleaned and printed, unless the copy
      runs out of keys *)
  pa_prints : forall r entry s fuel b q st, r ∈ rules -> starts_rule cr (dr_name r) entry -> N.of_nat (length s) < u32_modulus ->
    run_entry (crate_program cr) tt fuel entry s = Ok ((b, q), st) -> exists fuel0, forall fuel, (fuel0 <= fuel)%nat ->
    (exists t lines, clear_false fuel (pr_grammar (crate_program cr)) (cx_pub (st_ctx st)) = Ok t /\ print fuel t 0 (Some true) = Ok lines) \/
    clear_false fuel (pr_grammar (crate_program cr)) (cx_pub (st_ctx st)) = Panic PKeyOverflow;
  (** what is printed is a tree; without left recursion its nodes are matches of
      the rules they name *)
  pa_shows : forall r entry s fuel b q st t lines, r ∈ rules -> starts_rule cr (dr_name r) entry -> N.of_nat (length s) < u32_modulus ->
    run_entry (crate_program cr) tt fuel entry s = Ok ((b, q), st) -> clear_false fuel (pr_grammar (crate_program cr)) (cx_pub (st_ctx st)) = Ok t ->
    print fuel t 0 (Some true) = Ok lines ->
    exists F, lists lines (pr_grammar (crate_program cr)) F /\ ((forall n, ~ tc (first_calls rules) n n) -> nodes_mean rules (rc_variants cr) s F);
  (** when the left recursion of the file is visible to the generator and no
      repetition is over something that may be empty, there is an answer *)
  pa_answers : no_empty_loops rules -> (forall n, tc (first_calls rules) n n -> left_recursive rules n) ->
    forall r entry s, r ∈ rules -> starts_rule cr (dr_name r) entry -> N.of_nat (length s) < u32_modulus ->
    exists fuel0, (exists b q st, forall fuel, (fuel0 <= fuel)%nat -> run_entry (crate_program cr) tt fuel entry s = Ok ((b, q), st)) \/
      (forall fuel, (fuel0 <= fuel)%nat -> run_entry (crate_program cr) tt fuel entry s = Panic PKeyOverflow);
  (** without left recursion it is the answer of the parsing-expression grammar *)
  pa_means : (forall n, ~ tc (first_calls rules) n n) -> forall r entry s fuel b q st, r ∈ rules -> starts_rule cr (dr_name r) entry ->
    N.of_nat (length s) < u32_modulus -> run_entry (crate_program cr) tt fuel entry s = Ok ((b, q), st) ->
    means rules s (DRef (dr_name r)) 0 (if b then Some q else None) /\ (b = false -> q = 0);
  (** ... which is given on every input of ordinary length *)
  pa_total : no_empty_loops rules -> (forall n, ~ tc (first_calls rules) n n) -> forall r entry s, r ∈ rules -> starts_rule cr (dr_name r) entry ->
    1 + N.of_nat (length rules) * (N.of_nat (length s) + 1) <= u32_modulus ->
    exists fuel0 (b : bool) q st, means rules s (DRef (dr_name r)) 0 (if b then Some q else None) /\
      forall fuel, (fuel0 <= fuel)%nat -> run_entry (crate_program cr) tt fuel entry s = Ok ((b, q), st) }.

(** What parse() calls (parser/src/parse.rs:19); without a variant Grammar or a
    function grammar the package does not compile. *)
Definition parse_entry (cr : crate) : option expr :=
  match index_of (bytes "Grammar") (rc_variants cr), index_of (bytes "grammar") (rc_fns cr) with
  | Some v, Some f => Some (EVar v f) | _, _ => None end.
(** What the user of the installed program sees for an input file: the tree,
    the result, and a message exactly when the result ends before the end of
    the input; exit status 0 whether or not the input was matched. *)
Definition reports (rules : list drule) (cr : crate) (content : option (list N)) (out : list out_line) (code : N) : Prop :=
  match content with
  | None => out = [OReadError] /\ code = 1
  | Some s =>
    (from_utf8 s = false -> out = [OUtf8Error] /\ code = 2) /\
    (from_utf8 s = true -> code = 0 /\ exists nodes (b : bool) q,
      out = map ONode nodes ++ OResult b q :: (if q <? N.of_nat (length s) then [ONotToEnd q (N.of_nat (length s))] else []) /\
      (exists F, lists nodes (pr_grammar (crate_program cr)) F /\ ((forall n, ~ tc (first_calls rules) n n) -> nodes_mean rules (rc_variants cr) s F)) /\
      q <= N.of_nat (length s) /\ (b = true -> derives rules s (DRef (bytes "Grammar")) 0 q) /\ (b = false -> q = 0) /\
      ((forall n, ~ tc (first_calls rules) n n) -> means rules s (DRef (bytes "Grammar")) 0 (if b then Some q else None)))
  end.
