(** What it means for a node store to be usable while a parse is running, and
    for a closure (a combinator, a rule, a user hook) to be well behaved. *)
From Verif Require Export SpecProgram SpecCfg.

(** Well-formed generated programs, with left-recursive entries and hooks
    allowed: called functions exist and a rule label always goes with the same
    function. *)
Fixpoint expr_wf {U} (pr : program U) (fn : N -> N) (e : expr) : Prop :=
  match e with
  | ETerminal _ | EString _ | ERange _ _ => True
  | ESeq l r | EChoice l r => expr_wf pr fn l /\ expr_wf pr fn r
  | EAnd e | ENot e | EPlus e | EStar e | EOpt e | ESub e | EHook _ e => expr_wf pr fn e
  | EVar r f | ELR _ r f => fn r = f /\ is_Some (pr_fn pr f)
  | EInline f => is_Some (pr_fn pr f)
  end.
Definition program_wf {U} (pr : program U) (fn : N -> N) : Prop :=
  forall f e, pr_fn pr f = Some e -> expr_wf pr fn e.

(** [closed O p k]: the walk along children from [k] is finite, all its keys
    exist, and it never meets a key of a call still in progress ([O]). *)
Inductive closed (O : N -> Prop) (p : publisher) : N -> Prop :=
  | closed_intro k n :
      ~ O k -> p_nodes p !! k = Some n ->
      (forall c, c ∈ n_children n -> closed O p c) -> closed O p k.

Definition all_keys_exist (p : publisher) : Prop := forall k, is_Some (p_nodes p !! k) <-> k < p_len p.

(** A span [i..q) with property [Q] inside a text of length [L]. *)
Definition within (L : N) (Q : N -> N -> Prop) (i q : N) : Prop := Q i q /\ i <= q <= L.

(** A usable parser state for a text of length [L]: [O] are the keys of the
    calls in progress and [D r i q] the claim memoised by a success of rule [r]
    on [i..q). *)
Record usable {U} (L : N) (D : N -> N -> N -> Prop) (O : N -> Prop) (st : pstate U) : Prop := mkUsable {
  us_keys : all_keys_exist (cx_pub (st_ctx st));
  us_open : forall k, O k -> k < p_len (cx_pub (st_ctx st));
  us_below : forall k n c, O k -> p_nodes (cx_pub (st_ctx st)) !! k = Some n ->
      c ∈ n_children n -> closed O (cx_pub (st_ctx st)) c;
  us_all : forall k, k < p_len (cx_pub (st_ctx st)) -> ~ O k -> closed O (cx_pub (st_ctx st)) k;
  us_memo : forall r i b q k, check (st_ctx st) r i = Some (b, q, k) ->
      closed O (cx_pub (st_ctx st)) k /\ (b = false -> q = i) /\ (b = true -> within L (D r) i q);
  us_active : forall key, get_current_active_lr_position (st_ctx st) = Some key ->
      is_Some (c_heads (cx_cache (st_ctx st)) !! key);
}.

(** What a call may do to the state: the active left recursion is back to what
    it was, recursion heads are kept, finished subtrees stay finished. *)
Record preserved {U} (O : N -> Prop) (st st' : pstate U) : Prop := mkPreserved {
  pv_active : get_current_active_lr_position (st_ctx st') = get_current_active_lr_position (st_ctx st);
  pv_heads : forall key, is_Some (c_heads (cx_cache (st_ctx st)) !! key) ->
      is_Some (c_heads (cx_cache (st_ctx st')) !! key);
  pv_closed : forall k, closed O (cx_pub (st_ctx st)) k -> closed O (cx_pub (st_ctx st')) k;
  pv_len : p_len (cx_pub (st_ctx st)) <= p_len (cx_pub (st_ctx st'));
}.

(** [behaves L D Pp Q f]: called at a position of the text, under an open
    parent, in any usable state, the closure either panics with a panic allowed
    by [Pp], or answers; a failure hands back the start position, a success
    covers a span inside the text that satisfies [Q]; the state stays usable. *)
Definition behaves {U} (L : N) (D : N -> N -> N -> Prop) (Pp : panic -> Prop) (Q : N -> N -> Prop) (f : parser U) : Prop :=
  forall (O : N -> Prop) st parent pos, usable L D O st -> O parent -> pos <= L ->
    match f parent pos st with
    | Ok ((b, q), st') =>
        (b = false -> q = pos) /\ (b = true -> within L Q pos q) /\ usable L D O st' /\ preserved O st st'
    | Panic p => Pp p
    | NoFuel => True
    end.

(** Hooks allowed: a hook turns a well behaved closure into a well behaved
    closure, for every span property (so it can veto a match, repeat it on a
    changed user state, ... but not invent spans). *)
Definition hooks_behave {U} (L : N) (D : N -> N -> N -> Prop) (Pp : panic -> Prop) (pr : program U) (src : source) : Prop :=
  forall h Q f, behaves L D Pp Q f -> behaves L D Pp Q (pr_hook pr h src f).
