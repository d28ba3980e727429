(** parser/src/cache.rs and parser/src/context.rs. *)
From Verif Require Export Base Source Publisher.

(** cache.rs:5-11 — struct Head. BTreeSet<Rules> = finite set of discriminants. *)
Record head := Head {
  h_start : N;
  h_rule : N;
  h_involved : gset N;
  h_eval : gset N;
}.

(** cache.rs:13-18 — struct BasicCache. *)
Record cache := Cache {
  c_memo : gmap (N * N) (bool * N * N);     (* (rule, start) -> (is_true, end, key) *)
  c_heads : gmap (N * N) head;
  c_active : option (N * N);                (* current_active_left_recursion *)
}.

(** cache.rs:27-33 *)
Definition cache_new : cache := Cache ∅ ∅ None.

(** context.rs:54-57 — struct BasicContext. *)
Record context := Context { cx_cache : cache; cx_pub : publisher }.

(** context.rs:73-78 — BasicContext::new. *)
Definition context_new (grammar_rule : N) : context := Context cache_new (publisher_new grammar_rule).

Definition with_pub (c : context) (p : publisher) : context := Context (cx_cache c) p.
Definition with_memo (c : context) m : context :=
  Context (Cache m (c_heads (cx_cache c)) (c_active (cx_cache c))) (cx_pub c).
Definition with_heads (c : context) h : context :=
  Context (Cache (c_memo (cx_cache c)) h (c_active (cx_cache c))) (cx_pub c).

(** cache.rs:35-40, context.rs:80-85 *)
Definition get_current_active_lr_position (c : context) : option (N * N) := c_active (cx_cache c).
Definition set_current_active_lr_position (c : context) (a : option (N * N)) : context :=
  Context (Cache (c_memo (cx_cache c)) (c_heads (cx_cache c)) a) (cx_pub c).

(** cache.rs:42-52, context.rs:107-117 — create_cache_entry = cache.insert. *)
Definition create_cache_entry (c : context) (rule : N) (is_true : bool) (start_position end_position key : N)
  : context :=
  with_memo c (<[(rule, start_position) := (is_true, end_position, key)]> (c_memo (cx_cache c))).

(** cache.rs:53-55, context.rs:130-132 *)
Definition check (c : context) (rule start_position : N) : option (bool * N * N) :=
  c_memo (cx_cache c) !! (rule, start_position).

(** cache.rs:57-64, context.rs:133-135 *)
Definition check_head (c : context) (rule start_position : N) : option head :=
  c_heads (cx_cache c) !! (rule, start_position).

(** cache.rs:66-80, context.rs:144-146 *)
Definition set_head (c : context) (start_position head_rule : N) (involved : gset N) : context :=
  with_heads c (<[(head_rule, start_position) := Head start_position head_rule involved involved]>
                  (c_heads (cx_cache c))).

(** cache.rs:82-88, context.rs:87-89 *)
Definition reinitialize_eval_set (c : context) (rule start_position : N) : res context :=
  match c_heads (cx_cache c) !! (rule, start_position) with
  | None => Panic PExpectHead
  | Some h => Ok (with_heads c (<[(rule, start_position) :=
                      Head (h_start h) (h_rule h) (h_involved h) (h_involved h)]> (c_heads (cx_cache c))))
  end.

(** cache.rs:90-99, context.rs:137-139 *)
Definition rule_in_involved_set (c : context) (head_index : N * N) (rule : N) : res bool :=
  match c_heads (cx_cache c) !! head_index with
  | None => Panic PExpectHead
  | Some h => Ok (bool_decide (rule ∈ h_involved h))
  end.

(** cache.rs:101-108, context.rs:147-149 *)
Definition rule_in_eval_set (c : context) (head_index : N * N) (rule : N) : res bool :=
  match c_heads (cx_cache c) !! head_index with
  | None => Panic PExpectHead
  | Some h => Ok (bool_decide (rule ∈ h_eval h))
  end.

(** cache.rs:109-115, context.rs:150-152 *)
Definition remove_from_eval_set (c : context) (head_index : N * N) (rule : N) : res context :=
  match c_heads (cx_cache c) !! head_index with
  | None => Panic PExpectHead
  | Some h => Ok (with_heads c (<[head_index :=
                      Head (h_start h) (h_rule h) (h_involved h) (h_eval h ∖ {[rule]})]> (c_heads (cx_cache c))))
  end.

(** context.rs:101-103 *)
Definition reserve_publisher_entry (c : context) (rule : N) : res (N * context) :=
  let! (k, p) := add_node (cx_pub c) rule 0 0 false in Ok (k, with_pub c p).

(** context.rs:104-106 *)
Definition ctx_connect (c : context) (parent_key child_key : N) : res context :=
  let! p := connect (cx_pub c) parent_key child_key in Ok (with_pub c p).

(** context.rs:140-143 *)
Definition ctx_connect_if_not_connected (c : context) (parent_key child_key : N) : res context :=
  let! p := connect_if_not_connected (cx_pub c) parent_key child_key in Ok (with_pub c p).

(** context.rs:119-129 *)
Definition update_publisher_entry (c : context) (key : N) (is_true : bool) (start_position end_position : N)
  : res context :=
  let! p := set_node_result (cx_pub c) key is_true in
  let! p := set_node_start_position p key start_position in
  let! p := set_node_end_position p key end_position in
  Ok (with_pub c p).
