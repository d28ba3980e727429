(** What the emitted Rust text means: the trusted reading of generated code
    (the part rustc plays).  A generated function body is a list of [let]s over
    closures ending in a call; its meaning is the combinator expression the
    last closure stands for.  [None] means rustc rejects the file (undefined
    closure variable, function or enum variant, malformed literal). *)
From Verif Require Export BinaryWo Constructor.

(** b'..' byte literals. *)
Definition escape (c : N) : option N :=
  if c =? 110 then Some 10          (* \n *)
  else if c =? 114 then Some 13     (* \r *)
  else if c =? 116 then Some 9      (* \t *)
  else if c =? 92 then Some 92      (* \\ *)
  else if c =? 48 then Some 0       (* \0 *)
  else if c =? 39 then Some 39      (* \' *)
  else if c =? 34 then Some 34      (* \dquote *)
  else None.
Definition byte_literal (l : list N) : option N :=
  match l with
  | [c] => if (c <? 128) && negb ((c =? 39) || (c =? 92) || (c =? 10) || (c =? 13) || (c =? 9)) then Some c else None
  | [b; c] => if b =? 92 then escape c else None
  | _ => None
  end.
(** b".." byte string literals (\x.. and line continuations are not covered). *)
Fixpoint byte_string (l : list N) : option (list N) :=
  match l with
  | [] => Some []
  | c :: l =>
    if c =? 92 then
      match l with
      | [] => None
      | e :: l => match escape e, byte_string l with Some x, Some r => Some (x :: r) | _, _ => None end
      end
    else if (c <? 128) && negb ((c =? 34) || (c =? 13)) then
      match byte_string l with Some r => Some (c :: r) | None => None end
    else None
  end.

(** Position of a name in a list of items: which function / enum variant /
    hook an identifier refers to. *)
Fixpoint index_of (n : name) (l : list name) : option N :=
  match l with
  | [] => None
  | x :: l => if bool_decide (n = x) then Some 0 else option_map N.succ (index_of n l)
  end.

(** The items in scope: generated functions, enum variants, imported hooks. *)
Record scope := Scope { sc_fns : list name; sc_enum : list name; sc_hooks : list name }.

(** Closure variables in scope and the value of [involved_set]. *)
Record frame := Frame { fr_env : list (N * expr); fr_inv : option (list N) }.
Definition frame_empty : frame := Frame [] None.
Definition lookup_env (k : N) (e : list (N * expr)) : option expr :=
  match List.find (fun x => fst x =? k) e with Some (_, v) => Some v | None => None end.
Definition bind (k : N) (e : expr) (f : frame) : frame := Frame ((k, e) :: fr_env f) (fr_inv f).
Definition opt2 {A B C} (f : A -> B -> C) (a : option A) (b : option B) : option C :=
  match a, b with Some a, Some b => Some (f a b) | _, _ => None end.
Fixpoint all_some {A} (l : list (option A)) : option (list A) :=
  match l with [] => Some [] | x :: l => opt2 cons x (all_some l) end.

Definition run_stmt (sc : scope) (f : frame) (s : stmt) : option frame :=
  let v k := lookup_env k (fr_env f) in
  match s with
  | SString _ _ => None                 (* the runtime has no _string_terminal *)
  | SStringAscii k c => d ← byte_string c; Some (bind k (EString d) f)
  | SRange k a b => Some (bind k (ERange a b) f)
  | SAnd k a => e ← v a; Some (bind k (EAnd e) f)
  | SNot k a => e ← v a; Some (bind k (ENot e) f)
  | SPlus k a => e ← v a; Some (bind k (EPlus e) f)
  | SStar k a => e ← v a; Some (bind k (EStar e) f)
  | SOpt k a => e ← v a; Some (bind k (EOpt e) f)
  | SSub k a => e ← v a; Some (bind k (ESub e) f)
  | SHook k h a => e ← v a; i ← index_of h (sc_hooks sc); Some (bind k (EHook i e) f)
  | SChoice k a b => x ← v a; y ← v b; Some (bind k (EChoice x y) f)
  | SSeq k a b => x ← v a; y ← v b; Some (bind k (ESeq x y) f)
  | STerminal k c => b ← byte_literal c; Some (bind k (ETerminal b) f)
  | SVar k r fn => i ← index_of r (sc_enum sc); j ← index_of fn (sc_fns sc); Some (bind k (EVar i j) f)
  | SInvolved rs => l ← all_some (map (fun r => index_of r (sc_enum sc)) rs); Some (Frame (fr_env f) (Some l))
  | SLR k r fn =>
      l ← fr_inv f; i ← index_of r (sc_enum sc); j ← index_of fn (sc_fns sc); Some (bind k (ELR l i j) f)
  | SInline k fn => j ← index_of fn (sc_fns sc); Some (bind k (EInline j) f)
  | SExec _ => None                     (* an expression, not a let *)
  end.
Fixpoint run_stmts (sc : scope) (f : frame) (l : list stmt) : option frame :=
  match l with [] => Some f | s :: l => f ← run_stmt sc f s; run_stmts sc f l end.
(** A function body: lets, then [closure_k(parent, source, position)]. *)
Fixpoint run_body (sc : scope) (f : frame) (l : list stmt) : option expr :=
  match l with
  | [] => None
  | SExec k :: [] => lookup_env k (fr_env f)
  | s :: l => f ← run_stmt sc f s; run_body sc f l
  end.

(** Identifiers a generated function cannot have: Rust's keywords and the
    parameters and locals of generated functions, which would shadow it. *)
Definition reserved : list name := map bytes
  ["as"; "break"; "const"; "continue"; "crate"; "else"; "enum"; "extern"; "false"; "fn"; "for"; "if"; "impl"; "in"; "let"; "loop";
   "match"; "mod"; "move"; "mut"; "pub"; "ref"; "return"; "self"; "Self"; "static"; "struct"; "super"; "trait"; "true"; "type"; "unsafe";
   "use"; "where"; "while"; "async"; "await"; "dyn"; "abstract"; "become"; "box"; "do"; "final"; "macro"; "override"; "priv";
   "try"; "typeof"; "unsized"; "virtual"; "yield"; "parent"; "source"; "position"; "context"; "user_state"; "involved_set"]%string.
Definition enum_reserved : name := bytes "Self".

(** The program a generated crate is.  rustc rejects duplicate function names,
    duplicate enum variants, names imported twice and reserved words. *)
Definition scope_of (c : gen_code) : scope := Scope (map gf_name (gc_fns c)) (gc_enum c) (gc_imports c).
Definition names_accepted (fns enum hooks : list name) : Prop :=
  NoDup (fns ++ hooks) /\ NoDup enum /\ (forall n, n ∈ fns ++ hooks -> n ∉ reserved) /\ enum_reserved ∉ enum.
Global Instance names_accepted_dec fns enum hooks : Decision (names_accepted fns enum hooks).
Proof.
  refine (cast_if (decide (NoDup (fns ++ hooks) /\ NoDup enum /\ Forall (fun n => n ∉ reserved) (fns ++ hooks) /\ enum_reserved ∉ enum)));
    abstract (unfold names_accepted; rewrite list.Forall_forall in *; done).
Defined.
Definition code_table (c : gen_code) : option (list expr) :=
  if decide (names_accepted (map gf_name (gc_fns c)) (gc_enum c) (gc_imports c))
  then all_some (map (fun f => run_body (scope_of c) frame_empty (gf_body f)) (gc_fns c))
  else None.
