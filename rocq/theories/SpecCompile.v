(** Specification: which parser expression a right-hand side of the DSL stands
    for.  Independent of the generator: no trees, keys or statements. *)
From Verif Require Export SpecDsl SpecCode.

(** Value of a number written with hex digits (most significant first). *)
Definition hexval (ds : list N) : N :=
  fold_left (fun acc c => acc * 16 + (if c <=? 57 then c - 48 else c - 55)) ds 0.

(** The byte meant by what stands between single quotes; rustc rejects raw
    control characters and non-ASCII in byte literals. *)
Definition quoted_byte (c : list N) : option N :=
  match c with
  | [c] => if (c <? 128) && negb ((c =? 10) || (c =? 13) || (c =? 9)) then Some c else None
  | [b; c] => if negb (b =? 92) then None else
      if c =? 110 then Some 10 else if c =? 114 then Some 13 else if c =? 116 then Some 9 else None
  | _ => None
  end.

(** A bound of a range: the first byte between the quotes, or the number. *)
Definition bound_value (b : dbound) : option N :=
  match b with BQuoted (c :: _) => Some c | BQuoted [] => None | BHex ds => Some (hexval ds) | BInt _ => None end.

(** The bytes matched by a string literal whose characters are [l]. *)
Definition string_bytes (l : list N) : option (list N) :=
  if forallb (fun c => c <? 128) l then byte_string l else None.

(** The hooks a right-hand side calls, in the order in which they are imported. *)
Fixpoint hooks_of (e : dexp) : list name :=
  match e with
  | DHook n e => n :: hooks_of e
  | DGroup e | DAnd e | DNot e | DPlus e | DStar e | DOpt e => hooks_of e
  | DSeq es | DAlt es => (fix go (es : list dexp) : list name :=
      match es with [] => [] | e :: es => hooks_of e ++ go es end) es
  | _ => []
  end.

Section compile.
  (** [involved n]: the involved set of the left-recursive rule [n] (sorted
      enum variants), [None] for a rule that is not left-recursive. *)
  Context (sc : scope) (involved : name -> option (list name)) (is_inline : name -> bool).

  Definition first_upper (n : name) : name := match n with [] => [] | c :: n => upper c :: n end.
  Definition enum_index (n : name) : option N := index_of (first_upper n) (sc_enum sc).
  Definition fn_index (n : name) : option N := index_of (to_lowercase n) (sc_fns sc).

  Definition compile_ref (n : name) : option expr :=
    match involved n with
    | Some l => ls ← all_some (map (fun r => index_of r (sc_enum sc)) l);
                r ← enum_index n; f ← fn_index n; Some (ELR ls r f)
    | None => if is_inline n then f ← fn_index n; Some (EInline f)
              else r ← enum_index n; f ← fn_index n; Some (EVar r f)
    end.

  (** Left-nested fold: ((e1 op e2) op e3) ... *)
  Fixpoint fold_left1 (op : expr -> expr -> expr) (acc : option expr) (l : list (option expr)) : option expr :=
    match l with
    | [] => acc
    | x :: l => fold_left1 op (opt2 op acc x) l
    end.
  Definition fold_op (op : expr -> expr -> expr) (l : list (option expr)) : option expr :=
    match l with [] => None | x :: l => fold_left1 op x l end.

  Fixpoint compile (e : dexp) : option expr :=
    match e with
    | DQuoted [] => Some (ESeq (ETerminal 34) (ETerminal 34))   (* defect: not the empty string *)
    | DQuoted c => ETerminal <$> quoted_byte c
    | DString l => EString <$> string_bytes l
    | DHexLit ds => EString <$> string_bytes [hexval ds]
    | DIntLit _ => None
    | DRange a b => opt2 ERange (bound_value a) (bound_value b)
    | DRef n => compile_ref n
    | DGroup e => ESub <$> compile e
    | DHook n e => opt2 EHook (index_of n (sc_hooks sc)) (ESub <$> compile e)
    | DAnd e => EAnd <$> compile e
    | DNot e => ENot <$> compile e
    | DPlus e => EPlus <$> compile e
    | DStar e => EStar <$> compile e
    | DOpt e => EOpt <$> compile e
    | DSeq es => fold_op ESeq (map compile es)
    | DAlt es => fold_op EChoice (map compile es)
    end.
End compile.
