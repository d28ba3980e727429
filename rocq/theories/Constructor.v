(** generator/src/constructor.rs *)
From Verif Require Export BinaryWo SymbolTable CycleDetector.

(** The state threaded through the constructor: the imports collected so far
    and the out tree of the rule being compiled. *)
Record gstate := GState { g_imports : list name; g_tree : btree }.
Definition gm := M gstate.
Definition gpush (r : reference) (lhs rhs : option N) : gm N :=
  fun g => let '(k, t) := push (g_tree g) r lhs rhs in Ok (k, GState (g_imports g) t).
Definition glift {A} (x : res A) : gm A := fun g => let! a := x in Ok (a, g).
Definition gimport (n : name) : gm unit := fun g => Ok (tt, GState (g_imports g ++ [n]) (g_tree g)).

(** u32::from_str_radix(s, 16) on a non-empty string of hex digits.
    Simplification: a leading '+' is not accepted (the DSL cannot produce it). *)
Definition hex_digit (c : N) : option N :=
  if (48 <=? c) && (c <=? 57) then Some (c - 48)
  else if (65 <=? c) && (c <=? 70) then Some (c - 55)
  else if (97 <=? c) && (c <=? 102) then Some (c - 87) else None.
Fixpoint hex_value (acc : N) (l : list N) : option N :=
  match l with
  | [] => Some acc
  | c :: l => match hex_digit c with
              | Some d => if acc * 16 + d <? u32_modulus then hex_value (acc * 16 + d) l else None
              | None => None
              end
  end.
Definition from_str_radix_16 (l : list N) : res N :=
  match l with
  | [] => Panic PExplicit
  | _ => match hex_value 0 l with Some v => Ok v | None => Panic PExplicit end
  end.
(** char::from_u32(..).expect(..) *)
Definition char_from_u32 (v : N) : res N :=
  if (v <? 55296) || ((57344 <=? v) && (v <? 1114112)) then Ok v else Panic PExplicit.

Section constructor.
  Context (lr : name_map name_set) (sym : symbol_table) (src : list N).

  (** constructor.rs:1015-1039 — terminal.  The empty terminal '' becomes a
      sequence of two double-quote terminals. *)
  Definition c_terminal (t : ptree) : gm N :=
    do d <- glift (usub (t_end t) (t_start t));
    if d =? 2 then
      do k1 <- gpush (RTerminal [34]) None None;
      do k2 <- gpush (RTerminal [34]) None None;
      gpush RSequence (Some k1) (Some k2)
    else
      do contents <- glift (inner_text src t);
      gpush (RTerminal (if bool_decide (contents = [92]) then [92; 92]
                        else if bool_decide (contents = [39]) then [92; 39] else contents)) None None.

  (** constructor.rs:960-1013 — var_name. *)
  Definition c_var_name (t : ptree) : gm N :=
    do n <- glift (inner_text src t);
    match lr !! n with
    | Some inv =>
      do inv' <- glift (map_res rule_name (elements inv));
      gpush (RLeftRecursiveRule n (sort_names inv')) None None
    | None =>
      if check_symbol_is_inline sym n then gpush (RInlinedRule n) None None
      else gpush (RVarName n) None None
    end.

  (** constructor.rs:810-857 — string_terminal: one char per ASCII child (the
      byte as a code point) or per Hex child. *)
  Definition string_char (c : ptree) : res N :=
    if t_label c =? dsl_R_ASCII then
      let! l := slice_bytes src (t_start c) (t_end c) in
      match l with b :: _ => Ok b | [] => Panic PIndex end
    else if t_label c =? dsl_R_Integer then Panic PExplicit
    else if t_label c =? dsl_R_Hex then
      let! l := slice_str src (t_start c + 2) (t_end c) in
      let! v := from_str_radix_16 l in char_from_u32 v
    else Panic PExplicit.
  Definition c_string_terminal (t : ptree) : gm N :=
    do data <- glift (map_res string_char (t_children t));
    if forallb (fun c => c <? 128) data then gpush (RStringTerminalAsciiOpt data) None None
    else gpush (RStringTerminal data) None None.

  (** constructor.rs:859-926 — ordered_choice_match_range: pushes a node at
      every bound after the first. *)
  Definition range_bound (c : ptree) : res N :=
    if t_label c =? dsl_R_Terminal then
      let! l := inner_text src c in
      match l with b :: _ => Ok b | [] => Panic PIndex end
    else if t_label c =? dsl_R_Integer then Panic PExplicit
    else if t_label c =? dsl_R_Hex then
      let! l := slice_str src (t_start c + 2) (t_end c) in from_str_radix_16 l
    else Panic PExplicit.
  Fixpoint c_range_loop (l : list ptree) (start : option N) (ret : N) : gm N :=
    match l with
    | [] => mret ret
    | c :: l =>
      do v <- glift (range_bound c);
      match start with
      | None => c_range_loop l (Some v) ret
      | Some a => do k <- gpush (ROrderedChoiceMatchRange a v) None None; c_range_loop l (Some a) k
      end
    end.
  Definition c_range (t : ptree) : gm N := c_range_loop (t_children t) None 0.

  (** The children loops of rhs (constructor.rs:312-362), atom (442-528), optional (530-563),
      one_or_more (564-597), zero_or_more (598-631), and_predicate (633-666),
      not_predicate (668-700), subexpression (928-958), nucleus (702-766): for every child, panic
      unless its rule is expected, otherwise build it, apply [post] and
      remember the key; the last key is returned, Key(0) if there is none. *)
  Definition each_child (build : ptree -> gm N) (expected : N -> bool) (post : N -> gm N) : list ptree -> N -> gm N :=
    fix each_child (l : list ptree) (ret : N) : gm N :=
    match l with
    | [] => mret ret
    | c :: l =>
      if expected (t_label c) then (do k <- build c; do k <- post k; each_child l k)
      else mpanic PExplicit
    end.

  (** constructor.rs:364-401, 403-440 — ordered_choice and sequence: left-nested. *)
  Definition left_nested (build : ptree -> gm N) (r : reference) : list ptree -> option N -> gm N :=
    fix left_nested (l : list ptree) (last : option N) : gm N :=
    match l with
    | [] => mret (default 0 last)
    | c :: l =>
      if t_label c =? dsl_R_Atom then
        do k <- build c;
        match last with
        | None => left_nested l (Some k)
        | Some k0 => do k' <- gpush r (Some k0) (Some k); left_nested l (Some k')
        end
      else mpanic PExplicit
    end.

  (** constructor.rs:312-1039 — the functions rhs, ordered_choice, sequence,
      atom, optional, one_or_more, zero_or_more, and_predicate, not_predicate,
      nucleus, hooked_call, string_terminal, ordered_choice_match_range,
      subexpression, var_name and terminal.  Each is only ever called on a node
      carrying the rule of the same name (its callers dispatch on the rule of
      the child), so one recursive function dispatches on the rule. *)
  Fixpoint build (t : ptree) : gm N :=
    let 'TNode l i j b F := t in
    let one (x : N) := fun y => y =? x in
    if l =? dsl_R_RHS then
      each_child build (fun x => (x =? dsl_R_Ordered_Choice) || (x =? dsl_R_Sequence) || (x =? dsl_R_Atom)) mret F 0
    else if l =? dsl_R_Ordered_Choice then left_nested build ROrderedChoice F None
    else if l =? dsl_R_Sequence then left_nested build RSequence F None
    else if l =? dsl_R_Atom then
      each_child build (fun x => (x =? dsl_R_And_Predicate) || (x =? dsl_R_Not_Predicate)
        || (x =? dsl_R_One_Or_More) || (x =? dsl_R_Zero_Or_More) || (x =? dsl_R_Optional) || (x =? dsl_R_Nucleus)) mret F 0
    else if l =? dsl_R_Optional then each_child build (one dsl_R_Nucleus) (fun k => gpush ROptional (Some k) None) F 0
    else if l =? dsl_R_One_Or_More then each_child build (one dsl_R_Nucleus) (fun k => gpush ROneOrMore (Some k) None) F 0
    else if l =? dsl_R_Zero_Or_More then each_child build (one dsl_R_Nucleus) (fun k => gpush RZeroOrMore (Some k) None) F 0
    else if l =? dsl_R_And_Predicate then each_child build (one dsl_R_Nucleus) (fun k => gpush RAndPredicate (Some k) None) F 0
    else if l =? dsl_R_Not_Predicate then each_child build (one dsl_R_Nucleus) (fun k => gpush RNotPredicate (Some k) None) F 0
    else if l =? dsl_R_Nucleus then
      each_child build (fun x => (x =? dsl_R_Subexpression) || (x =? dsl_R_Terminal) || (x =? dsl_R_Var_Name_Ref)
        || (x =? dsl_R_OrderedChoiceMatchRange) || (x =? dsl_R_StringTerminal) || (x =? dsl_R_Hooked_Call)) mret F 0
    else if l =? dsl_R_Subexpression then
      each_child build (one dsl_R_RHS) (fun k => gpush RSubexpression (Some k) None) F 0
    else if l =? dsl_R_Hooked_Call then
      (* constructor.rs:768-808: the name runs up to the byte before the first
         child; then exactly like a subexpression. *)
      do c <- glift (child 0 t);
      do e <- glift (usub (t_start c) 1);
      do n <- glift (slice_str src i e);
      do _ <- gimport n;
      do k <- each_child build (one dsl_R_RHS) (fun k => gpush RSubexpression (Some k) None) F 0;
      gpush (RHookedCall n) (Some k) None
    else if l =? dsl_R_Terminal then c_terminal t
    else if l =? dsl_R_Var_Name_Ref then c_var_name t
    else if l =? dsl_R_OrderedChoiceMatchRange then c_range t
    else if l =? dsl_R_StringTerminal then c_string_terminal t
    else mpanic PNoFunction.     (* not called on other nodes *)

  (** constructor.rs:263-279 — lhs: get_string, drop the last and the first
      character (ASCII delimiters: one byte each). *)
  Definition c_lhs (t : ptree) : res name :=
    let! d := child 0 t in
    let! s := tree_text src d in
    Ok (tail (removelast s)).

  (** constructor.rs:281-310 — comment: from the start of the first ASCII child
      to the end of the last.  [trim] is modelled on ASCII whitespace. *)
  Definition comment_span (F : list ptree) : option (N * N) :=
    fold_left (fun acc c =>
      if t_label c =? dsl_R_ASCII then
        match acc with None => Some (t_start c, t_end c) | Some (a, _) => Some (a, t_end c) end
      else acc) F None.
  Fixpoint split_lines (l : list N) : list (list N) :=
    match l with
    | [] => [[]]
    | c :: l => if c =? 10 then [] :: split_lines l
                else match split_lines l with x :: r => (c :: x) :: r | [] => [[c]] end
    end.
  Definition is_space (c : N) : bool := (c =? 32) || ((9 <=? c) && (c <=? 13)).
  Fixpoint trim_start (l : list N) : list N :=
    match l with c :: r => if is_space c then trim_start r else l | [] => [] end.
  Definition trim (l : list N) : list N := rev (trim_start (rev (trim_start l))).
  (** The comment text, one entry per line; each is printed as "\t// " ++ line. *)
  Definition c_comment (t : ptree) : res (list (list N)) :=
    match comment_span (t_children t) with
    | None => Panic PExplicit                       (* expect("Must have start") *)
    | Some (a, b) => let! s := slice_str src a b in Ok (map trim (split_lines s))
    end.

  (** One generated function: name, comment lines, body. *)
  Record gen_fn := GenFn { gf_name : name; gf_comment : list (list N); gf_body : list stmt }.

  (** constructor.rs:200-261 — rule: the last LHS, RHS and Comment child win. *)
  Fixpoint c_rule_loop (fuel : nat) (l : list ptree) (imports : list name)
      (nm : option name) (rhs : list stmt) (cm : list (list N)) : res (gen_fn * list name) :=
    match l with
    | [] => match nm with Some n => Ok (GenFn n cm rhs, imports) | None => Panic PExplicit end
    | c :: l =>
      if t_label c =? dsl_R_LHS then
        let! n := c_lhs c in c_rule_loop fuel l imports (Some (to_lowercase n)) rhs cm
      else if t_label c =? dsl_R_RHS then
        let! (k, g) := build c (GState imports btree_new) in
        let '(last, t) := push (g_tree g) RExec (Some k) None in
        let! body := btree_to_string fuel t last in
        c_rule_loop fuel l (g_imports g) nm body cm
      else if t_label c =? dsl_R_Comment then
        let! x := c_comment c in c_rule_loop fuel l imports nm rhs x
      else c_rule_loop fuel l imports nm rhs cm
    end.
  (** constructor.rs:176-198 — match_rule: todo!() on anything but a Rule. *)
  Definition match_rule (fuel : nat) (t : ptree) (imports : list name) : res (gen_fn * list name) :=
    if t_label t =? dsl_R_Rule then c_rule_loop fuel (t_children t) imports None [] []
    else Panic PExplicit.

  (** constructor.rs:120-151 — generate. *)
  Fixpoint generate_loop (fuel : nat) (l : list ptree) (imports : list name) : res (list gen_fn * list name) :=
    match l with
    | [] => Ok ([], imports)
    | t :: l =>
      let! (f, imports) := match_rule fuel t imports in
      let! (r, imports) := generate_loop fuel l imports in
      Ok (f :: r, imports)
    end.
  Definition generate (fuel : nat) (tree : ptree) : res (list gen_fn * list name) :=
    if negb (t_label tree =? dsl_R_Grammar) then Panic PExplicit
    else generate_loop fuel (t_children tree) [].

  (** constructor.rs:153-174 — generate_rules_enum: the variants, in the order
      of the symbol table; the count is their number. *)
  Definition generate_rules_enum : res (list name) :=
    map_res rule_name (filter (fun n => check_symbol_is_inline sym n = false) (sy_names sym)).
End constructor.

(** constructor.rs:7-16, 19-86 — GeneratedCode::new. *)
Record gen_code := GenCode { gc_imports : list name; gc_fns : list gen_fn; gc_enum : list name; gc_size : N }.
Definition generated_code_new (fuel : nat) (lr : name_map name_set) (sym : symbol_table) (src : list N) (tree : ptree) : res gen_code :=
  let! (fns, imports) := generate lr sym src fuel tree in
  let! enum := generate_rules_enum sym in
  Ok (GenCode imports fns enum (N.of_nat (length enum))).
