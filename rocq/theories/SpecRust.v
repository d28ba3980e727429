(** What a text of Rust source means: the trusted reading of generated crates
    (the part rustc plays), from bytes to the program.  It covers the fragment
    of Rust that generated crates are written in and rejects everything else:
    [None] means "not in the fragment", never "means something else". *)
From Coq Require Import Ascii String.
From Verif Require Export Expr SpecCode.
From Verif Require Import Programs.
Local Open Scope N_scope.

(** ** Tokens *)
Inductive token : Type :=
  | TWord (n : list N)           (* identifier *)
  | TKey (n : list N)            (* keyword *)
  | TNum (v : N)                 (* decimal integer literal *)
  | TByte (v : N)                (* b'x' *)
  | TBytes (l : list N)          (* b"..." *)
  | TStr (l : list N)            (* "..." without escapes *)
  | TPunct (c : N)
  | TPath | TArrow | TFatArrow.  (* :: -> => *)
Global Instance token_eq_dec : EqDecision token.
Proof. solve_decision. Defined.

(** Strict and reserved keywords of the 2021 edition. *)
Definition keywords : list (list N) := map bytes
  ["as"; "break"; "const"; "continue"; "crate"; "else"; "enum"; "extern"; "false"; "fn"; "for"; "if"; "impl"; "in"; "let"; "loop";
   "match"; "mod"; "move"; "mut"; "pub"; "ref"; "return"; "self"; "Self"; "static"; "struct"; "super"; "trait"; "true"; "type"; "unsafe";
   "use"; "where"; "while"; "async"; "await"; "dyn"; "abstract"; "become"; "box"; "do"; "final"; "macro"; "override"; "priv";
   "try"; "typeof"; "unsized"; "virtual"; "yield"]%string.
Definition word (n : list N) : token := if bool_decide (n ∈ keywords) then TKey n else TWord n.

Definition is_letter (c : N) : bool := ((97 <=? c) && (c <=? 122)) || ((65 <=? c) && (c <=? 90)).
Definition is_digit (c : N) : bool := (48 <=? c) && (c <=? 57).
Definition id_start (c : N) : bool := is_letter c || (c =? 95).
Definition id_char (c : N) : bool := id_start c || is_digit c.
Definition white (c : N) : bool := (c =? 32) || ((9 <=? c) && (c <=? 13)).
(** ( ) { } [ ] < > , ; . & | # ! * $ *)
Definition punctuation : list N := map N_of_ascii (list_ascii_of_string "(){}[]<>,;.&|#!*$").

(** Where in a token the lexer is. *)
Inductive mode : Type :=
  | MStart | MLiteralEnd                  (* between tokens; just after a quoted literal *)
  | MWord (n : list N) | MNum (v : N)
  | MColon | MMinus | MEqual
  | MSlash | MSlashes | MComment
  | MByte | MByteEsc | MByteEnd (v : N)
  | MBytes (l : list N) | MBytesEsc (l : list N)
  | MStr (l : list N).

(** A character between tokens. *)
Definition start (c : N) : option (list token * mode) :=
  if white c then Some ([], MStart)
  else if id_start c then Some ([], MWord [c])
  else if is_digit c then Some ([], MNum (c - 48))
  else if bool_decide (c ∈ punctuation) then Some ([TPunct c], MStart)
  else if c =? 58 then Some ([], MColon)
  else if c =? 45 then Some ([], MMinus)
  else if c =? 61 then Some ([], MEqual)
  else if c =? 47 then Some ([], MSlash)
  else if c =? 34 then Some ([], MStr [])
  else None.
(** [c] is not part of the pending token [t]. *)
Definition emit (t : token) (c : N) : option (list token * mode) :=
  '(ts, m) ← start c; Some (t :: ts, m).
Definition step (m : mode) (c : N) : option (list token * mode) :=
  match m with
  | MStart => start c
  | MLiteralEnd => if id_char c then None else start c                (* no literal suffixes *)
  | MWord n =>
    if id_char c then Some ([], MWord (n ++ [c]))
    else if (c =? 39) && bool_decide (n = [98]) then Some ([], MByte)       (* b' *)
    else if (c =? 34) && bool_decide (n = [98]) then Some ([], MBytes [])   (* b and double quote *)
    else if (c =? 39) || (c =? 34) || (c =? 35) then None             (* reserved prefixes *)
    else emit (word n) c
  | MNum v => if is_digit c then Some ([], MNum (10 * v + (c - 48))) else if id_char c || (c =? 46) then None else emit (TNum v) c
  | MColon => if c =? 58 then Some ([TPath], MStart) else emit (TPunct 58) c
  | MMinus => if c =? 62 then Some ([TArrow], MStart) else None
  | MEqual => if c =? 62 then Some ([TFatArrow], MStart) else if c =? 61 then None else emit (TPunct 61) c
  | MSlash => if c =? 47 then Some ([], MSlashes) else None           (* no block comments *)
  | MSlashes => if (c =? 47) || (c =? 33) then None                   (* no documentation comments *)
                else if c =? 10 then Some ([], MStart) else Some ([], MComment)
  | MComment => if c =? 10 then Some ([], MStart) else Some ([], MComment)
  | MByte => if c =? 92 then Some ([], MByteEsc)
             else if (c <? 128) && negb ((c =? 39) || (c =? 10) || (c =? 13) || (c =? 9)) then Some ([], MByteEnd c) else None
  | MByteEsc => v ← escape c; Some ([], MByteEnd v)
  | MByteEnd v => if c =? 39 then Some ([TByte v], MLiteralEnd) else None
  | MBytes l => if c =? 34 then Some ([TBytes l], MLiteralEnd)
                else if c =? 92 then Some ([], MBytesEsc l)
                else if (c <? 128) && negb (c =? 13) then Some ([], MBytes (l ++ [c])) else None
  | MBytesEsc l => v ← escape c; Some ([], MBytes (l ++ [v]))
  | MStr l => if c =? 34 then Some ([TStr l], MLiteralEnd) else if (c =? 92) || (c =? 13) then None else Some ([], MStr (l ++ [c]))
  end.
Fixpoint lex_from (m : mode) (l : list N) : option (list token * mode) :=
  match l with
  | [] => Some ([], m)
  | c :: l => '(ts, m) ← step m c; '(us, m) ← lex_from m l; Some (ts ++ us, m)
  end.
(** Nothing may be pending at the end of the file but a token or a comment. *)
Definition finish (m : mode) : option (list token) :=
  match m with
  | MStart | MLiteralEnd | MSlashes | MComment => Some []
  | MWord n => Some [word n]
  | MNum v => Some [TNum v]
  | MColon => Some [TPunct 58]
  | MEqual => Some [TPunct 61]
  | _ => None
  end.
Definition lex (l : list N) : option (list token) :=
  '(ts, m) ← lex_from MStart l; us ← finish m; Some (ts ++ us).

(** ** Fixed pieces of syntax, written as Rust text with holes: $i stands for
    an identifier, $n for a number, $c for an optional comma. *)
Inductive pat : Type := PTok (t : token) | PWord | PNum | PComma.
Fixpoint holes (l : list token) : list pat :=
  match l with
  | TPunct 36 :: TWord [c] :: l =>
    (if c =? 105 then PWord else if c =? 110 then PNum else PComma) :: holes l
  | t :: l => PTok t :: holes l
  | [] => []
  end.
Definition template (s : string) : list pat := match lex (bytes s) with Some l => holes l | None => [] end.
(** The identifiers and numbers in the holes, and the rest of the tokens. *)
Fixpoint matches (p : list pat) (l : list token) : option (list (list N) * list N * list token) :=
  match p with
  | [] => Some ([], [], l)
  | PTok t :: p => match l with t' :: l => if bool_decide (t = t') then matches p l else None | [] => None end
  | PWord :: p => match l with TWord n :: l => '(ws, ns, r) ← matches p l; Some (n :: ws, ns, r) | _ => None end
  | PNum :: p => match l with TNum v :: l => '(ws, ns, r) ← matches p l; Some (ws, v :: ns, r) | _ => None end
  | PComma :: p => match l with TPunct 44 :: l => matches p l | _ => matches p l end
  end.

Definition first_of (ws : list (list N)) : list N := match ws with w :: _ => w | [] => [] end.

(** ** Function bodies *)
(** Arguments of calls. *)
Inductive arg : Type :=
  | AName (n : list N)            (* x *)
  | ARef (n : list N)             (* &x *)
  | AVariant (n : list N)         (* Rules::X *)
  | ANum (v : N) | AByte (v : N) | ABytes (l : list N).
Global Instance arg_eq_dec : EqDecision arg.
Proof. solve_decision. Defined.
Definition rules_name : list N := bytes "Rules".
(** The arguments and the closing parenthesis, after the opening one. *)
Fixpoint read_args (l : list token) : option (list arg * list token) :=
  match l with
  | TPunct 41 :: r => Some ([], r)
  | TPunct 38 :: TWord n :: TPunct 44 :: r => '(a, r) ← read_args r; Some (ARef n :: a, r)
  | TPunct 38 :: TWord n :: TPunct 41 :: r => Some ([ARef n], r)
  | TWord n :: TPunct 44 :: r => '(a, r) ← read_args r; Some (AName n :: a, r)
  | TWord n :: TPunct 41 :: r => Some ([AName n], r)
  | TWord m :: TPath :: TWord n :: TPunct 44 :: r =>
      if bool_decide (m = rules_name) then '(a, r) ← read_args r; Some (AVariant n :: a, r) else None
  | TWord m :: TPath :: TWord n :: TPunct 41 :: r => if bool_decide (m = rules_name) then Some ([AVariant n], r) else None
  | TNum v :: TPunct 44 :: r => '(a, r) ← read_args r; Some (ANum v :: a, r)
  | TNum v :: TPunct 41 :: r => Some ([ANum v], r)
  | TByte v :: TPunct 44 :: r => '(a, r) ← read_args r; Some (AByte v :: a, r)
  | TByte v :: TPunct 41 :: r => Some ([AByte v], r)
  | TBytes d :: TPunct 44 :: r => '(a, r) ← read_args r; Some (ABytes d :: a, r)
  | TBytes d :: TPunct 41 :: r => Some ([ABytes d], r)
  | _ => None
  end.
(** A call f(...). *)
Definition read_call (l : list token) : option (list N * list arg * list token) :=
  match l with TWord f :: TPunct 40 :: r => '(a, r) ← read_args r; Some (f, a, r) | _ => None end.
(** Rules::A, Rules::B ] after the opening bracket. *)
Fixpoint read_variants (l : list token) : option (list (list N) * list token) :=
  match l with
  | TPunct 93 :: r => Some ([], r)
  | TWord m :: TPath :: TWord n :: TPunct 44 :: r =>
      if bool_decide (m = rules_name) then '(a, r) ← read_variants r; Some (n :: a, r) else None
  | TWord m :: TPath :: TWord n :: TPunct 93 :: r => if bool_decide (m = rules_name) then Some ([n], r) else None
  | _ => None
  end.

(** Statements and the final expression of a function body. *)
Inductive rstmt : Type :=
  | RLet (v : list N) (f : list N) (a : list arg)          (* let v = f(a); *)
  | RMove (v : list N) (f : list N) (a : list arg)         (* let v = move |parent, source, position| f(a); *)
  | RInvolved (l : list (list N))                          (* let involved_set: Vec<Rules> = [l].to_vec(); *)
  | RTail (f : list N) (a : list arg).                     (* f(a) } *)
Definition t_let : list pat := Eval vm_compute in template "let $i =".
Definition t_move : list pat := Eval vm_compute in template "move |parent: Key, source: &Source, position: u32|".
Definition t_involved : list pat := Eval vm_compute in template "let involved_set: Vec<Rules> = [".
Definition t_to_vec : list pat := Eval vm_compute in template ".to_vec();".
Definition semicolon : token := TPunct 59.
Definition brace : token := TPunct 125.
(** [t] must be next. *)
Definition expect (t : token) (l : list token) : option (list token) :=
  match l with t' :: r => if bool_decide (t = t') then Some r else None | [] => None end.
(** A call, in braces or not. *)
Definition read_block_call (l : list token) : option (list N * list arg * list token) :=
  match l with
  | TPunct 123 :: r => '(x, r) ← read_call r; r ← expect brace r; Some (x, r)
  | _ => read_call l
  end.
Definition read_stmt (l : list token) : option (rstmt * list token) :=
  match matches t_let l with
  | Some (ws, _, r) =>
    match matches t_move r with
    | Some (_, _, r) => '(f, a, r) ← read_block_call r; r ← expect semicolon r; Some (RMove (first_of ws) f a, r)
    | None => '(f, a, r) ← read_call r; r ← expect semicolon r; Some (RLet (first_of ws) f a, r)
    end
  | None =>
    match matches t_involved l with
    | Some (_, _, r) => '(vs, r) ← read_variants r; '(_, _, r) ← matches t_to_vec r; Some (RInvolved vs, r)
    | None => '(f, a, r) ← read_call l; r ← expect brace r; Some (RTail f a, r)
    end
  end.
(** Statements up to the end of the body. *)
Fixpoint read_body (fuel : nat) (l : list token) : option (list rstmt * list token) :=
  match fuel with
  | O => None
  | S fuel => '(s, r) ← read_stmt l;
      match s with RTail _ _ => Some ([s], r) | _ => '(ss, r) ← read_body fuel r; Some (s :: ss, r) end
  end.

(** ** parser.rs *)
Record rfn := RFn { rf_name : list N; rf_body : list rstmt }.
Definition t_allow : list pat := Eval vm_compute in template "#[allow($i)]".
Definition t_fn : list pat := Eval vm_compute in template
  "pub fn $i<T: Context>(user_state: &RefCell<UserState>, parent: Key, context: &RefCell<T>, source: &Source, position: u32 $c) -> (bool, u32) {".
Fixpoint read_fns (fuel : nat) (l : list token) : option (list rfn) :=
  match l, fuel with
  | [], _ => Some []
  | _, O => None
  | _, S fuel =>
    let l := match matches t_allow l with Some (_, _, r) => r | None => l end in
    '(ws, _, r) ← matches t_fn l;
    '(ss, r) ← read_body (length r) r;
    fs ← read_fns fuel r;
    Some (RFn (first_of ws) ss :: fs)
  end.
Definition t_allow_all : list pat := Eval vm_compute in template "#![allow($i)]".
Fixpoint skip_attributes (fuel : nat) (l : list token) : list token :=
  match fuel, matches t_allow_all l with S fuel, Some (_, _, r) => skip_attributes fuel r | _, _ => l end.
(** Imports: those every generated parser has, and hooks. *)
Inductive import := ICrate | IRefCell | IHooks (l : list (list N)).
Global Instance import_eq_dec : EqDecision import.
Proof. solve_decision. Defined.
Definition t_use_crate : list pat := Eval vm_compute in template "use crate::*;".
Definition t_use_cell : list pat := Eval vm_compute in template "use std::cell::RefCell;".
Definition t_use_hook : list pat := Eval vm_compute in template "use crate::hooked_calls::$i;".
Definition t_use_hooks : list pat := Eval vm_compute in template "use crate::hooked_calls::{".
(** a, b } after the opening brace *)
Fixpoint read_names (l : list token) : option (list (list N) * list token) :=
  match l with
  | TPunct 125 :: r => Some ([], r)
  | TWord n :: TPunct 44 :: r => '(a, r) ← read_names r; Some (n :: a, r)
  | TWord n :: TPunct 125 :: r => Some ([n], r)
  | _ => None
  end.
Definition read_import (l : list token) : option (import * list token) :=
  match matches t_use_crate l with
  | Some (_, _, r) => Some (ICrate, r)
  | None =>
    match matches t_use_cell l with
    | Some (_, _, r) => Some (IRefCell, r)
    | None =>
      match matches t_use_hook l with
      | Some (ws, _, r) => Some (IHooks ws, r)
      | None => '(_, _, r) ← matches t_use_hooks l; '(ns, r) ← read_names r; r ← expect semicolon r; Some (IHooks ns, r)
      end
    end
  end.
Fixpoint read_imports (fuel : nat) (l : list token) : list import * list token :=
  match fuel, read_import l with
  | S fuel, Some (i, r) => let '(is, r) := read_imports fuel r in (i :: is, r)
  | _, _ => ([], l)
  end.
Definition hooks_in (is : list import) : list (list N) := concat (map (fun i => match i with IHooks l => l | _ => [] end) is).
(** The hooks imported and the functions. *)
Definition read_parser_rs (text : list N) : option (list (list N) * list rfn) :=
  l ← lex text;
  let l := skip_attributes (length l) l in
  let '(is, r) := read_imports (length l) l in
  if bool_decide (ICrate ∈ is) && bool_decide (IRefCell ∈ is) then fs ← read_fns (length r) r; Some (hooks_in is, fs) else None.

(** ** rules.rs *)
Definition t_rules : list pat := Eval vm_compute in template
  "#![allow(non_camel_case_types)]
   use num_derive::FromPrimitive;
   impl From<u32> for Rules {
       fn from(i: u32) -> Rules {
           let element = num::FromPrimitive::from_u32(i);
           match element { Some(rule) => rule, None => panic!(""Not a valid Rule""), }
       }
   }
   #[allow(dead_code)]
   pub static RULES_SIZE: u32 = $n;
   #[allow(clippy::upper_case_acronyms)]
   #[derive(PartialEq, Eq, Hash, FromPrimitive, Clone, Copy, Debug, Ord, PartialOrd)]
   pub enum Rules {".
(** The variants and RULES_SIZE. *)
Definition read_rules_rs (text : list N) : option (list (list N) * N) :=
  l ← lex text;
  '(_, ns, r) ← matches t_rules l;
  '(vs, r) ← read_names r;
  match r, ns with [], [n] => Some (vs, n) | _, _ => None end.

(** ** Meaning *)
(** The combinators of the runtime (parser_core.rs, var_name.rs). *)
Definition combinators : list (list N) := map bytes
  ["_terminal"; "_string_terminal_opt_ascii"; "_ordered_choice_match_range"; "_and_predicate"; "_not_predicate"; "_one_or_more";
   "_zero_or_more"; "_optional"; "_subexpression"; "_sequence"; "_ordered_choice"; "_var_name"; "_var_name_indirect_left_recursion"]%string.
(** Parameters every generated function has. *)
Definition parameters : list (list N) := map bytes ["user_state"; "parent"; "context"; "source"; "position"]%string.
Definition involved_set : list N := bytes "involved_set".

(** Local variables: closures, by name, and [involved_set]. *)
Record locals := Locals { lo_vars : list (list N * expr); lo_involved : option (list N) }.
Definition local (v : list N) (e : list (list N * expr)) : option expr :=
  match List.find (fun x => bool_decide (fst x = v)) e with Some (_, x) => Some x | None => None end.

Section meaning.
  Context (sc : scope).
  (** The function an identifier stands for: locals hide functions. *)
  Definition global (lo : locals) (f : list N) : option N :=
    match local f (lo_vars lo) with Some _ => None | None => index_of f (sc_fns sc) end.
  Definition variant (n : list N) : option N := index_of n (sc_enum sc).
  Definition unary (f : list N) : option (expr -> expr) :=
    if bool_decide (f = bytes "_and_predicate") then Some EAnd
    else if bool_decide (f = bytes "_not_predicate") then Some ENot
    else if bool_decide (f = bytes "_one_or_more") then Some EPlus
    else if bool_decide (f = bytes "_zero_or_more") then Some EStar
    else if bool_decide (f = bytes "_optional") then Some EOpt
    else if bool_decide (f = bytes "_subexpression") then Some ESub
    else None.
  Definition binary (f : list N) : option (expr -> expr -> expr) :=
    if bool_decide (f = bytes "_sequence") then Some ESeq
    else if bool_decide (f = bytes "_ordered_choice") then Some EChoice
    else None.
  (** The closure a call of a combinator or of a hook returns. *)
  Definition closure_of (lo : locals) (f : list N) (a : list arg) : option expr :=
    let v x := local x (lo_vars lo) in
    if bool_decide (f ∈ combinators) then
      match a with
      | [AByte b] => if bool_decide (f = bytes "_terminal") then Some (ETerminal b) else None
      | [ABytes d] => if bool_decide (f = bytes "_string_terminal_opt_ascii") then Some (EString d) else None
      | [ANum x; ANum y] =>
          if bool_decide (f = bytes "_ordered_choice_match_range") && (x <? u32_modulus) && (y <? u32_modulus) then Some (ERange x y) else None
      | [ARef x] => g ← unary f; e ← v x; Some (g e)
      | [ARef x; ARef y] => g ← binary f; e ← v x; e' ← v y; Some (g e e')
      | [AName u; AVariant r; AName c; AName g] =>
          if bool_decide (f = bytes "_var_name") && bool_decide (u = bytes "user_state") && bool_decide (c = bytes "context")
          then i ← variant r; j ← global lo g; Some (EVar i j) else None
      | [AName u; ARef s; AVariant r; AName c; AName g] =>
          if bool_decide (f = bytes "_var_name_indirect_left_recursion") && bool_decide (u = bytes "user_state") &&
             bool_decide (s = involved_set) && bool_decide (c = bytes "context")
          then l ← lo_involved lo; i ← variant r; j ← global lo g; Some (ELR l i j) else None
      | _ => None
      end
    else
      match local f (lo_vars lo) with
      | Some _ => None
      | None =>
        h ← index_of f (sc_hooks sc);
        match a with
        | [AName a1; AName a2; AName a3; AName a4; AName a5; ARef x] =>
            if bool_decide ([a1; a2; a3; a4; a5] = parameters) then e ← v x; Some (EHook h e) else None
        | _ => None
        end
      end.
  (** Variables that may be bound: not those the reading relies on. *)
  Definition bindable (v : list N) : bool := bool_decide (v ∉ involved_set :: parameters ++ combinators).
  Definition bind_local (v : list N) (e : expr) (lo : locals) : locals := Locals ((v, e) :: lo_vars lo) (lo_involved lo).
  Fixpoint body_meaning (lo : locals) (l : list rstmt) : option expr :=
    match l with
    | [] => None
    | RLet v f a :: l => if bindable v then e ← closure_of lo f a; body_meaning (bind_local v e lo) l else None
    | RMove v f a :: l =>
        if bindable v && bool_decide (a = map AName parameters)
        then j ← global lo f; body_meaning (bind_local v (EInline j) lo) l else None
    | RInvolved vs :: l => i ← all_some (map variant vs); body_meaning (Locals (lo_vars lo) (Some i)) l
    | RTail f a :: l =>
        if bool_decide (l = []) && bool_decide (a = map AName [bytes "parent"; bytes "source"; bytes "position"])
        then local f (lo_vars lo) else None
    end.
End meaning.

(** A crate's parser.rs and rules.rs: names of functions, hooks and variants,
    RULES_SIZE, and the expression each function evaluates.  rustc rejects
    items defined or imported twice; names the reading relies on must not be
    redefined. *)
Record crate := Crate { rc_fns : list (list N); rc_hooks : list (list N); rc_variants : list (list N); rc_size : N; rc_table : list expr }.
Definition items_ok (fns hooks variants : list (list N)) : Prop :=
  NoDup (involved_set :: parameters ++ combinators ++ fns ++ hooks) /\ NoDup variants.
Definition read_crate (parser_rs rules_rs : list N) : option crate :=
  '(hooks, fs) ← read_parser_rs parser_rs;
  '(variants, size) ← read_rules_rs rules_rs;
  let fns := map rf_name fs in
  if bool_decide (items_ok fns hooks variants)
  then t ← all_some (map (fun f => body_meaning (Scope fns variants hooks) (Locals [] None) (rf_body f)) fs); Some (Crate fns hooks variants size t)
  else None.
