(** generator/src/binary_wo.rs and generator/src/constructor.rs: the text the
    generator writes, byte by byte. *)
From Coq Require Import Ascii String.
From Verif Require Export Constructor.
From Verif Require Import Programs.
Local Open Scope N_scope.

(** [{}] and [{:?}] of an unsigned number: decimal, no leading zeros. *)
Fixpoint dec_digits (fuel : nat) (n : N) : list N :=
  match fuel with
  | O => []
  | S fuel => if n <? 10 then [48 + n] else dec_digits fuel (n / 10) ++ [48 + n mod 10]
  end.
Definition dec (n : N) : list N := dec_digits (S (N.to_nat (N.log2 n))) n.

(** [format!("closure_{:?}", k)] as it occurs in binary_wo.rs:114-441. *)
Definition closure (k : N) : list N := bytes "closure_" ++ dec k.
(** [let closure_{:?} = ...;] *)
Definition let_closure (k : N) (rhs : list N) : list N := bytes "let " ++ closure k ++ bytes " = " ++ rhs ++ bytes ";".
Definition call1 (f : list N) (a : N) : list N := f ++ bytes "(&" ++ closure a ++ bytes ")".
Definition call2 (f : list N) (a b : N) : list N := f ++ bytes "(&" ++ closure a ++ bytes ", &" ++ closure b ++ bytes ")".

Section render.
  (** [{:?}] of a Vec<char>: left open (binary_wo.rs:134-137). *)
  Context (debug_chars : list N -> list N).

  (** binary_wo.rs:383-398: "Rules::R, " for each rule, the last two bytes popped. *)
  Fixpoint rules_list (l : list name) : list N :=
    match l with
    | [] => []
    | [r] => bytes "Rules::" ++ r
    | r :: l => bytes "Rules::" ++ r ++ bytes ", " ++ rules_list l
    end.

  Definition render_stmt (s : stmt) : list N :=
    match s with
    (* 134-137 *) | SString k c => let_closure k (bytes "_string_terminal(&" ++ debug_chars c ++ bytes ")")
    (* 149-158: each char pushed as it is; all are below 128 here *)
                  | SStringAscii k c => let_closure k (bytes "_string_terminal_opt_ascii(b""" ++ c ++ bytes """)")
    (* 171-174 *) | SRange k a b => let_closure k (bytes "_ordered_choice_match_range(" ++ dec a ++ bytes ", " ++ dec b ++ bytes ")")
    (* 189-192 *) | SAnd k a => let_closure k (call1 (bytes "_and_predicate") a)
    (* 206-209 *) | SNot k a => let_closure k (call1 (bytes "_not_predicate") a)
    (* 223-226 *) | SPlus k a => let_closure k (call1 (bytes "_one_or_more") a)
    (* 239-242 *) | SStar k a => let_closure k (call1 (bytes "_zero_or_more") a)
    (* 256-259 *) | SHook k h a => let_closure k (h ++ bytes "(user_state, parent, context, source, position, &" ++ closure a ++ bytes ")")
    (* 272-275 *) | SSub k a => let_closure k (call1 (bytes "_subexpression") a)
    (* 288-291 *) | SOpt k a => let_closure k (call1 (bytes "_optional") a)
    (* 306-309 *) | SChoice k a b => let_closure k (call2 (bytes "_ordered_choice") a b)
    (* 324-327 *) | SSeq k a b => let_closure k (call2 (bytes "_sequence") a b)
    (* 339-342 *) | STerminal k c => let_closure k (bytes "_terminal(b'" ++ c ++ bytes "')")
    (* 361-366 *) | SVar k r f => let_closure k (bytes "_var_name(user_state, Rules::" ++ r ++ bytes ", context, " ++ f ++ bytes ")")
    (* 380-401 *) | SInvolved rs => bytes "let involved_set: Vec<Rules> = [" ++ rules_list rs ++ bytes "].to_vec();"
    (* 412-417 *) | SLR k r f => let_closure k (bytes "_var_name_indirect_left_recursion(user_state, &involved_set, Rules::" ++ r ++ bytes ", context, " ++ f ++ bytes ")")
    (* 429-433 *) | SInline k f => let_closure k (bytes "move |parent: Key, source: &Source, position: u32| " ++ f ++ bytes "(user_state, parent, context, source, position)")
    (* 121 *)     | SExec k => closure k ++ bytes "(parent, source, position)"
    end.

  (** constructor.rs:229-234 *)
  Definition render_body (l : list stmt) : list N := concat (map (fun s => [9] ++ render_stmt s ++ [10]) l).
  (** constructor.rs:302-309: "\t// " ++ line ++ "\n" *)
  Definition render_comment (l : list (list N)) : list N := concat (map (fun c => [9] ++ bytes "// " ++ c ++ [10]) l).
  (** constructor.rs:249-261 *)
  Definition render_fn (f : gen_fn) : list N :=
    bytes "#[allow(dead_code)]" ++ [10] ++ bytes "pub fn " ++ gf_name f ++
    bytes "<T: Context>(user_state: &RefCell<UserState>, parent: Key, context: &RefCell<T>, source: &Source, position: u32) -> (bool, u32) {" ++ [10] ++
    render_comment (gf_comment f) ++ [10] ++ render_body (gf_body f) ++ [10] ++ bytes "}" ++ [10].

  (** constructor.rs:65-69: the names, each followed by a comma, the last comma popped. *)
  Fixpoint comma_separated (l : list name) : list N :=
    match l with [] => [] | [n] => n | n :: l => n ++ bytes "," ++ comma_separated l end.
  (** constructor.rs:56-63 *)
  Definition parser_header_fixed : list N :=
    bytes "#![allow(non_camel_case_types)] // Generated Code kinda annoying to deal with so w/e" ++ [10] ++
    bytes "#![allow(unused_variables)] // Generated Code also, since everything passes stuff" ++ [10] ++
    bytes "#![allow(unused_imports)] // Generated Code also, since everything passes stuff" ++ [10] ++
    bytes "use crate::*;" ++ [10] ++
    bytes "use std::cell::RefCell;".
  (** constructor.rs:64-72 *)
  Definition parser_header (imports : list name) : list N :=
    parser_header_fixed ++
    (if bool_decide (imports = []) then [] else bytes "use crate::hooked_calls::{" ++ comma_separated imports ++ bytes "};").
  (** constructor.rs:93-99 — parser_file_content. *)
  Definition parser_file_content (c : gen_code) : list N :=
    parser_header (gc_imports c) ++ [10] ++ concat (map render_fn (gc_fns c)).

  (** constructor.rs:153-174 — the text of the enum. *)
  Definition rules_enum (enum : list name) : list N :=
    bytes "pub enum Rules {" ++ [10] ++ concat (map (fun r => [9] ++ r ++ bytes "," ++ [10]) enum) ++ [10] ++ bytes "}".
  (** constructor.rs:35-47 (indoc! removes the common indentation) *)
  Definition rules_enum_header : list N :=
    bytes "#![allow(non_camel_case_types)] // Again due to generation -> Might solve eventually" ++ [10] ++
    bytes "use num_derive::FromPrimitive;" ++ [10] ++
    bytes "impl From<u32> for Rules {" ++ [10] ++
    bytes "    fn from(i: u32) -> Rules {" ++ [10] ++
    bytes "        let element = num::FromPrimitive::from_u32(i);" ++ [10] ++
    bytes "        match element {" ++ [10] ++
    bytes "            Some(rule) => rule," ++ [10] ++
    bytes "            None => panic!(""Not a valid Rule"")," ++ [10] ++
    bytes "        }" ++ [10] ++
    bytes "    }" ++ [10] ++
    bytes "}".
  (** constructor.rs:48-51 *)
  Definition rules_enum_header_2 : list N :=
    bytes "#[allow(clippy::upper_case_acronyms)] // Again due to generation -> Might solve eventually" ++ [10] ++
    bytes "#[derive(PartialEq, Eq, Hash, FromPrimitive, Clone, Copy, Debug, Ord, PartialOrd)]" ++ [10].
  (** constructor.rs:52-55, 102 *)
  Definition rules_size (size : N) : list N :=
    bytes "#[allow(dead_code)]" ++ [10] ++ bytes "pub static RULES_SIZE: u32 = " ++ bytes " " ++ dec size ++ bytes ";".
  (** constructor.rs:101-107 — rules_enum_file_content. *)
  Definition rules_enum_file_content (c : gen_code) : list N :=
    rules_enum_header ++ [10] ++ rules_size (gc_size c) ++ [10] ++ rules_enum_header_2 ++ [10] ++ rules_enum (gc_enum c).
End render.
