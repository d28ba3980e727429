(** Specification: well-formed UTF-8 (overlong forms and surrogates are not
    excluded: every Rust [String] satisfies this). *)
From stdpp Require Import base list numbers.
From Coq Require Import NArith.
Local Open Scope N_scope.

Definition continuation (c : N) : Prop := 128 <= c < 192.
Inductive utf8 : list N -> Prop :=
  | utf8_nil : utf8 []
  | utf8_1 a l : a < 128 -> utf8 l -> utf8 (a :: l)
  | utf8_2 a b l : 192 <= a < 224 -> continuation b -> utf8 l -> utf8 (a :: b :: l)
  | utf8_3 a b c l : 224 <= a < 240 -> continuation b -> continuation c -> utf8 l -> utf8 (a :: b :: c :: l)
  | utf8_4 a b c d l : 240 <= a < 248 -> continuation b -> continuation c -> continuation d -> utf8 l ->
      utf8 (a :: b :: c :: d :: l).
