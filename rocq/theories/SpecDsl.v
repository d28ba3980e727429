(** Specification: the concrete syntax of the grammar DSL, as a relation
    between text and abstract syntax.  It mentions neither the parser nor the
    generator: [file_text s rules] says that the bytes [s] spell the rules. *)
From stdpp Require Import base list option numbers.
From Coq Require Import NArith.
From Verif Require Import SpecPeg.
Local Open Scope N_scope.

(** One bound of a character range [a..b]. *)
Inductive dbound : Type := BQuoted (c : list N) | BHex (digits : list N) | BInt (digits : list N).

(** Right-hand sides. *)
Inductive dexp : Type :=
  | DQuoted (c : list N)        (* 'c', '\n' (two bytes between the quotes), '' *)
  | DString (l : list N)        (* "..." *)
  | DHexLit (digits : list N)   (* 0x.. as an item *)
  | DIntLit (digits : list N)   (* 12 as an item *)
  | DRange (a b : dbound)       (* [a..b] *)
  | DRef (n : list N)           (* <n> *)
  | DGroup (e : dexp)           (* (e) *)
  | DHook (n : list N) (e : dexp)  (* n(e) *)
  | DAnd (e : dexp) | DNot (e : dexp) | DPlus (e : dexp) | DStar (e : dexp) | DOpt (e : dexp)
  | DSeq (es : list dexp)       (* e1 , e2 , ... *)
  | DAlt (es : list dexp).      (* e1 / e2 / ... *)

(** <name> [Inline] = body ;  followed by comments *)
Record drule := DRule { dr_name : list N; dr_inline : bool; dr_body : dexp; dr_comments : list (list N) }.

Definition letter (c : N) : Prop := 97 <= c <= 122 \/ 65 <= c <= 90.
Definition digit (c : N) : Prop := 48 <= c <= 57.
Definition hex_char (c : N) : Prop := 48 <= c <= 57 \/ 65 <= c <= 70.
Definition valid_name (n : list N) : Prop :=
  exists c r, n = c :: r /\ letter c /\ Forall (fun c => letter c \/ c = 95) r.

Section text.
  Context (s : list N).

  (** The bytes from [i] up to [j] are exactly [l]. *)
  Definition text (i j : N) (l : list N) : Prop := j = i + N.of_nat (length l) /\ occurs_at s i l.

  (** Blanks: spaces, newlines, carriage returns, tabs. *)
  Definition blank (i j : N) : Prop :=
    exists l, text i j l /\ Forall (fun c => c = 32 \/ c = 10 \/ c = 13 \/ c = 9) l.

  Inductive quoted (i j : N) : list N -> Prop :=
    | q_char c : text i j [39; c; 39] -> c <= 255 -> quoted i j [c]
    | q_escape c : text i j [39; 92; c; 39] -> c = 110 \/ c = 114 \/ c = 116 -> quoted i j [92; c]
    | q_empty : text i j [39; 39] -> quoted i j [].

  Definition hexnum (i j : N) (ds : list N) : Prop := text i j (48 :: 120 :: ds) /\ ds <> [] /\ Forall hex_char ds.
  Definition integer (i j : N) (ds : list N) : Prop :=
    text i j ds /\ exists d r, ds = d :: r /\ 49 <= d <= 57 /\ Forall digit r.

  Inductive bound_text (i j : N) : dbound -> Prop :=
    | bt_quoted c : quoted i j c -> bound_text i j (BQuoted c)
    | bt_hex ds : hexnum i j ds -> bound_text i j (BHex ds)
    | bt_int ds : integer i j ds -> bound_text i j (BInt ds).

  (** At least two bytes, none of them a double quote. *)
  Definition string_body (l : list N) : Prop := (2 <= length l)%nat /\ Forall (fun c => c <> 34 /\ c <= 255) l.

  Inductive rhs_text : N -> N -> dexp -> Prop :=
    | rt_seq i k j es : blank i k -> items_text 44 k j es -> (2 <= length es)%nat -> rhs_text i j (DSeq es)
    | rt_alt i k j es : blank i k -> items_text 47 k j es -> (2 <= length es)%nat -> rhs_text i j (DAlt es)
    | rt_one i k j e : blank i k -> atom_text k j e -> rhs_text i j e
  with items_text : N -> N -> N -> list dexp -> Prop :=
    | it_one sep i j e : atom_text i j e -> items_text sep i j [e]
    | it_cons sep i j k l m e es : atom_text i j e -> blank j k -> text k (k + 1) [sep] -> blank (k + 1) l ->
        items_text sep l m es -> items_text sep i m (e :: es)
  with atom_text : N -> N -> dexp -> Prop :=
    | at_and i j k e : text i (i + 1) [38] -> nucleus_text (i + 1) j e -> blank j k -> atom_text i k (DAnd e)
    | at_not i j k e : text i (i + 1) [33] -> nucleus_text (i + 1) j e -> blank j k -> atom_text i k (DNot e)
    | at_plus i j k l e : nucleus_text i j e -> blank j k -> text k (k + 1) [43] -> blank (k + 1) l -> atom_text i l (DPlus e)
    | at_star i j k l e : nucleus_text i j e -> blank j k -> text k (k + 1) [42] -> blank (k + 1) l -> atom_text i l (DStar e)
    | at_opt i j k l e : nucleus_text i j e -> blank j k -> text k (k + 1) [63] -> blank (k + 1) l -> atom_text i l (DOpt e)
    | at_plain i j k e : nucleus_text i j e -> blank j k -> atom_text i k e
  with nucleus_text : N -> N -> dexp -> Prop :=
    | nt_range i a b c d e f k x y :
        blank i a -> text a (a + 1) [91] -> blank (a + 1) b -> bound_text b c x ->
        text c d [46; 46] -> bound_text d e y -> blank e f -> text f (f + 1) [93] -> blank (f + 1) k ->
        nucleus_text i k (DRange x y)
    | nt_hook i a b k n e : valid_name n -> text i a n -> text a (a + 1) [40] -> rhs_text (a + 1) b e ->
        text b (b + 1) [41] -> blank (b + 1) k -> nucleus_text i k (DHook n e)
    | nt_group i b k e : text i (i + 1) [40] -> rhs_text (i + 1) b e -> text b (b + 1) [41] -> blank (b + 1) k ->
        nucleus_text i k (DGroup e)
    | nt_quoted i j k c : quoted i j c -> blank j k -> nucleus_text i k (DQuoted c)
    | nt_string i j k l : text i j (34 :: l ++ [34]) -> string_body l -> blank j k -> nucleus_text i k (DString l)
    | nt_hex i j k ds : hexnum i j ds -> blank j k -> nucleus_text i k (DHexLit ds)
    | nt_int i j k ds : integer i j ds -> blank j k -> nucleus_text i k (DIntLit ds)
    | nt_ref i j k n : text i j (60 :: n ++ [62]) -> valid_name n -> blank j k -> nucleus_text i k (DRef n).

  (** # ... # *)
  Definition comment_text (i j : N) (l : list N) : Prop :=
    exists a b, blank i a /\ text a b (35 :: l ++ [35]) /\ Forall (fun c => c <> 35 /\ c <= 255) l /\ blank b j.
  Inductive comments_text : N -> N -> list (list N) -> Prop :=
    | ct_nil i : comments_text i i []
    | ct_cons i j k l ls : comment_text i j l -> comments_text j k ls -> comments_text i k (l :: ls).

  Definition keyword_inline : list N := [73; 110; 108; 105; 110; 101].

  Definition rule_text (i j : N) (r : drule) : Prop :=
    exists a b c d e f g,
      text i a (60 :: dr_name r ++ [62]) /\ valid_name (dr_name r) /\
      (if dr_inline r then exists x y, blank a x /\ text x y keyword_inline /\ blank y b else b = a) /\
      blank b c /\ text c (c + 1) [61] /\ blank (c + 1) d /\
      rhs_text d e (dr_body r) /\ blank e f /\ text f (f + 1) [59] /\ blank (f + 1) g /\
      comments_text g j (dr_comments r).
  Inductive rules_text : N -> N -> list drule -> Prop :=
    | ru_nil i : rules_text i i []
    | ru_cons i j k r rs : rule_text i j r -> rules_text j k rs -> rules_text i k (r :: rs).
End text.

(** The whole file: one or more rules and trailing blanks. *)
Definition file_text (s : list N) (rules : list drule) : Prop :=
  exists i, rules <> [] /\ rules_text s 0 i rules /\ blank s i (N.of_nat (length s)).
