(** Shared vocabulary of the model: machine integers, panics, the result type
    and the state monad in which the Rust code is transcribed.

    The Rust sources are under /repo; every definition of the model files
    cites the lines it transcribes. *)
From stdpp Require Export base list gmap option.
From stdpp Require Export numbers.
From Coq Require Export NArith Lia.
Global Open Scope N_scope.

(** u32 arithmetic (all positions and keys of the runtime are [u32]).
    [2^32] written as a binary [N]. *)
Definition u32_modulus : N := 4294967296.

(** [x as u32] for a [usize] x: truncation (parser/src/source.rs:20,
    parser/src/parse.rs:11). *)
Definition as_u32 (x : N) : N := x `mod` u32_modulus.

(** The ways in which the Rust code can panic.  A debug build is modelled:
    arithmetic overflow and [debug_assert!] failures are panics (a release
    build would wrap resp. skip the check; theorems stating that no panic is
    reached therefore cover both profiles). *)
Inductive panic : Type :=
  | PIndex            (* Vec / slice index out of bounds *)
  | PKeyOverflow      (* len.try_into::<u32>().unwrap() in add_node *)
  | PDebugAssert      (* debug_assert! failure *)
  | POverflow         (* u32 arithmetic overflow *)
  | PExpectHead       (* "Should exist by now" / "Should always exist ..." *)
  | PExpectActive     (* "Active LR Should exist when in LR code." *)
  | PStrSlice         (* str slicing out of range or off a char boundary *)
  | PNoFunction       (* no such function: rustc would have rejected it *)
  | PBorrow           (* RefCell already (mutably) borrowed: Borrow.v only *)
  | PExplicit.        (* panic!/panic_any/todo!/expect in the generator *)

Inductive res (A : Type) : Type :=
  | Ok (a : A)
  | Panic (p : panic)
  | NoFuel.           (* the model ran out of fuel: no Rust counterpart *)
Global Arguments Ok {A} a.
Global Arguments Panic {A} p.
Global Arguments NoFuel {A}.

Definition rbind {A B} (x : res A) (f : A -> res B) : res B :=
  match x with Ok a => f a | Panic p => Panic p | NoFuel => NoFuel end.
Definition rmap {A B} (f : A -> B) (x : res A) : res B := rbind x (fun a => Ok (f a)).

(** State-passing: a Rust function mutating through RefCell<T> / &mut becomes
    a function returning the new state. *)
Definition M (S A : Type) : Type := S -> res (A * S).
Definition mret {S A} (a : A) : M S A := fun s => Ok (a, s).
Definition mbind' {S A B} (x : M S A) (f : A -> M S B) : M S B :=
  fun s => rbind (x s) (fun '(a, s') => f a s').
Definition mpanic {S A} (p : panic) : M S A := fun _ => Panic p.
Definition mnofuel {S A} : M S A := fun _ => NoFuel.

Declare Scope monad_scope.
Delimit Scope monad_scope with monad.
Global Notation "'do' x <- m ; k" := (mbind' m (fun x => k))
  (at level 200, x pattern, m at level 100, k at level 200, right associativity) : monad_scope.
Global Notation "'let!' x := m 'in' k" := (rbind m (fun x => k))
  (at level 200, x pattern, m at level 100, k at level 200, right associativity).
Global Open Scope monad_scope.

Lemma rbind_Ok_inv {A B} (x : res A) (f : A -> res B) b :
  rbind x f = Ok b -> exists a, x = Ok a /\ f a = Ok b.
Proof. destruct x; cbn; try discriminate. eauto. Qed.

Lemma mbind_Ok_inv {S A B} (x : M S A) (f : A -> M S B) s b s' :
  mbind' x f s = Ok (b, s') -> exists a s1, x s = Ok (a, s1) /\ f a s1 = Ok (b, s').
Proof.
  unfold mbind'. intros H. apply rbind_Ok_inv in H as [[a s1] [H1 H2]]. eauto.
Qed.
