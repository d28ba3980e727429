(** Model of the runner (runner/src/data.rs): the file-system calls the tool
    makes, as a program whose next call may depend on the answers so far, and
    the effect of each call on the disk, completed, failed or cut short. *)
From Coq Require Import Ascii String.
From stdpp Require Import base list option gmap.
From Verif Require Export Base Programs.
Local Open Scope N_scope.

Notation dir := (list N) (only parsing).
Notation fname := (list N) (only parsing).

(** A directory entry: a regular file with its bytes, or a subdirectory.
    Simplification: no symbolic links, permissions or timestamps. *)
Inductive inode := File (c : list N) | Subdir.
Record fsys := FS { fs_dirs : gset (list N); fs_files : gmap (list N * list N) inode }.
Definition set_file (s : fsys) (d n : list N) (i : inode) : fsys := FS (fs_dirs s) (<[(d, n) := i]> (fs_files s)).
Definition del_file (s : fsys) (d n : list N) : fsys := FS (fs_dirs s) (delete (d, n) (fs_files s)).
Definition add_dir (s : fsys) (d : list N) : fsys := FS ({[d]} ∪ fs_dirs s) (fs_files s).
(** A regular file can be opened for writing at [d]/[n]. *)
Definition writable (s : fsys) (d n : list N) : bool :=
  bool_decide (d ∈ fs_dirs s) && match fs_files s !! (d, n) with Some Subdir => false | _ => true end.

(** String::from_utf8 (core::str::validations): shortest forms, no surrogates. *)
Definition cont (c : N) : bool := (128 <=? c) && (c <? 192).
Fixpoint from_utf8 (l : list N) : bool :=
  match l with
  | [] => true
  | a :: l1 =>
    if a <? 128 then from_utf8 l1 else
    match l1 with
    | [] => false
    | b :: l2 =>
      if (194 <=? a) && (a <? 224) then cont b && from_utf8 l2 else
      match l2 with
      | [] => false
      | c :: l3 =>
        if (224 <=? a) && (a <? 240) then
          cont b && cont c && negb ((a =? 224) && (b <? 160)) && negb ((a =? 237) && (160 <=? b)) && from_utf8 l3 else
        match l3 with
        | [] => false
        | d :: l4 => (240 <=? a) && (a <? 245) && cont b && cont c && cont d &&
            negb ((a =? 240) && (b <? 144)) && negb ((a =? 244) && (144 <=? b)) && from_utf8 l4
        end
      end
    end
  end.

(** Calls to the operating system. *)
Inductive call :=
  | CMkDir (d : list N)                      (* std::fs::create_dir *)
  | CCargo (root src : list N)               (* cargo init / cargo add, data.rs:64-102 *)
  | CIsDir (d : list N)                      (* Path::is_dir *)
  | CList (d : list N)                       (* fs::read_dir *)
  | CExists (d n : list N)                   (* std::fs::exists *)
  | CCreate (d n : list N)                   (* File::create *)
  | CCopy (d n d' n' : list N)               (* fs::copy d/n to d'/n' *)
  | CWrite (d n c : list N)                  (* fs::write *)
  | CRead (d n : list N)                     (* fs::read *)
  | CRemove (d n : list N).                  (* fs::remove_file *)
Inductive reply := RUnit | RErr | RBool (b : bool) | RNames (l : list (list N)) | RData (c : list N).

Inductive outcome := Finished | Failed | Exited | Panicked.
Inductive prog := Stop (o : outcome) | Call (c : call) (k : reply -> prog).

(** What a file copied by fs::copy contains afterwards: copying a file onto
    itself truncates it before reading. *)
Definition copied (d n d' n' c : list N) : list N := if bool_decide ((d, n) = (d', n')) then [] else c.

(** A completed call: [does c s s' r].  Directory listings come in any order.
    cargo may do anything in the package root and create src and src/main.rs;
    it changes no file that exists in src (assumption about cargo). *)
Inductive does : call -> fsys -> fsys -> reply -> Prop :=
  | do_mkdir d s : d ∉ fs_dirs s -> does (CMkDir d) s (add_dir s d) RUnit
  | do_mkdir_exists d s : d ∈ fs_dirs s -> does (CMkDir d) s s RUnit
  | do_cargo root src s s' :
      (forall d n, d <> root -> (d <> src \/ n <> bytes "main.rs" \/ is_Some (fs_files s !! (d, n))) -> fs_files s' !! (d, n) = fs_files s !! (d, n)) ->
      (fs_files s' !! (src, bytes "main.rs") = Some Subdir -> fs_files s !! (src, bytes "main.rs") = Some Subdir) ->
      (forall d, d ∈ fs_dirs s -> d ∈ fs_dirs s') -> does (CCargo root src) s s' RUnit
  | do_isdir d s : does (CIsDir d) s s (RBool (bool_decide (d ∈ fs_dirs s)))
  | do_list d s l : NoDup l -> (forall n, n ∈ l <-> is_Some (fs_files s !! (d, n))) -> does (CList d) s s (RNames l)
  | do_exists d n s : does (CExists d n) s s (RBool (bool_decide (is_Some (fs_files s !! (d, n)))))
  | do_create d n s : writable s d n = true -> does (CCreate d n) s (set_file s d n (File [])) RUnit
  | do_create_fail d n s : writable s d n = false -> does (CCreate d n) s s RErr
  | do_copy d n d' n' c s : fs_files s !! (d, n) = Some (File c) -> writable s d' n' = true ->
      does (CCopy d n d' n') s (set_file s d' n' (File (copied d n d' n' c))) RUnit
  | do_copy_fail d n d' n' s : (forall c, fs_files s !! (d, n) <> Some (File c)) \/ writable s d' n' = false -> does (CCopy d n d' n') s s RErr
  | do_write d n c s : writable s d n = true -> does (CWrite d n c) s (set_file s d n (File c)) RUnit
  | do_write_fail d n c s : writable s d n = false -> does (CWrite d n c) s s RErr
  | do_read d n c s : fs_files s !! (d, n) = Some (File c) -> does (CRead d n) s s (RData c)
  | do_read_fail d n s : (forall c, fs_files s !! (d, n) <> Some (File c)) -> does (CRead d n) s s RErr
  | do_remove d n c s : fs_files s !! (d, n) = Some (File c) -> does (CRemove d n) s (del_file s d n) RUnit
  | do_remove_fail d n s : (forall c, fs_files s !! (d, n) <> Some (File c)) -> does (CRemove d n) s s RErr.

(** What a call can leave behind when it fails (disk full, I/O error) or when
    the process is killed inside it: writes are cut short after any byte. *)
Inductive partially : call -> fsys -> fsys -> Prop :=
  | pa_nothing c s : partially c s s
  | pa_done c s s' r : does c s s' r -> partially c s s'
  | pa_copy d n d' n' c k s : fs_files s !! (d, n) = Some (File c) -> writable s d' n' = true ->
      partially (CCopy d n d' n') s (set_file s d' n' (File (take k (copied d n d' n' c))))
  | pa_write d n c k s : writable s d n = true -> partially (CWrite d n c) s (set_file s d n (File (take k c))).
(** The answer to a failed call: an error, or a listing that broke off. *)
Inductive failure (s : fsys) : call -> reply -> Prop :=
  | fa_err c : failure s c RErr
  | fa_list d l : NoDup l -> (forall n, n ∈ l -> is_Some (fs_files s !! (d, n))) -> failure s (CList d) (RNames l).

(** A run in which no call fails for outside reasons. *)
Inductive completes : prog -> fsys -> fsys -> outcome -> Prop :=
  | co_stop o s : completes (Stop o) s s o
  | co_call c k s s' s'' r o : does c s s' r -> completes (k r) s' s'' o -> completes (Call c k) s s'' o.
(** [visits p s s']: started in [s], the disk may be in state [s'] at some
    moment, with any failures and the process killed at any point. *)
Inductive visits : prog -> fsys -> fsys -> Prop :=
  | vi_here p s : visits p s s
  | vi_inside c k s s' : partially c s s' -> visits (Call c k) s s'
  | vi_call c k s s' s'' r : does c s s' r -> visits (k r) s' s'' -> visits (Call c k) s s''
  | vi_failed c k s s' s'' r : partially c s s' -> failure s c r -> visits (k r) s' s'' -> visits (Call c k) s s''.

Section runner.
  (** Package directory, its src, and the runtime's src (data.rs:53, 104-105);
      the generated texts; the header of main.rs; whether cargo is run (the
      flag [offline] holds the negation of the option, main.rs:23). *)
  Context (root src core : list N) (rules_rs parser_rs header : list N) (with_cargo : bool).

  Definition is_handwritten (n : list N) : bool := bool_decide (n = bytes "hooked_calls.rs") || bool_decide (n = bytes "user_state.rs").

  (** runner/src/data.rs:125-152, the loop; [k] continues after it returned
      (with an error or not: the caller ignores it, data.rs:107). *)
  Fixpoint copy_entries (l : list (list N)) (k : prog) : prog :=
    match l with
    | [] => k
    | n :: l =>
      let copy := Call (CCreate src n) (fun _ =>
        Call (CCopy core n src n) (fun r => match r with RErr => k | _ => copy_entries l k end)) in
      if is_handwritten n then
        Call (CExists src n) (fun r =>
          match r with RErr => k | RBool true => copy_entries l k | _ => copy end)
      else copy
    end.
  (** runner/src/data.rs:123-158 *)
  Definition copy_dir_contents_to_dir (k : prog) : prog :=
    Call (CIsDir core) (fun r =>
      match r with
      | RBool true => Call (CList core) (fun r => match r with RNames l => copy_entries l k | _ => k end)
      | _ => Stop Panicked
      end).
  (** runner/src/data.rs:108-117 *)
  Definition write_generated : prog :=
    Call (CWrite src (bytes "rules.rs") rules_rs) (fun _ =>
    Call (CWrite src (bytes "parser.rs") parser_rs) (fun _ =>
    Call (CRead core (bytes "sample_main.txt")) (fun r =>
      match r with
      | RData content =>
        if from_utf8 content then
          Call (CWrite src (bytes "main.rs") (header ++ content)) (fun _ =>
          Call (CRemove src (bytes "sample_main.txt")) (fun r => match r with RErr => Stop Failed | _ => Stop Finished end))
        else Stop Failed
      | _ => Stop Failed
      end))).
  (** runner/src/data.rs:50-121 and create_dir, 160-175 (AlreadyExists is not an
      error).  The generator has run before (line 52): its result is in
      [rules_rs] and [parser_rs]. *)
  Definition generate_data : prog :=
    Call (CMkDir root) (fun r =>
      match r with
      | RErr => Stop Exited
      | _ =>
        let rest := copy_dir_contents_to_dir write_generated in
        if with_cargo then Call (CCargo root src) (fun _ => rest) else rest
      end).
End runner.
(** data.rs:42-52: when the generator fails the tool panics first. *)
Definition run_tool (root src core header : list N) (with_cargo : bool) (generated : option (list N * list N)) : prog :=
  match generated with
  | None => Stop Panicked
  | Some (rules_rs, parser_rs) => generate_data root src core rules_rs parser_rs header with_cargo
  end.
