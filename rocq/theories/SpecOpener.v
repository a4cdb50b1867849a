(** Specification for C60: opening many files in the background (cdc_rsync/
    parallel_file_opener.h), as seen from outside. Files are named by their position in
    file_indices. *)
From Verif Require Import Base.

Inductive event : Type :=
| EOpened (n : nat) (ok : bool)   (* a background thread has tried to open file [n] *)
| ECall                           (* the caller calls GetNextOpenFile *)
| EGet (n : nat)                  (* it returns the open file [n], which the caller now owns *)
| ENull                           (* it returns nullptr *)
| EDestroy                        (* the opener's destructor is called *)
| EClosed (n : nat)               (* the opener closes file [n] *)
| EDone                           (* the destructor returns *)
| EAbort                          (* the process aborts *)
| EInt.                           (* internal step *)
Definition opens (tr : list event) : list nat := flat_map (fun e => match e with EOpened n true => [n] | _ => [] end) tr.
Definition gets (tr : list event) : list nat := flat_map (fun e => match e with EGet n => [n] | _ => [] end) tr.
Definition closes (tr : list event) : list nat := flat_map (fun e => match e with EClosed n => [n] | _ => [] end) tr.
(** GetNextOpenFile has been called and has not returned. *)
Definition waiting (tr : list event) : bool :=
  fold_left (fun w e => match e with ECall => true | EGet _ | ENull | EAbort => false | _ => w end) tr false.
Definition count (f : event -> bool) (tr : list event) : nat := length (filter f tr).
