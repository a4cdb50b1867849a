(** Specification for C56: what cdc_stream's session manager is asked to do, and what can be
    observed of it. *)
From Verif Require Import Base.
Local Notation str := (list N).

(** How the outside world behaves during one call. *)
Record env : Type := mkenv {
  valid_dir : bool;              (* the directory to stream exists *)
  init_ok : bool;                (* cache, port and server can be set up *)
  start_ok : str -> bool;        (* the remote component of an instance starts *)
  ack_ok : str -> bool;          (* ... and acknowledges the manifest in time *)
  stop_ok : str -> bool;         (* ... can be stopped *)
  healthy : str -> bool }.       (* ... is running *)
Inductive op : Type :=
| Start (instance dir : str)     (* cdc_stream start *)
| Stop (pattern : str)           (* cdc_stream stop *)
| Shutdown                       (* the service is stopped *)
| RunnerFails (dir : str).       (* the first manifest of [dir] cannot be built *)
Inductive answer : Type := AOk | ANotFound | AError | ACrash.

(** Everything goes well. *)
Definition all_good : env := mkenv true true (fun _ => true) (fun _ => true) (fun _ => true) (fun _ => true).
