(** Specification vocabulary for the file diff (C12, C13). *)
From Verif Require Import Base ListX Str ModelFileDiff.
Local Open Scope N_scope.

(** [sort] is a correct sorting function for the key: any sorted permutation,
    in particular not necessarily stable. *)
Definition sorts {A} (key : A -> bytes) (sort : list A -> list A) : Prop :=
  forall l, Permutation l (sort l) /\ StronglySorted (fun a b => sle (key a) (key b)) (sort l).

(** [reps] picks exactly one entry of [l] for every path occurring in [l]. *)
Definition one_per_path {A} (key : A -> bytes) (l reps : list A) : Prop :=
  NoDup (map key reps) /\ (forall x, In x reps -> In x l) /\
  (forall x, In x l -> exists y, In y reps /\ key y = key x).

(** The server-side file a client file is compared with: the one the search
    listed under the same path; if there is none and the server is asked to
    double check, the file found in the destination directory, else the one
    found in the copy-dest directory. *)
Inductive server_side (stat : ptr -> bytes -> option (Z * N)) (base : ptr) (copy_dest : option ptr)
    (double_check : bool) (server_files : list finfo) (path : bytes) : finfo -> Prop :=
| ss_listed s : In s server_files -> fi_path s = path ->
    server_side stat base copy_dest double_check server_files path s
| ss_base mtime size : double_check = true -> ~ In path (map fi_path server_files) ->
    stat base path = Some (mtime, size) ->
    server_side stat base copy_dest double_check server_files path (mk_finfo path mtime size kInvalidIndex base)
| ss_copy c mtime size : double_check = true -> ~ In path (map fi_path server_files) ->
    stat base path = None -> copy_dest = Some c -> stat c path = Some (mtime, size) ->
    server_side stat base copy_dest double_check server_files path (mk_finfo path mtime size kInvalidIndex c).

(** Up to date: same size and time, and the file lies in the destination (a
    file of the copy-dest directory still has to be copied over). *)
Definition up_to_date (copy_dest : option ptr) (client server : finfo) : Prop :=
  fi_size client = fi_size server /\ fi_mtime client = fi_mtime server /\
  copy_dest <> Some (fi_base server).
