(** Specification for C65: which server counts as up to date, and what a run of cdc_rsync may do
    to the device. *)
From Verif Require Import Base.
From Coq Require Import ZArith.
Local Notation str := (list N).

(** A server binary: build version, file name, size and modification time. *)
Record component : Type := comp { c_version : str; c_name : str; c_size : N; c_mtime : Z }.
Definition dev : str := [68; 69; 86]%N.

(** Up to date, as documented (common/gamelet_component.cc:42-44): if either side was built
    locally, size and time decide, else the build versions. *)
Definition up_to_date (client server : component) : Prop :=
  c_name client = c_name server /\
  ((c_version client = dev \/ c_version server = dev) -> c_size client = c_size server /\ c_mtime client = c_mtime server) /\
  (c_version client <> dev -> c_version server <> dev -> c_version client = c_version server).

Inductive arch : Type := Linux | Windows.
(** What cdc_rsync does on the way. *)
Inductive action : Type := Start (a : arch) | Detect | Deploy (a : arch) | SyncFiles | Stop.
(** What became of an attempt to start the server: it did not come up, it exited with a code before
    it listened, it is up and connected. *)
Inductive attempt : Type := Failed | Exited (code : N) | Up.
Inductive sync_result : Type := SyncOk | SyncEof | SyncFailed.
(** What the user is told. *)
Inductive verdict : Type := Done | NotStarted | NotDeployed | NotDetected | NotSynced | NotStopped | Disconnected
  | ServerFailed (code : N) (message : str).

Definition count (P : action -> bool) (l : list action) : nat := length (filter P l).
Definition is_start (x : action) : bool := match x with Start _ => true | _ => false end.
Definition is_detect (x : action) : bool := match x with Detect => true | _ => false end.
Definition is_deploy (x : action) : bool := match x with Deploy _ => true | _ => false end.

(** A field of the command line: not empty, no blank. *)
Definition word (s : str) : Prop := s <> [] /\ ~ In 32%N s.
(** The numbers a server reads on its command line fit its type long. *)
Definition fits (bits : Z) (c : component) : Prop :=
  (Z.of_N (c_size c) < 2 ^ (bits - 1))%Z /\ (- 2 ^ (bits - 1) <= c_mtime c < 2 ^ (bits - 1))%Z.
Definition long_bits (a : arch) : Z := match a with Linux => 64 | Windows => 32 end.
(** An exit code which cdc_rsync_server does not use itself (after it has read its command line). *)
Definition plain_code (c : N) : Prop := ~ (51 <= c <= 53)%N.
(** The binaries that come with a client can be named on a command line. *)
Definition good_bin (bin : arch -> component) : Prop :=
  forall a, word (c_version (bin a)) /\ word (c_name (bin a)) /\ fits (long_bits a) (bin a).
