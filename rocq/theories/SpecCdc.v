(** Vocabulary for the statements about the signature/diff/patch exchange. *)
From Verif Require Import Base ModelFastcdc SpecFastcdc ModelCdc.
Local Open Scope N_scope.

(** [cs] are the content-defined chunks of [file]. *)
Definition chunks_of (w : nat) (gear : byte -> N) (cfg : config) (file : bytes) (cs : list bytes) : Prop :=
  is_chunking w gear cfg cs /\ concat cs = file.

(** The assumption on BLAKE3: no chunk of one file has the same hash as a
    different chunk of the other file. *)
Definition no_collisions (hash : bytes -> N) (cs1 cs2 : list bytes) : Prop :=
  forall c1 c2, In c1 cs1 -> In c2 cs2 -> hash c1 = hash c2 -> c1 = c2.

(** Signature messages describe a chunk list if, read one after the other,
    they list every chunk's size and hash, and none is empty. *)
Definition describes (hash : bytes -> N) (batches : list sigmsg) (cs : list bytes) : Prop :=
  concat (map sm_sizes batches) = map (fun c => N.of_nat (length c)) cs /\
  concat (map sm_hashes batches) = map hash cs /\
  Forall (fun m => sm_sizes m <> [] /\ length (sm_hashes m) = length (sm_sizes m)) batches.

(** Does some chunk in the list have this chunk's hash? *)
Definition known (hash : bytes -> N) (cs : list bytes) (c : bytes) : bool :=
  existsb (fun b => hash b =? hash c) cs.

(** Magic numbers for executables: ELF, "#!/" and "MZ". *)
Definition looks_executable (file : bytes) : Prop :=
  4 <= N.of_nat (length file) /\
  ((exists r, file = [127; 69; 76; 70] ++ r) \/ (exists r, file = [35; 33; 47] ++ r) \/
   (exists r, file = [77; 90] ++ r)).
