(** Specification for C51: what happens to one name in the watched directory. *)
From Verif Require Import Base Str ModelText ModelManifest ModelWatch.
Local Open Scope N_scope.

(** What is at a name: whether it is a directory, size and time; or nothing. *)
Definition fstat : Type := bool * N * N.
Definition n_stat (n : notification) : fstat := (n_dir n, n_size n, n_mtime n).

(** The notifications tell the story of the name [k] from [s] to [s'], in order, among
    those of other names. *)
Inductive story (k : bytes) (s : option fstat) : list notification -> option fstat -> Prop :=
| story_start : story k s [] s
| story_other ns s' n : story k s ns s' -> n_name n <> k -> story k s (ns ++ [n]) s'
| story_created ns n : story k s ns None -> n_name n = k -> n_action n = NAdded \/ n_action n = NNewName -> story k s (ns ++ [n]) (Some (n_stat n))
| story_modified ns x n : story k s ns (Some x) -> n_name n = k -> n_action n = NModified -> story k s (ns ++ [n]) (Some (n_stat n))
| story_removed ns x n : story k s ns (Some x) -> n_name n = k -> n_action n = NRemoved \/ n_action n = NOldName -> story k s (ns ++ [n]) None.

(** How often [k] is removed; whether it is mentioned. *)
Definition removal (k : bytes) (n : notification) : bool :=
  (if list_eq_dec N.eq_dec (n_name n) k then true else false) && match n_action n with NRemoved | NOldName => true | _ => false end.
Definition removals (k : bytes) (ns : list notification) : nat := length (filter (removal k) ns).
Definition mentions (k : bytes) (ns : list notification) : Prop := exists n, In n ns /\ n_name n = k.
