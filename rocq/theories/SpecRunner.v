(** Specification for C52: changes of the source directory, each with its notification. *)
From Verif Require Import Base Str ModelText ModelPath SpecPath ModelCdc ModelChunkMap ModelProvider ModelAsset SpecAsset ModelManifest SpecManifest ModelUpdater SpecUpdater SpecWatch ModelWatch SpecMerge.
Local Open Scope N_scope.

(** How Windows names a path below the watched directory: with '\' between the names. *)
Fixpoint wstr (p : path) : bytes :=
  match p with
  | [] => []
  | [n] => n
  | n :: r => n ++ 92 :: wstr r
  end.

(** One path is created, modified or removed; directories are removed when they are
    empty. *)
Record change := mkch { c_path : path; c_new : option snode; c_note : notification }.
Definition upd (src : path -> option snode) (P : path) (x : option snode) : path -> option snode :=
  fun q => if list_eq_dec (list_eq_dec N.eq_dec) q P then x else src q.
Definition note_is (n : notification) (s : snode) : Prop :=
  match s with
  | SDir mt => n_dir n = true /\ n_mtime n = mt
  | SFile mt c => n_dir n = false /\ n_mtime n = mt /\ n_size n = blen c
  end.
Definition same_kind (s s' : snode) : Prop := match s, s' with SDir _, SDir _ | SFile _ _, SFile _ _ => True | _, _ => False end.
Definition happens (src : path -> option snode) (c : change) : Prop :=
  c_path c <> [] /\ n_name (c_note c) = wstr (c_path c) /\ source_tree (upd src (c_path c) (c_new c)) /\ Forall good_name (c_path c) /\
  match src (c_path c), c_new c with
  | None, Some s => (n_action (c_note c) = NAdded \/ n_action (c_note c) = NNewName) /\ note_is (c_note c) s
  | Some s, Some s' => n_action (c_note c) = NModified /\ same_kind s s' /\ note_is (c_note c) s'
  | Some s, None => n_action (c_note c) = NRemoved \/ n_action (c_note c) = NOldName
  | None, None => False
  end.

(** The source after some changes, and changes that can happen one after the other. *)
Definition apply_changes (src : path -> option snode) (l : list change) : path -> option snode :=
  fold_left (fun s c => upd s (c_path c) (c_new c)) l src.
Definition valid (src : path -> option snode) (l : list change) : Prop :=
  forall a c b, l = a ++ c :: b -> happens (apply_changes src a) c.
