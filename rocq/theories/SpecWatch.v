(** Specification for C50-C52: reported changes and the source directory. *)
From Verif Require Import Base Str ModelText ModelPath SpecPath ModelCdc ModelChunkMap ModelProvider ModelAsset SpecAsset ModelManifest SpecManifest ModelUpdater SpecUpdater.
Local Open Scope N_scope.

(** The string [s] stands for the path [P] below the source directory, with either
    separator. *)
Definition names_path (s : bytes) (P : path) : Prop := P <> [] /\ Forall good_name P /\ to_unix s = pstr P.

(** What an operation says about [P] is true of the source. *)
Definition says (src : path -> option snode) (P : path) (o : operation) : Prop :=
  match fst o, src P with
  | KDelete, None => True
  | KAdd, Some (SDir mt) | KUpdate, Some (SDir mt) => ai_type (snd o) = TDir /\ ai_mtime (snd o) = mt
  | KAdd, Some (SFile mt c) | KUpdate, Some (SFile mt c) => ai_type (snd o) = TFile /\ ai_mtime (snd o) = mt
  | _, _ => False
  end.
Record true_of (src : path -> option snode) (ops : list operation) : Prop := {
  true_once : NoDup (map (fun o => to_unix (ai_path (snd o))) ops);
  true_ops : forall o, In o ops -> exists P, names_path (ai_path (snd o)) P /\ says src P o }.

(** The operations tell what is at [q]: there is an operation for [q] itself, or there is
    nothing at [q] and something above it was deleted or is a file now. *)
Definition told (src : path -> option snode) (ops : list operation) (q : path) : Prop :=
  (exists o, In o ops /\ (fst o = KAdd \/ fst o = KUpdate) /\ names_path (ai_path (snd o)) q) \/
  (src q = None /\ exists o P, In o ops /\ names_path (ai_path (snd o)) P /\ is_prefix P q = true /\
     (fst o = KDelete \/ (P <> q /\ ai_type (snd o) = TFile))).

(** An operation concerns [q]: it is about [q], something above or something below. *)
Definition concerns (o : operation) (q : path) : Prop :=
  exists P, names_path (ai_path (snd o)) P /\ (is_prefix P q = true \/ is_prefix q P = true).
