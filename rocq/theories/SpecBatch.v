(** Specification vocabulary for C14. *)
From Verif Require Import Base ListX Str ModelPath SpecPath ModelFileDiff ModelBatch.
Local Open Scope N_scope.

(** A directory prefix as the search reports it: empty or ending with a
    separator. *)
Definition dir_prefix (d : bytes) : Prop := d = [] \/ exists d' c, d = d' ++ [c] /\ separator c.

(** What the search guarantees for an entry below the base directory [base]. *)
Definition proper (base : bytes) (f : found) : Prop :=
  dir_prefix base /\
  (exists rel, fd_dir f = base ++ rel /\ dir_prefix rel) /\
  fd_name f <> [] /\ no_seps (fd_name f).

(** The entries found, with the base directory of their source. *)
Definition entries (srcs : list (bytes * list found)) : list (bytes * found) :=
  flat_map (fun s => map (fun f => (fst s, f)) (snd s)) srcs.

(** Path of an entry relative to its base directory. *)
Definition rel_dir (x : bytes * found) : bytes := skipn (length (fst x)) (fd_dir (snd x)).
Definition rel_path (x : bytes * found) : bytes := rel_dir x ++ fd_name (snd x).

(** The entries that pass the filter, split into files and directories. *)
Definition kept_files (included : bytes -> bool) (l : list (bytes * found)) :=
  filter (fun x => included (rel_path x) && negb (fd_isdir (snd x))) l.
Definition kept_dirs (included : bytes -> bool) (l : list (bytes * found)) :=
  filter (fun x => included (rel_path x) && fd_isdir (snd x)) l.

Definition empty_request (q : addfiles) : Prop := aq_files q = [] /\ aq_dirs q = [].
Definition empty_response (q : addDeleted) : Prop := ad_files q = [] /\ ad_dirs q = [].

(** Relative paths as they occur in file lists: components separated by single
    slashes. *)
Definition clean_path (p : bytes) : Prop :=
  p <> [] /\ ~ has_double_sep p /\ no_trailing_sep p /\ fix_seps p = p.

(** Accounted size of a request, file_finder_and_sender.cc:202-220 *)
Definition request_size (q : addfiles) : N :=
  blen (aq_dir q) + fold_right N.add 0 (map (fun f => blen (fst (fst f)) + 16) (aq_files q))
  + fold_right N.add 0 (map blen (aq_dirs q)).
