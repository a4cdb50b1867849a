(** Specification for C59: what a manifest contains, in the order of a traversal. [store] says
    which list of assets a content id stands for (None: it cannot be read). *)
From Verif Require Import Base ModelChunkMap ModelManifest.
Local Notation str := (list N).

Section Walk.
Variable store : cid -> option (list asset).
(** The traversal, as a list of (path of the directory, asset): a directory's direct assets,
    then those of its lists; a subdirectory is followed by its own contents. It stops at the
    first list that cannot be read; the boolean says whether it got through. *)
Inductive walk_items : list str -> list asset -> list (list str * asset) -> bool -> Prop :=
| wi_nil p : walk_items p [] [] true
| wi_other p a l es ok : a_type a <> TDir -> walk_items p l es ok -> walk_items p (a :: l) ((p, a) :: es) ok
| wi_dir p a l es1 es2 ok : a_type a = TDir -> walk_dir (p ++ [a_name a]) a es1 true -> walk_items p l es2 ok -> walk_items p (a :: l) ((p, a) :: es1 ++ es2) ok
| wi_dir_fail p a l es : a_type a = TDir -> walk_dir (p ++ [a_name a]) a es false -> walk_items p (a :: l) ((p, a) :: es) false
with walk_lists : list str -> list cid -> list (list str * asset) -> bool -> Prop :=
| wl_nil p : walk_lists p [] [] true
| wl_none p id r : store id = None -> walk_lists p (id :: r) [] false
| wl_fail p id r l es : store id = Some l -> walk_items p l es false -> walk_lists p (id :: r) es false
| wl_cons p id r l es1 es2 ok : store id = Some l -> walk_items p l es1 true -> walk_lists p r es2 ok -> walk_lists p (id :: r) (es1 ++ es2) ok
with walk_dir : list str -> asset -> list (list str * asset) -> bool -> Prop :=
| wd_fail p d es : walk_items p (a_dirs d) es false -> walk_dir p d es false
| wd_ok p d es1 es2 ok : walk_items p (a_dirs d) es1 true -> walk_lists p (a_ind d) es2 ok -> walk_dir p d (es1 ++ es2) ok.

(** [c] is an entry of directory [d]. *)
Definition child (d c : asset) : Prop := In c (a_dirs d) \/ exists id l, In id (a_ind d) /\ store id = Some l /\ In c l.
(** [d] is the directory at path [p] below [root]. *)
Inductive dir_at (root : asset) : list str -> asset -> Prop :=
| da_root : dir_at root [] root
| da_sub p d c : dir_at root p d -> child d c -> a_type c = TDir -> dir_at root (p ++ [a_name c]) c.
(** Content id [id] occurs in asset [a]. *)
Inductive refers : asset -> cid -> Prop :=
| rf_here a id : In id (a_ind a) -> refers a id
| rf_sub a c id : In c (a_dirs a) -> refers c id -> refers a id.
(** No list contains itself, directly or not. *)
Definition acyclic : Prop := exists rank : cid -> nat, forall id l a id2, store id = Some l -> In a l -> refers a id2 -> (rank id2 < rank id)%nat.
End Walk.
(** A path as text. *)
Definition text (p : list str) : str := match p with [] => [] | n :: r => fold_left (fun s x => s ++ 47%N :: x) r n end.
(** Directory names are not empty and contain no separators. *)
Definition proper_name (n : str) : Prop := n <> [] /\ ~ In 47%N n /\ ~ In 92%N n.
