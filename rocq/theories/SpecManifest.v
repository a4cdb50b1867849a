(** Specification for C28, C29: what a manifest contains. *)
From Verif Require Import Base Str ModelText ModelChunkMap ModelProvider ModelAsset SpecAsset ModelManifest.
Local Open Scope N_scope.

Definition path := list bytes.
Fixpoint is_prefix (p q : path) : bool :=
  match p, q with
  | [], _ => true
  | a :: p', b :: q' => name_eqb a b && is_prefix p' q'
  | _ :: _, [] => false
  end.
Definition path_eqb (p q : path) : bool := is_prefix p q && is_prefix q p.

Section View.
Context (store : cid -> option (list asset)).

(** The contents of an asset list: as loaded, or else as stored. *)
Definition stored (id : cid) : list asset := match store id with Some l => l | None => [] end.
Definition listed (L : lists) (id : cid) : list asset := match L id with Some l => l | None => stored id end.
Definition children (L : lists) (a : asset) : list asset := a_dirs a ++ flat_map (listed L) (a_ind a).

(** The asset at a path below [a]; only directories have children. *)
Fixpoint node (L : lists) (a : asset) (p : path) : option asset :=
  match p with
  | [] => Some a
  | n :: r =>
      if type_eqb (a_type a) TDir
      then match find (fun c => name_eqb (a_name c) n) (children L a) with Some c => node L c r | None => None end
      else None
  end.
Definition view (L : lists) (a : asset) (p : path) : option info := option_map a_info (node L a p).

(** A tidy tree: names in a directory are unique; no asset list belongs to two
    directories or twice to one; and below a list that is not loaded nothing was
    changed. *)
Record tidy (L : lists) (root : asset) : Prop := {
  tidy_names : forall p b, node L root p = Some b -> a_type b = TDir -> NoDup (map a_name (children L b));
  tidy_lists : forall p b, node L root p = Some b -> a_type b = TDir -> NoDup (a_ind b);
  tidy_unshared : forall p q b c id, node L root p = Some b -> node L root q = Some c -> a_type b = TDir -> a_type c = TDir ->
    In id (a_ind b) -> In id (a_ind c) -> p = q;
  tidy_lazy : forall p b id c r d id', node L root p = Some b -> a_type b = TDir -> In id (a_ind b) -> L id = None ->
    In c (listed L id) -> node L c r = Some d -> a_type d = TDir -> In id' (a_ind d) -> listed L id' = stored id' }.

(** All lists of the tree can be read. *)
Definition available (L : lists) (root : asset) : Prop :=
  forall p b id, node L root p = Some b -> a_type b = TDir -> In id (a_ind b) -> L id <> None \/ store id <> None.
End View.

Definition bview (store : cid -> option (list asset)) (now : N) (b : builder) : path -> option info :=
  view store (b_lists b) (root_of now b).
Definition btidy (store : cid -> option (list asset)) (now : N) (b : builder) : Prop :=
  a_type (root_of now b) = TDir /\ tidy store (b_lists b) (root_of now b).
Definition bavailable (store : cid -> option (list asset)) (now : N) (b : builder) : Prop :=
  available store (b_lists b) (root_of now b).

(** * Creating and deleting, on trees given as functions from paths *)
Definition is_dir (o : option info) : bool := match o with Some i => type_eqb (i_type i) TDir | None => false end.
Definition is_other (o : option info) : bool := match o with Some i => negb (type_eqb (i_type i) TDir) | None => false end.
Definition parents (p : path) : list path := map (fun k => firstn k p) (seq 0 (length p)).

(** The existing asset is used, not replaced. *)
Definition kept (v : path -> option info) (p : path) (ty : atype) : bool :=
  match v p with Some i => type_eqb ty TUnknown || type_eqb (i_type i) ty | None => false end.
Definition blocked (v : path -> option info) (p : path) : bool := existsb (fun q => is_other (v q)) (parents p).

(** The documented rules (manifest_builder.h:64-86): error, or whether the asset was
    created. *)
Definition create_result (v : path -> option info) (p : path) (ty : atype) (force : bool) : ecode + bool :=
  let forced := force && negb (type_eqb ty TUnknown) in
  match p with
  | [] => if type_eqb ty TDir || type_eqb ty TUnknown then inr false else inl EInvalid
  | _ =>
      if blocked v p && negb forced then inl EInvalid
      else if kept v p ty then inr false
      else match v p with
           | Some _ => if force then inr true else inl EExists
           | None => if type_eqb ty TUnknown then inl ENotFound else inr true
           end
  end.

(** The tree after creating [p] as [ty] and changing its fields with [f]: missing
    parents and parents of another type become new directories; an asset of another
    type is replaced together with everything below it. *)
Definition after_create (now : N) (v : path -> option info) (p : path) (ty : atype) (f : info -> info) (q : path) : option info :=
  if path_eqb q p then Some (f (match v p with Some i => if kept v p ty then i else new_info now ty | None => new_info now ty end))
  else if is_prefix q p then (if is_dir (v q) then v q else Some (new_info now TDir))
  else if is_prefix p q then (if kept v p ty then v q else None)
  else v q.

Definition after_delete (v : path -> option info) (p q : path) : option info := if is_prefix p q then None else v q.

(** * Histories *)
Inductive op := OCreate (p : bytes) (ty : atype) (force : bool) (f : info -> info) | ODelete (p : bytes).
Definition proper_op (o : op) : Prop := match o with OCreate _ _ _ f => forall i, i_type (f i) = i_type i | ODelete _ => True end.

Definition run_op (store : cid -> option (list asset)) (now : N) (o : op) (b : builder) : builder :=
  match o with
  | OCreate p ty force f => snd (get_or_create store now p ty force f b)
  | ODelete p => snd (delete_asset store now p b)
  end.

(** The tree after an operation. *)
Definition spec_op (now : N) (o : op) (v : path -> option info) : path -> option info :=
  match o with
  | OCreate p ty force f =>
      match create_result v (split_unix p) ty force with
      | inr _ => after_create now v (split_unix p) ty f
      | inl _ => v
      end
  | ODelete p => match split_unix p with [] => v | ps => after_delete v ps end
  end.

(** * Flush *)
Section FlushSpec.
Context (store : cid -> option (list asset)) (truth : cid -> option bytes) (clists : cid -> option (list cref)).

(** The same asset, except that a file may be described by other chunk lists. *)
Definition same_info (i j : info) : Prop :=
  i_type j = i_type i /\ i_mtime j = i_mtime i /\ i_perms j = i_perms i /\ i_target j = i_target i /\ i_progress j = i_progress i /\
  fp_size (i_file j) = fp_size (i_file i) /\
  forall content, describes truth clists (i_file i) content -> describes truth clists (i_file j) content.
Definition same_entry (o o' : option info) : Prop :=
  match o, o' with Some i, Some j => same_info i j | None, None => True | _, _ => False end.
Definition same_tree (v w : path -> option info) : Prop := forall p, same_entry (v p) (w p).

(** All lists of the tree are in the store. *)
Definition in_store (L : lists) (root : asset) : Prop :=
  forall p b id, node store L root p = Some b -> a_type b = TDir -> In id (a_ind b) -> store id <> None.

(** All lists in memory are as stored: there are no unsaved changes. *)
Definition all_saved (L : lists) (root : asset) : Prop :=
  forall p b id, node store L root p = Some b -> a_type b = TDir -> In id (a_ind b) -> listed store L id = stored store id.

(** The lists written for different directories are different, and no list written
    is also a list of another directory, or the stored version of a list that is
    being changed. *)
Record separate (L : lists) (root : asset) (log : list (option path * cid)) : Prop := {
  sep_writes : forall p q id, In (Some p, id) log -> In (Some q, id) log -> p = q;
  sep_owner : forall p q id b, In (Some p, id) log -> node store L root q = Some b -> a_type b = TDir -> In id (a_ind b) ->
    q = p /\ listed store L id = stored store id }.
End FlushSpec.
