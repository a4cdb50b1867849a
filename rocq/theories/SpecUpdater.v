(** Specification for C30-C32: the source directory and when a manifest matches it. *)
From Verif Require Import Base Str ModelText ModelPath SpecPath ModelCdc ModelChunkMap ModelProvider ModelAsset SpecAsset ModelManifest SpecManifest ModelUpdater.
Local Open Scope N_scope.

(** File names: not empty and without separators. *)
Definition good_name (n : bytes) : Prop := n <> [] /\ ~ In 47 n /\ ~ In 92 n.
(** The string for a path: the names with '/' between them. *)
Fixpoint pstr (p : path) : bytes :=
  match p with
  | [] => []
  | [n] => n
  | n :: r => n ++ 47 :: pstr r
  end.

(** The source directory: what is at each path. *)
Inductive snode := SDir (mtime : N) | SFile (mtime : N) (content : bytes).
Record source_tree (src : path -> option snode) : Prop := {
  src_root : exists mt, src [] = Some (SDir mt);
  src_names : forall p, src p <> None -> Forall good_name p;
  src_up : forall p n, src (p ++ [n]) <> None -> exists mt, src p = Some (SDir mt) }.

(** What listing the directory [p] yields. *)
Definition entry_is (e : sentry) (s : snode) : Prop :=
  match s with
  | SDir mt => se_dir e = true /\ se_mtime e = mt
  | SFile mt c => se_dir e = false /\ se_mtime e = mt /\ se_size e = blen c
  end.
Definition lists_dir (src : path -> option snode) (p : path) (es : list sentry) : Prop :=
  NoDup (map se_name es) /\
  (forall e, In e es -> exists s, src (p ++ [se_name e]) = Some s /\ entry_is e s) /\
  (forall n, src (p ++ [n]) <> None -> In n (map se_name es)).

Section Match.
Context (truth : cid -> option bytes) (clists : cid -> option (list cref)).

(** The manifest entry says what the source has. *)
Definition entry_matches (o : option info) (s : option snode) : Prop :=
  match s, o with
  | None, None => True
  | Some (SDir mt), Some i => i_type i = TDir /\ i_mtime i = mt /\ i_progress i = false
  | Some (SFile mt c), Some i =>
      i_type i = TFile /\ i_mtime i = mt /\ i_progress i = false /\ describes truth clists (i_file i) c /\
      i_perms i = (if is_executable c then 493 else 420)
  | _, _ => False
  end.
Definition manifest_matches (v : path -> option info) (src : path -> option snode) : Prop :=
  forall p, entry_matches (v p) (src p).

(** A file of the old manifest that has the same time and size as now is the same
    file. *)
Definition trustworthy (v : path -> option info) (src : path -> option snode) : Prop :=
  forall p i mt c, v p = Some i -> src p = Some (SFile mt c) -> i_type i = TFile -> i_mtime i = mt -> fp_size (i_file i) = blen c ->
    entry_matches (v p) (src p).

(** Successful reading of the source: directory listings and chunked files. *)
Definition reads_dirs (search : bytes -> option (list sentry) -> Prop) (src : path -> option snode) : Prop :=
  forall p mt es, src p = Some (SDir mt) -> search (pstr p) (Some es) -> lists_dir src p es.
Definition reads_files (chunk : bytes -> option chunked -> Prop) (src : path -> option snode) : Prop :=
  forall p mt c k, src p = Some (SFile mt c) -> chunk (pstr p) (Some k) ->
    describes truth clists (mkfp (ck_size k) (ck_refs k) []) c /\ ck_exec k = is_executable c.
End Match.

(** * The differences between a directory of the manifest and of the source *)

(** The asset [n] in the directory [p] differs: the manifest has [i], the source [e]. *)
Definition same_asset (i : info) (e : sentry) : bool :=
  if se_dir e then false else type_eqb (i_type i) TFile && (i_mtime i =? se_mtime e) && (fp_size (i_file i) =? se_size e).
Record differences (v : path -> option info) (p : path) (es : list sentry) (ops : list operation) : Prop := {
  diff_paths : NoDup (map (fun o => ai_path (snd o)) ops);
  diff_add : forall ai, In (KAdd, ai) ops <-> exists e, In e es /\ v (p ++ [se_name e]) = None /\ ai = src_info (pstr p) e;
  diff_update : forall ai, In (KUpdate, ai) ops <->
    exists e i, In e es /\ v (p ++ [se_name e]) = Some i /\ same_asset i e = false /\ ai = src_info (pstr p) e;
  diff_delete : forall s, In (KDelete, s) (map (fun o => (fst o, ai_path (snd o))) ops) <->
    exists n i, v (p ++ [n]) = Some i /\ ~ In n (map se_name es) /\ s = pstr (p ++ [n]);
  diff_keep : forall s z, In (KKeep, s, z) (map (fun o => (fst o, ai_path (snd o), ai_size (snd o))) ops) <->
    exists e i, In e es /\ v (p ++ [se_name e]) = Some i /\ same_asset i e = true /\ s = pstr (p ++ [se_name e]) /\ z = fp_size (i_file i) }.
