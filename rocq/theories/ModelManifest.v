(** Model of manifest/manifest_builder.cc: the tree of assets under construction.

    Assets are values instead of protobuf messages on an arena.  A function that
    returns a pointer to a directory is modelled by a function that takes what is
    done with that directory as an argument and puts the changed directory back in
    its place; with distinct messages at distinct places this is the same.  Loaded
    asset lists are in a map from content ids to lists as in the code, so two
    directories with the same content id share one loaded list. *)
From Verif Require Import Base Str ModelText ModelChunkMap ModelProvider ModelAsset.
Local Open Scope N_scope.

(** AssetProto::Type (proto/manifest.proto:70-80). *)
Inductive atype := TUnknown | TFile | TDir | TSymlink.
Definition type_eqb (a b : atype) : bool :=
  match a, b with
  | TUnknown, TUnknown | TFile, TFile | TDir, TDir | TSymlink, TSymlink => true
  | _, _ => false
  end.

(** The fields of an Asset other than name and children
    (proto/manifest.proto:82-117); mtime_seconds as its 64 bit pattern. *)
Record info := mkinfo { i_type : atype; i_mtime : N; i_perms : N; i_file : fproto; i_target : bytes; i_progress : bool }.

(** Asset: name, fields, dir_assets, dir_indirect_assets. *)
Inductive asset := Asset (a_name : bytes) (a_info : info) (a_dirs : list asset) (a_ind : list cid).
Definition a_name (a : asset) : bytes := let '(Asset n _ _ _) := a in n.
Definition a_info (a : asset) : info := let '(Asset _ i _ _) := a in i.
Definition a_dirs (a : asset) : list asset := let '(Asset _ _ d _) := a in d.
Definition a_ind (a : asset) : list cid := let '(Asset _ _ _ x) := a in x.
Definition a_type (a : asset) : atype := i_type (a_info a).
Definition set_dirs (a : asset) (d : list asset) : asset := Asset (a_name a) (a_info a) d (a_ind a).
Definition set_ind (a : asset) (x : list cid) : asset := Asset (a_name a) (a_info a) (a_dirs a) x.
Definition set_info (a : asset) (i : info) : asset := Asset (a_name a) i (a_dirs a) (a_ind a).

Definition name_eqb (x y : bytes) : bool := if list_eq_dec N.eq_dec x y then true else false.

(** asset_lists_ (manifest_builder.h:286). *)
Definition lists := cid -> option (list asset).
Definition lset (L : lists) (id : cid) (l : list asset) : lists := fun x => if list_eq_dec N.eq_dec x id then Some l else L x.
Definition ldel (L : lists) (id : cid) : lists := fun x => if list_eq_dec N.eq_dec x id then None else L x.

(** absl::StatusCode as far as the code distinguishes them. *)
Inductive ecode := ENotFound | EInvalid | EExists | EOther.

(** SplitString(s, '/', keep_empty = false) (util.cc:214-244); [cur]: the part
    being collected, reversed. *)
Fixpoint split_unix_loop (cur : bytes) (s : bytes) : list bytes :=
  match s with
  | [] => match cur with [] => [] | _ => [rev cur] end
  | c :: r => if c =? 47 then match cur with [] => split_unix_loop [] r | _ => rev cur :: split_unix_loop [] r end
              else split_unix_loop (c :: cur) r
  end.
(** ToUnix (path.cc:467-470) and SplitUnixPath (manifest_builder.cc:35-37). *)
Definition to_unix (s : bytes) : bytes := map (fun c => if c =? 92 then 47 else c) s.
Definition split_unix (s : bytes) : list bytes := split_unix_loop [] (to_unix s).

Section Builder.
(** [store]: what GetProto returns for the id of an asset list (content addressed,
    None: error); [now]: the time. *)
Context (store : cid -> option (list asset)) (now : N).

(** InitNewAsset (manifest_builder.cc:340-349): default permissions of directories
    (0755) and files (0644) (manifest_proto_defs.h). *)
Definition new_info (ty : atype) : info :=
  mkinfo ty now (match ty with TDir => 493 | _ => 420 end) (mkfp 0 [] []) [] false.
Definition new_asset (n : bytes) (ty : atype) : asset := Asset n (new_info ty) [] [].

(** GetAssetList (351-363). *)
Definition get_list (id : cid) (L : lists) : option (list asset) * lists :=
  match L id with
  | Some l => (Some l, L)
  | None => match store id with Some l => (Some l, lset L id l) | None => (None, L) end
  end.

(** FindMutableAssetInList (274-280): the first asset with the name, and what is
    before and after it. *)
Fixpoint find_split (n : bytes) (l : list asset) : option (list asset * asset * list asset) :=
  match l with
  | [] => None
  | a :: r =>
      if name_eqb (a_name a) n then Some ([], a, r)
      else match find_split n r with Some (p, x, q) => Some (a :: p, x, q) | None => None end
  end.

(** Search in the indirect lists (206-225, 256-269). *)
Inductive found := FFound (id : cid) (pre : list asset) (a : asset) (post : list asset) | FNone | FErr.
Fixpoint find_ind (n : bytes) (ids : list cid) (L : lists) : found * lists :=
  match ids with
  | [] => (FNone, L)
  | id :: r =>
      match get_list id L with
      | (None, L1) => (FErr, L1)
      | (Some l, L1) =>
          match find_split n l with
          | Some (p, a, q) => (FFound id p a q, L1)
          | None => find_ind n r L1
          end
      end
  end.

(** DirCreateMode (manifest_builder.h:132-142). *)
Inductive mode := NoCreate | Create | ForceCreate.

(** FindMutableAssetInList with type DIRECTORY (282-298). *)
Definition as_dir (m : mode) (a : asset) : option asset :=
  if type_eqb (a_type a) TDir then Some a
  else match m with ForceCreate => Some (new_asset (a_name a) TDir) | _ => None end.

(** FindOrCreateDirPathRec (185-236); [k] is what is done with the directory. *)
Fixpoint at_dir {X} (m : mode) (path : list bytes) (dir : asset) (L : lists) (k : asset -> lists -> X * asset * lists) :
    (X + ecode) * asset * lists :=
  match path with
  | [] => let '(x, dir', L') := k dir L in (inl x, dir', L')
  | n :: rest =>
      match find_split n (a_dirs dir) with
      | Some (pre, a, post) =>
          match as_dir m a with
          | None => (inr EInvalid, dir, L)
          | Some a0 => let '(x, a', L') := at_dir m rest a0 L k in (x, set_dirs dir (pre ++ a' :: post), L')
          end
      | None =>
          match find_ind n (a_ind dir) L with
          | (FErr, L1) => (inr EOther, dir, L1)
          | (FFound id pre a post, L1) =>
              match as_dir m a with
              | None => (inr EInvalid, dir, L1)
              | Some a0 => let '(x, a', L') := at_dir m rest a0 L1 k in (x, dir, lset L' id (pre ++ a' :: post))
              end
          | (FNone, L1) =>
              match m with
              | NoCreate => (inr ENotFound, dir, L1)
              | _ => let '(x, a', L') := at_dir m rest (new_asset n TDir) L1 k in (x, set_dirs dir (a_dirs dir ++ [a']), L')
              end
          end
      end
  end.

(** DeleteAssetFromList (325-338): the last asset takes the place of the deleted. *)
Definition del_split (pre post : list asset) (a : asset) : list asset :=
  match post with [] => pre | _ => pre ++ last post a :: removelast post end.

(** DeleteAssetFromDir (300-323). *)
Definition delete_from_dir (n : bytes) (dir : asset) (L : lists) : option ecode * asset * lists :=
  if negb (type_eqb (a_type dir) TDir) then (Some EInvalid, dir, L)
  else
    match find_split n (a_dirs dir) with
    | Some (pre, a, post) => (None, set_dirs dir (del_split pre post a), L)
    | None =>
        match find_ind n (a_ind dir) L with
        | (FErr, L1) => (Some EOther, dir, L1)
        | (FFound id pre a post, L1) => (None, dir, lset L1 id (del_split pre post a))
        | (FNone, L1) => (None, dir, L1)
        end
    end.

(** dir->add_dir_assets() and InitNewAsset (140-142), then the caller's changes. *)
Definition add_new (n : bytes) (ty : atype) (f : info -> info) (dir : asset) : asset :=
  set_dirs dir (a_dirs dir ++ [set_info (new_asset n ty) (f (new_info ty))]).

(** The second half of GetOrCreateAsset (110-144) for a non-empty name; the result
    is an error or whether the asset was created.  [f]: what the caller does with
    the returned AssetBuilder.  DeleteAsset (124) walks the same path again and
    deletes from the same directory. *)
Definition get_in_dir (n : bytes) (ty : atype) (force : bool) (f : info -> info) (dir : asset) (L : lists) :
    (ecode + bool) * asset * lists :=
  let replace_it (L : lists) :=
    match delete_from_dir n dir L with
    | (Some e, dir1, L1) => (inl e, dir1, L1)
    | (None, dir1, L1) => (inr true, add_new n ty f dir1, L1)
    end in
  let keep (a : asset) := type_eqb ty TUnknown || type_eqb (a_type a) ty in
  if negb (type_eqb (a_type dir) TDir) then (inl EInvalid, dir, L)
  else
    match find_split n (a_dirs dir) with
    | Some (pre, a, post) =>
        if keep a then (inr false, set_dirs dir (pre ++ set_info a (f (a_info a)) :: post), L)
        else if force then replace_it L else (inl EExists, dir, L)
    | None =>
        match find_ind n (a_ind dir) L with
        | (FErr, L1) => (inl EOther, dir, L1)
        | (FFound id pre a post, L1) =>
            if keep a then (inr false, dir, lset L1 id (pre ++ set_info a (f (a_info a)) :: post))
            else if force then replace_it L1 else (inl EExists, dir, L1)
        | (FNone, L1) =>
            if type_eqb ty TUnknown then (inl ENotFound, dir, L1)
            else (inr true, add_new n ty f dir, L1)
        end
    end.

(** manifest_ and asset_lists_. *)
Record builder := mkb { b_root : option asset; b_lists : lists }.
(** FindOrCreateDirPath (174-183) creates the root. *)
Definition root_of (b : builder) : asset := match b_root b with Some r => r | None => new_asset [] TDir end.

(** GetOrCreateAsset (81-145) for the path components. *)
Definition create_parts (parts : list bytes) (ty : atype) (force : bool) (f : info -> info) (b : builder) :
    (ecode + bool) * builder :=
  let m := match ty with TUnknown => NoCreate | _ => if force then ForceCreate else Create end in
  let name := last parts [] in
  let dirs := removelast parts in
  let k dir L :=
    match name with
    | [] => if type_eqb ty TDir || type_eqb ty TUnknown then (inr false, set_info dir (f (a_info dir)), L) else (inl EInvalid, dir, L)
    | _ => get_in_dir name ty force f dir L
    end in
  match at_dir m dirs (root_of b) (b_lists b) k with
  | (inl r, root, L) => (r, mkb (Some root) L)
  | (inr e, root, L) => (inl e, mkb (Some root) L)
  end.
Definition get_or_create (path : bytes) := create_parts (split_unix path).

(** DeleteAsset (147-172). *)
Definition delete_parts (parts : list bytes) (b : builder) : option ecode * builder :=
  match parts with
  | [] => (Some EInvalid, b)
  | _ =>
      match at_dir NoCreate (removelast parts) (root_of b) (b_lists b) (delete_from_dir (last parts [])) with
      | (inl r, root, L) => (r, mkb (Some root) L)
      | (inr ENotFound, root, L) | (inr EInvalid, root, L) => (None, mkb (Some root) L)
      | (inr e, root, L) => (Some e, mkb (Some root) L)
      end
  end.
Definition delete_asset (path : bytes) := delete_parts (split_unix path).
End Builder.

(** * Sizes (ByteSizeLong) *)
Definition field_size (v : N) : N := if v =? 0 then 0 else 1 + varint_size v.
Definition str_size (s : bytes) : N := match s with [] => 0 | _ => len_field (N.of_nat (length s)) end.
Definition info_base (n : bytes) (i : info) : N :=
  str_size n + (match i_type i with TUnknown => 0 | _ => 2 end) + field_size (i_mtime i) + field_size (i_perms i)
  + field_size (fp_size (i_file i)) + str_size (i_target i) + (if i_progress i then 2 else 0).
Fixpoint asset_bytes (a : asset) : N :=
  let '(Asset n i ds ids) := a in
  file_bytes (info_base n i) (fp_chunks (i_file i)) (fp_ind (i_file i))
  + nsum (map (fun d => len_field (asset_bytes d)) ds) + nsum (map (fun x => len_field (id_size x)) ids).
Definition asset_list_bytes (l : list asset) : N := nsum (map (fun a => len_field (asset_bytes a)) l).

(** * Flush *)
Section Flush.
(** [put], [put_chunks], [put_root]: PutProto of an asset list, a chunk list and the
    manifest (None: error); [sort_desc]: std::sort by size (449-455); [max_size]:
    avg_chunk_size, 0 for no limit. *)
Context (store : cid -> option (list asset)) (now : N)
  (put : list asset -> option cid) (put_chunks : list cref -> option cid) (put_root : asset -> option cid)
  (sort_desc : list asset -> list asset) (max_size : N).

(** asset_lists_ and flushed_content_ids_; for an asset list the path of the
    directory for which it is written is recorded as well (None for chunk lists),
    only to state who wrote what. *)
Definition fstate := (lists * list (option (list bytes) * cid))%type.

Definition write_list (p : list bytes) (l : list asset) (s : fstate) : outcome (cid * fstate) :=
  match put l with Some id => Ok (id, (fst s, snd s ++ [(Some p, id)])) | None => Fail end.
(** WriteBackAssetList (602-608). *)
Definition write_back (p : list bytes) (l : list asset) (s : fstate) : outcome (cid * fstate) :=
  do (id, s1) <- write_list p l s;
  Ok (id, (lset (fst s1) id l, snd s1)).

(** FlushAssetList (449-456) with [flush] for FlushDir; [p]: path of the directory. *)
Fixpoint flush_assets (flush : list bytes -> asset -> fstate -> outcome (asset * fstate)) (p : list bytes) (l : list asset) (s : fstate) : outcome (list asset * fstate) :=
  match l with
  | [] => Ok ([], s)
  | a :: r =>
      do (a', s1) <- (if type_eqb (a_type a) TDir then flush (p ++ [a_name a]) a s else Ok (a, s));
      do (r', s2) <- flush_assets flush p r s1;
      Ok (a' :: r', s2)
  end.

(** EnforceAssetListProtoSize (583-600): [keep] in reverse order.  Releasing the
    last element of an empty list is undefined. *)
Fixpoint pop_list (keep : list asset) (psize : N) (over : list asset) : outcome (list asset * list asset) :=
  match keep with
  | [] => if max_size <? psize then UB else Ok ([], over)
  | a :: keep' =>
      if max_size <? psize
      then let p1 := sub64 psize (asset_bytes a + overhead) in
           let p2 := if p1 <=? max_size then asset_list_bytes (rev keep') else p1 in
           pop_list keep' p2 (over ++ [a])
      else Ok (keep, over)
  end.
Definition enforce_list (l over : list asset) : outcome (list asset * list asset) :=
  if max_size =? 0 then Ok (l, over)
  else do (keep, over') <- pop_list (rev l) (asset_list_bytes l) over; Ok (rev keep, over').

(** The map after the list was written (434-438). *)
Definition rekey (L : lists) (id id' : cid) (l : list asset) : lists :=
  if list_eq_dec N.eq_dec id id' then lset L id l else lset (ldel L id) id' l.

(** The loop over the indirect lists (FlushDir, 408-440).  asset_list_it is still
    valid after the recursive calls, and is the entry of this list: the code assumes
    this, too. *)
Fixpoint flush_lists (flush : list bytes -> asset -> fstate -> outcome (asset * fstate)) (p : list bytes) (ids : list cid) (s : fstate) (over : list asset) :
    outcome (list cid * list asset * fstate) :=
  match ids with
  | [] => Ok ([], over, s)
  | id :: r =>
      match fst s id with
      | None => do (x, s1) <- flush_lists flush p r s over; let '(r', over') := x in Ok (id :: r', over', s1)
      | Some l =>
          do (l1, s1) <- flush_assets flush p l s;
          do (l2, over1) <- enforce_list l1 over;
          match l2 with
          | [] => flush_lists flush p r (lset (fst s1) id [], snd s1) over1
          | _ =>
              do (id', s2) <- write_list p l2 s1;
              do (x, s4) <- flush_lists flush p r (rekey (fst s2) id id' l2, snd s2) over1;
              let '(r', over') := x in Ok (id' :: r', over', s4)
          end
      end
  end.

(** EnforceDirProtoSize, the loop over large files (479-493). *)
Definition set_file (a : asset) (fp : fproto) : asset :=
  let i := a_info a in set_info a (mkinfo (i_type i) (i_mtime i) (i_perms i) fp (i_target i) (i_progress i)).
Fixpoint enforce_files (l : list asset) (psize : N) (s : fstate) : outcome (list asset * N * fstate) :=
  match l with
  | [] => Ok ([], psize, s)
  | a :: r =>
      let asz := asset_bytes a in
      if (psize <=? max_size) || (asz <=? max_size / 16) then Ok (l, psize, s)
      else if type_eqb (a_type a) TFile
      then
        do fp <- enforce_file put_chunks (info_base (a_name a) (a_info a)) (max_size / 16) max_size (i_file (a_info a));
        let a' := set_file a fp in
        let written := match fp_ind (i_file (a_info a)) with [] => map (fun e => (None, snd e)) (fp_ind fp) | _ => [] end in
        do (x, s1) <- enforce_files r (sub64 (psize + asset_bytes a') asz) (fst s, snd s ++ written);
        let '(r', ps) := x in Ok (a' :: r', ps, s1)
      else
        do (x, s1) <- enforce_files r psize s;
        let '(r', ps) := x in Ok (a :: r', ps, s1)
  end.

(** EnforceDirProtoSize, moving assets to the overflow list (494-502); [keep] in
    reverse order. *)
Fixpoint pop_dir (dir : asset) (keep : list asset) (psize : N) (over : list asset) : list asset * list asset :=
  match keep with
  | [] => ([], over)
  | a :: keep' =>
      if max_size <? psize
      then let p1 := sub64 psize (asset_bytes a + overhead) in
           let p2 := if p1 <=? max_size then asset_bytes (set_dirs dir (rev keep')) else p1 in
           pop_dir dir keep' p2 (over ++ [a])
      else (keep, over)
  end.

(** EnforceDirProtoSize (466-513). *)
Definition enforce_dir (dir : asset) (over : list asset) (s : fstate) : outcome (asset * list asset * fstate) :=
  if (max_size =? 0) || (asset_bytes dir <=? max_size) then Ok (dir, over, s)
  else
    let l := sort_desc (a_dirs dir) in
    do (x, s1) <- (if max_size / 16 =? 0 then Ok (l, asset_bytes dir, s) else enforce_files l (asset_bytes dir) s);
    let '(l1, ps) := x in
    let '(keep, over') := pop_dir dir (rev l1) ps over in
    Ok (set_dirs dir (rev keep), over', s1).

(** AppendAllocatedIndirectAssets, the loop (668-691) and the last write. *)
Fixpoint fill_assets (p : list bytes) (over : list asset) (pre : list cid) (cl : list asset) (psize : N) (s : fstate) : outcome (list cid * fstate) :=
  match over with
  | [] => do (id, s1) <- write_back p cl s; Ok (pre ++ [id], s1)
  | a :: r =>
      let sz := asset_bytes a + overhead in
      if (0 <? max_size) && (0 <? psize) && (max_size <? psize + sz)
      then do (id, s1) <- write_back p cl s; fill_assets p r (pre ++ [id]) [a] sz s1
      else fill_assets p r pre (cl ++ [a]) (psize + sz) s
  end.

(** AppendAllocatedIndirectAssets (631-698): the overflow list is read from its
    end.  TakeOutAssetList (365-371). *)
Definition append_indirect (p : list bytes) (dir : asset) (over : list asset) (s : fstate) : outcome (asset * fstate) :=
  match over with
  | [] => Ok (dir, s)
  | _ =>
      match a_ind dir with
      | [] => do (ids, s1) <- fill_assets p (rev over) [] [] 0 s; Ok (set_ind dir ids, s1)
      | _ =>
          let last_id := last (a_ind dir) [] in
          match get_list store last_id (fst s) with
          | (None, _) => Fail
          | (Some l, L1) =>
              do (ids, s1) <- fill_assets p (rev over) (removelast (a_ind dir)) l (asset_list_bytes l) (ldel L1 last_id, snd s);
              Ok (set_ind dir ids, s1)
          end
      end
  end.

(** FlushDir (399-447); [fuel] bounds the nesting depth. *)
Fixpoint flush_dir (fuel : nat) (p : list bytes) (dir : asset) (s : fstate) : outcome (asset * fstate) :=
  match fuel with
  | O => OutOfFuel
  | S f =>
      do (ds, s1) <- flush_assets (flush_dir f) p (a_dirs dir) s;
      do (x, s2) <- flush_lists (flush_dir f) p (a_ind dir) s1 [];
      let '(ids, over) := x in
      do (y, s3) <- enforce_dir (Asset (a_name dir) (a_info dir) ds ids) over s2;
      let '(dir1, over1) := y in
      append_indirect p dir1 over1 s3
  end.

(** Flush (700-710): the manifest id, the builder afterwards, the writes; the ids of
    the writes and the manifest are FlushedContentIds. *)
Definition flush (fuel : nat) (b : builder) : outcome (cid * builder * list (option (list bytes) * cid)) :=
  do (root, s) <- flush_dir fuel [] (root_of now b) (b_lists b, []);
  match put_root root with
  | Some id => Ok (id, mkb (Some root) (fst s), snd s)
  | None => Fail
  end.
End Flush.

(** LoadManifest (66-71). *)
Definition load_manifest (store_root : cid -> option asset) (id : cid) : option builder :=
  match store_root id with Some r => Some (mkb (Some r) (fun _ => None)) | None => None end.
