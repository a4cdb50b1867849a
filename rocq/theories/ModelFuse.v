(** Model of cdc_fuse_fs/cdc_fuse_fs.cc (the FUSE callbacks and SetManifest) and of the
    directory part of cdc_fuse_fs/asset.cc, with the memory they work on: asset protos
    live inside allocations (a manifest, or an indirect asset list owned by an Asset),
    inodes are objects that are freed when the last map entry goes.  Reading a freed
    proto or a freed inode, and a failing assert, is [UB].

    Simplifications: every callback is one atomic step (each takes manifest_mutex
    shared and changes the inode tables in one critical section of inodes_mutex;
    concurrent Asset lookups are the subject of C43); the tasks that update one level
    of the tree (1440-1465) run in any order, one at a time; addresses of protos are not
    reused while the program runs (inode numbers may be); counters do not overflow 64
    bits; names are C strings. *)
From Verif Require Import Base Str.
Local Open Scope N_scope.

Definition cid := bytes.
Definition ino := N.
Definition root_ino : ino := 1.           (* FUSE_ROOT_ID *)

(** proto/manifest.proto: Asset.  [ap_rest] stands for the remaining fields (chunks,
    indirect chunk lists, symlink target). *)
Inductive atype := TUnknown | TFile | TDir | TSymlink.
Inductive aproto := mkap {
  ap_name : bytes; ap_type : atype; ap_mtime : N; ap_perm : N; ap_size : N;
  ap_rest : bytes; ap_progress : bool; ap_assets : list aproto; ap_ind : list cid }.

Definition atype_eqb (a b : atype) : bool :=
  match a, b with TUnknown, TUnknown | TFile, TFile | TDir, TDir | TSymlink, TSymlink => true | _, _ => false end.
Definition leqb {A} (eqb : A -> A -> bool) : list A -> list A -> bool :=
  fix go (l m : list A) : bool :=
    match l, m with
    | [], [] => true
    | x :: l', y :: m' => eqb x y && go l' m'
    | _, _ => false
    end.
(** operator== (manifest/manifest_proto_defs.h:43-47): the serialised messages are equal;
    serialisation of these messages is deterministic and keeps every field. *)
Fixpoint ap_eqb (a b : aproto) : bool :=
  seqb (ap_name a) (ap_name b) && atype_eqb (ap_type a) (ap_type b) && (ap_mtime a =? ap_mtime b) &&
  (ap_perm a =? ap_perm b) && (ap_size a =? ap_size b) && seqb (ap_rest a) (ap_rest b) &&
  Bool.eqb (ap_progress a) (ap_progress b) && leqb ap_eqb (ap_assets a) (ap_assets b) && leqb seqb (ap_ind a) (ap_ind b).

(** * Memory *)

(** A pointer to a proto: the allocation, the index in its list, and the indices of
    nested dir_assets. *)
Record ptr := mkptr { p_al : nat; p_idx : nat; p_sub : list nat }.
Definition ptr_eqb (p q : ptr) : bool :=
  (p_al p =? p_al q)%nat && (p_idx p =? p_idx q)%nat && leqb Nat.eqb (p_sub p) (p_sub q).
(** The live allocations: a manifest is a list with its root_dir. *)
Definition heap := list (nat * list aproto).
Fixpoint hget (h : heap) (a : nat) : option (list aproto) :=
  match h with [] => None | (b, l) :: h' => if (a =? b)%nat then Some l else hget h' a end.
Definition hfree (h : heap) (a : nat) : heap := filter (fun e => negb (fst e =? a)%nat) h.
Definition hfree_all (h : heap) (l : list nat) : heap := fold_left hfree l h.
Fixpoint sub (a : aproto) (idx : list nat) : option aproto :=
  match idx with [] => Some a | i :: r => match nth_error (ap_assets a) i with Some c => sub c r | None => None end end.
Definition deref (h : heap) (p : ptr) : option aproto :=
  match hget h (p_al p) with
  | Some l => match nth_error l (p_idx p) with Some a => sub a (p_sub p) | None => None end
  | None => None
  end.
(** The address of dir_assets(i) of the proto at [p]. *)
Definition child_ptr (p : ptr) (i : nat) : ptr := mkptr (p_al p) (p_idx p) (p_sub p ++ [i]).

(** class Asset (asset.h:36-180), the fields for directories: proto_lookup_ and the
    allocations of dir_asset_lists_. *)
Record asset := mkasset { as_parent : ino; as_proto : option ptr; as_lookup : list (bytes * ptr); as_lists : list nat }.

(** UpdateProtoLookup (asset.cc:407-413): a later entry with the same name wins. *)
Fixpoint lk_set (lk : list (bytes * ptr)) (n : bytes) (p : ptr) : list (bytes * ptr) :=
  match lk with
  | [] => [(n, p)]
  | (m, q) :: lk' => if seqb n m then (n, p) :: lk' else (m, q) :: lk_set lk' n p
  end.
Fixpoint lk_get (lk : list (bytes * ptr)) (n : bytes) : option ptr :=
  match lk with [] => None | (m, q) :: lk' => if seqb n m then Some q else lk_get lk' n end.
Fixpoint lk_add (lk : list (bytes * ptr)) (addr : nat -> ptr) (i : nat) (l : list aproto) : list (bytes * ptr) :=
  match l with [] => lk | a :: l' => lk_add (lk_set lk (ap_name a) (addr i)) addr (S i) l' end.
Definition direct_lookup (p : ptr) (a : aproto) : list (bytes * ptr) := lk_add [] (child_ptr p) 0 (ap_assets a).

(** Initialize (asset.cc:27-43). *)
Definition asset_init (h : heap) (parent : ino) (p : ptr) : outcome asset :=
  match deref h p with Some a => Ok (mkasset parent (Some p) (direct_lookup p a) []) | None => UB end.
(** UpdateProto (asset.cc:231-240): the fetched lists are destroyed, then proto_ is read. *)
Definition asset_update (h : heap) (s : asset) (np : option ptr) : outcome (asset * heap) :=
  let h' := hfree_all h (as_lists s) in
  match np with
  | None => Ok (mkasset (as_parent s) None [] [], h')
  | Some p => match deref h' p with
              | Some a => Ok (mkasset (as_parent s) (Some p) (direct_lookup p a) [], h')
              | None => UB
              end
  end.

(** FetchNextDirAssetList (asset.cc:373-405) in the loops of Lookup and
    GetAllChildProtos (asset.cc:45-105): fetches lists until [stop] holds.  [ids]: the
    lists not fetched yet; [nx]: the next free allocation.  The flag is false if
    fetching failed. *)
Fixpoint load (fetch : cid -> option (list aproto)) (stop : list (bytes * ptr) -> bool) (ids : list cid)
    (h : heap) (nx : nat) (s : asset) : bool * heap * nat * asset :=
  if stop (as_lookup s) then (true, h, nx, s)
  else match ids with
       | [] => (true, h, nx, s)
       | id :: ids' =>
           match fetch id with
           | None => (false, h, nx, s)
           | Some l =>
               load fetch stop ids' ((nx, l) :: h) (S nx)
                 (mkasset (as_parent s) (as_proto s) (lk_add (as_lookup s) (fun i => mkptr nx i []) 0 l) (as_lists s ++ [nx]))
           end
       end.

Definition get_proto (h : heap) (s : asset) : outcome aproto :=
  match as_proto s with
  | None => UB
  | Some p => match deref h p with Some a => Ok a | None => UB end
  end.

Inductive lookup_result := LErr | LNone | LFound (p : ptr).
(** Lookup (asset.cc:77-105). *)
Definition asset_lookup (fetch : cid -> option (list aproto)) (h : heap) (nx : nat) (s : asset) (name : bytes) :
    outcome (lookup_result * heap * nat * asset) :=
  do a <- get_proto h s;
  if atype_eqb (ap_type a) TDir
  then let '(ok, h', nx', s') := load fetch (fun lk => match lk_get lk name with Some _ => true | None => false end)
                                  (skipn (length (as_lists s)) (ap_ind a)) h nx s in
       if ok then Ok (match lk_get (as_lookup s') name with Some p => LFound p | None => LNone end, h', nx', s')
       else Ok (LErr, h', nx', s')
  else Ok (LErr, h, nx, s).
(** GetAllChildProtos (asset.cc:45-64); None: an error. *)
Definition asset_children (fetch : cid -> option (list aproto)) (h : heap) (nx : nat) (s : asset) :
    outcome (option (list ptr) * heap * nat * asset) :=
  do a <- get_proto h s;
  if atype_eqb (ap_type a) TDir
  then let '(ok, h', nx', s') := load fetch (fun _ => false) (skipn (length (as_lists s)) (ap_ind a)) h nx s in
       Ok (if ok then Some (map snd (as_lookup s')) else None, h', nx', s')
  else Ok (None, h, nx, s).

(** * Inodes *)

Inductive istate := SInit | SUpdatedProto | SUpdated | SInvalid.      (* cdc_fuse_fs.cc:50-55 *)
Definition istate_eqb (a b : istate) : bool :=
  match a, b with SInit, SInit | SUpdatedProto, SUpdatedProto | SUpdated, SUpdated | SInvalid, SInvalid => true | _, _ => false end.
(** struct Inode (75-125). *)
Record inode := mkinode { i_asset : asset; i_nlookup : N; i_children : N; i_state : istate }.

(** CdcFuseFsContext (152-208): [st_objs] are the live inode objects other than the
    root, newest first; [st_map] is ctx->inodes, [st_invalid] ctx->invalid_inodes. *)
Record state := mkst {
  st_heap : heap; st_next : nat; st_manifest : nat; st_root : inode;
  st_objs : list (ino * inode); st_map : list (ptr * ino); st_invalid : list ino }.

Definition with_mem (st : state) (h : heap) (nx : nat) : state :=
  mkst h nx (st_manifest st) (st_root st) (st_objs st) (st_map st) (st_invalid st).
Definition with_tables (st : state) (objs : list (ino * inode)) (m : list (ptr * ino)) (inv : list ino) : state :=
  mkst (st_heap st) (st_next st) (st_manifest st) (st_root st) objs m inv.

Fixpoint oget (l : list (ino * inode)) (i : ino) : option inode :=
  match l with [] => None | (j, r) :: l' => if i =? j then Some r else oget l' i end.
Fixpoint oset (l : list (ino * inode)) (i : ino) (r : inode) : list (ino * inode) :=
  match l with [] => [] | (j, q) :: l' => if i =? j then (j, r) :: l' else (j, q) :: oset l' i r end.
Fixpoint mget (m : list (ptr * ino)) (p : ptr) : option ino :=
  match m with [] => None | (q, i) :: m' => if ptr_eqb p q then Some i else mget m' p end.
Definition mdel (m : list (ptr * ino)) (p : ptr) : list (ptr * ino) := filter (fun e => negb (ptr_eqb p (fst e))) m.

(** GetInode (238-247): the number is the address of the inode. *)
Definition get_inode (st : state) (i : ino) : outcome inode :=
  if i =? root_ino then Ok (st_root st) else match oget (st_objs st) i with Some r => Ok r | None => UB end.
Definition set_inode (st : state) (i : ino) (r : inode) : state :=
  if i =? root_ino then mkst (st_heap st) (st_next st) (st_manifest st) r (st_objs st) (st_map st) (st_invalid st)
  else with_tables st (oset (st_objs st) i r) (st_map st) (st_invalid st).
Definition with_asset (r : inode) (s : asset) : inode := mkinode s (i_nlookup r) (i_children r) (i_state r).
Definition with_state (r : inode) (s : istate) : inode := mkinode (i_asset r) (i_nlookup r) (i_children r) s.
Definition is_valid (r : inode) : bool := negb (istate_eqb (i_state r) SInvalid).

(** An object whose last reference is gone is destroyed, and with it the asset lists it
    owns. *)
Definition referenced (m : list (ptr * ino)) (inv : list ino) (i : ino) : bool :=
  existsb (fun e => snd e =? i) m || existsb (fun j => j =? i) inv.
Definition collect_objs (st : state) : state :=
  let dead := filter (fun e => negb (referenced (st_map st) (st_invalid st) (fst e))) (st_objs st) in
  mkst (hfree_all (st_heap st) (concat (map (fun e => as_lists (i_asset (snd e))) dead)))
       (st_next st) (st_manifest st) (st_root st)
       (filter (fun e => referenced (st_map st) (st_invalid st) (fst e)) (st_objs st)) (st_map st) (st_invalid st).

(** GetOrCreateInode (288-305).  [alloc] gives the address of a new inode. *)
Definition get_or_create (alloc : list ino -> ino) (st : state) (parent : ino) (p : ptr) : outcome (ino * state) :=
  match mget (st_map st) p with
  | Some i =>
      do r <- get_inode st i;
      Ok (i, set_inode st i (mkinode (i_asset r) (i_nlookup r + 1) (i_children r) (i_state r)))
  | None =>
      do s <- asset_init (st_heap st) parent p;
      do r <- get_inode st parent;
      let i := alloc (map fst (st_objs st)) in
      let st1 := set_inode st parent (mkinode (i_asset r) (i_nlookup r) (i_children r + 1) (i_state r)) in
      Ok (i, with_tables st1 ((i, mkinode s 1 0 SInit) :: st_objs st1) ((p, i) :: st_map st1) (st_invalid st1))
  end.

(** ForgetChild (330-345).  For an invalid inode proto() is null, and erasing null from
    ctx->inodes does nothing. *)
Fixpoint forget_child (fuel : nat) (st : state) (i : ino) : outcome state :=
  match fuel with
  | O => OutOfFuel
  | S f =>
      do r <- get_inode st i;
      if i_children r =? 0 then UB
      else
        let r' := mkinode (i_asset r) (i_nlookup r) (i_children r - 1) (i_state r) in
        let st1 := set_inode st i r' in
        if i =? root_ino then Ok st1
        else if (i_nlookup r' =? 0) && (i_children r' =? 0)
             then do st2 <- forget_child f st1 (as_parent (i_asset r'));
                  match as_proto (i_asset r') with
                  | Some p => Ok (collect_objs (with_tables st2 (st_objs st2) (mdel (st_map st2) p) (st_invalid st2)))
                  | None => Ok st2
                  end
             else Ok st1
  end.

(** ForgetOne (347-375). *)
Definition forget_one (st : state) (i : ino) (n : N) : outcome state :=
  do r <- get_inode st i;
  let r' := mkinode (i_asset r) (i_nlookup r - n) (i_children r) (i_state r) in
  let st1 := set_inode st i r' in
  if i =? root_ino then Ok st1
  else if (i_nlookup r' =? 0) && (i_children r' =? 0)
       then do st2 <- forget_child (S (S (length (st_objs st)))) st1 (as_parent (i_asset r'));
            match as_proto (i_asset r') with
            | Some p => Ok (collect_objs (with_tables st2 (st_objs st2) (mdel (st_map st2) p) (st_invalid st2)))
            | None => Ok (collect_objs (with_tables st2 (st_objs st2) (st_map st2) (filter (fun j => negb (j =? i)) (st_invalid st2))))
            end
       else Ok st1.

(** CollectLoadedChildInos (378-391). *)
Definition child_inos (st : state) (s : asset) : list ino :=
  concat (map (fun e => match mget (st_map st) (snd e) with Some i => [i] | None => [] end) (as_lookup s)).

(** GetRelativePath (406-412). *)
Fixpoint rel_path (fuel : nat) (st : state) (r : inode) : outcome bytes :=
  match fuel with
  | O => OutOfFuel
  | S f =>
      if as_parent (i_asset r) =? root_ino
      then do a <- get_proto (st_heap st) (i_asset r); Ok (ap_name a)
      else do pr <- get_inode st (as_parent (i_asset r));
           do pp <- rel_path f st pr;
           do a <- get_proto (st_heap st) (i_asset r);
           Ok (pp ++ 47 :: ap_name a)
  end.

(** * Callbacks *)

Definition ENOENT : N := 2.  Definition EIO : N := 5.  Definition EBADF : N := 9.
Definition EACCES : N := 13. Definition ENOTDIR : N := 20. Definition EISDIR : N := 21.
Definition EINVAL : N := 22.
Definition O_DIRECT : N := 16384.        (* 040000 octal on Linux *)
Definition MODE_IFREG : N := 32768. Definition MODE_IFDIR : N := 16384.

(** GetMode (250-259). *)
Definition get_mode (a : aproto) : N :=
  match ap_type a with TFile => N.lor (ap_perm a) MODE_IFREG | TDir => N.lor (ap_perm a) MODE_IFDIR | _ => ap_perm a end.
(** FillStatBuffer (262-285). *)
Record attr := mkattr { at_ino : ino; at_mode : N; at_size : N; at_mtime : N }.
Definition fill_stat (i : ino) (a : aproto) : attr := mkattr i (get_mode a) (ap_size a) (ap_mtime a).

(** What is replied to a request.  [RQueued]: nothing yet, the request is queued and the
    asset at the path is prioritized on the server (414-472).  [RRead]: Asset::Read of
    the file described by the proto (C26). *)
Inductive reply :=
| RErr (e : N) | REntry (i : ino) (a : attr) | RAttr (a : attr) | ROpen (keep_cache direct_io : bool)
| ROpenDir | RRead (a : aproto) (off size : N) | RDir (l : list (bytes * ino * N)) | RNone
| RQueued (path : bytes).

Inductive op :=
| OLookup (parent : ino) (name : bytes)
| OGetAttr (i : ino)
| OOpen (i : ino) (flags : N)
| ORead (i : ino) (off size : N)
| ORelease (i : ino)
| OOpenDir (i : ino)
| OReadDir (i : ino)
| OReleaseDir (i : ino)
| OForget (l : list (ino * N))
| OAccess (uid gid : N) (i : ino) (mask : N).

Section Exec.
(** [fetch]: what the data store returns for an asset list, None: an error; [alloc]: the
    address of a new inode; [read_ok]: Asset::Read succeeds. *)
Context (fetch : cid -> option (list aproto)) (alloc : list ino -> ino) (read_ok : bool).

(** CdcFuseLookup (478-527). *)
Definition do_lookup (st : state) (parent : ino) (name : bytes) : outcome (reply * state) :=
  do r <- get_inode st parent;
  if negb (is_valid r) then Ok (RErr ENOENT, st)
  else
    do a <- get_proto (st_heap st) (i_asset r);
    if ap_progress a then do path <- rel_path (S (length (st_objs st))) st r; Ok (RQueued path, st)
    else
      do (res, h, nx, s) <- asset_lookup fetch (st_heap st) (st_next st) (i_asset r) name;
      let st1 := set_inode (with_mem st h nx) parent (with_asset r s) in
      match res with
      | LErr | LNone => Ok (RErr ENOENT, st1)
      | LFound p =>
          do (i, st2) <- get_or_create alloc st1 parent p;
          do r2 <- get_inode st2 i;
          if negb (is_valid r2) then Ok (RErr ENOENT, st2)
          else do a2 <- get_proto (st_heap st2) (i_asset r2); Ok (REntry i (fill_stat i a2), st2)
      end.

(** CdcFuseGetAttr (531-545). *)
Definition do_getattr (st : state) (i : ino) : outcome (reply * state) :=
  do r <- get_inode st i;
  if negb (is_valid r) then Ok (RErr ENOENT, st)
  else do a <- get_proto (st_heap st) (i_asset r); Ok (RAttr (fill_stat i a), st).

(** CdcFuseOpen (558-608). *)
Definition do_open (st : state) (i : ino) (flags : N) : outcome (reply * state) :=
  do r <- get_inode st i;
  if negb (is_valid r) then Ok (RErr ENOENT, st)
  else
    do a <- get_proto (st_heap st) (i_asset r);
    match ap_type a with
    | TDir => Ok (RErr EISDIR, st)
    | TFile =>
        if negb (N.land flags 3 =? 0) then Ok (RErr EACCES, st)
        else if (0 <? ap_size a) && ap_progress a
             then do path <- rel_path (S (length (st_objs st))) st r; Ok (RQueued path, st)
             else
               let direct := negb (N.land flags O_DIRECT =? 0) in
               if istate_eqb (i_state r) SUpdated
               then Ok (ROpen false direct, set_inode st i (with_state r SInit))
               else Ok (ROpen (negb direct) direct, st)
    | _ => Ok (RErr EINVAL, st)
    end.

(** CdcFuseRead (612-641).  Reading loads chunk lists only, which no other callback
    uses. *)
Definition do_read (st : state) (i : ino) (off size : N) : outcome (reply * state) :=
  do r <- get_inode st i;
  if negb (is_valid r) then Ok (RErr ENOENT, st)
  else
    do a <- get_proto (st_heap st) (i_asset r);
    if istate_eqb (i_state r) SUpdated then Ok (RErr EIO, st)
    else if read_ok && atype_eqb (ap_type a) TFile then Ok (RRead a off size, st) else Ok (RErr EIO, st).

(** CdcFuseRelease (645-665), CdcFuseReleaseDir (727-743). *)
Definition do_release (st : state) (i : ino) : outcome (reply * state) :=
  do r <- get_inode st i;
  if negb (is_valid r) then Ok (RErr ENOENT, st)
  else do a <- get_proto (st_heap st) (i_asset r);
       Ok (match ap_type a with TDir => RErr EISDIR | TFile => RErr 0 | _ => RErr EINVAL end, st).
Definition do_releasedir (st : state) (i : ino) : outcome (reply * state) :=
  do r <- get_inode st i;
  if negb (is_valid r) then Ok (RErr ENOENT, st)
  else do a <- get_proto (st_heap st) (i_asset r);
       Ok (if atype_eqb (ap_type a) TDir then RErr 0 else RErr ENOTDIR, st).

(** CdcFuseOpenDir (669-698). *)
Definition do_opendir (st : state) (i : ino) : outcome (reply * state) :=
  do r <- get_inode st i;
  if negb (is_valid r) then Ok (RErr ENOENT, st)
  else
    do a <- get_proto (st_heap st) (i_asset r);
    if negb (atype_eqb (ap_type a) TDir) then Ok (RErr ENOTDIR, st)
    else if ap_progress a then do path <- rel_path (S (length (st_objs st))) st r; Ok (RQueued path, st)
    else Ok (ROpenDir, st).

(** The children loop of CdcFuseReadDir (711-717): every child gets an inode. *)
Fixpoint dir_entries (st : state) (i : ino) (ps : list ptr) : outcome (list (bytes * ino * N) * state) :=
  match ps with
  | [] => Ok ([], st)
  | p :: ps' =>
      do (j, st1) <- get_or_create alloc st i p;
      do r <- get_inode st1 j;
      if negb (is_valid r) then dir_entries st1 i ps'
      else
        do a <- match deref (st_heap st1) p with Some a => Ok a | None => UB end;
        do b <- get_proto (st_heap st1) (i_asset r);
        do (l, st2) <- dir_entries st1 i ps';
        Ok ((ap_name a, j, get_mode b) :: l, st2)
  end.

(** CdcFuseReadDir (682-735): the whole listing; which part of it is returned is the
    subject of [read_page] below. *)
Definition do_readdir (st : state) (i : ino) : outcome (reply * state) :=
  do r <- get_inode st i;
  if negb (is_valid r) then Ok (RErr ENOENT, st)
  else
    do pr <- get_inode st (as_parent (i_asset r));
    if negb (is_valid pr) then Ok (RErr ENOENT, st)
    else
      do a <- get_proto (st_heap st) (i_asset r);
      if negb (atype_eqb (ap_type a) TDir) then Ok (RErr ENOTDIR, st)
      else
        do pa <- get_proto (st_heap st) (i_asset pr);
        do (ps, h, nx, s) <- asset_children fetch (st_heap st) (st_next st) (i_asset r);
        let st1 := set_inode (with_mem st h nx) i (with_asset r s) in
        match ps with
        | None => Ok (RErr EBADF, st1)
        | Some ps =>
            do (l, st2) <- dir_entries st1 i ps;
            Ok (RDir (([46], i, get_mode a) :: ([46; 46], as_parent (i_asset r), get_mode pa) :: l), st2)
        end.

(** CdcFuseForget, CdcFuseForgetMulti (747-771). *)
Fixpoint do_forget (st : state) (l : list (ino * N)) : outcome (reply * state) :=
  match l with
  | [] => Ok (RNone, st)
  | (i, n) :: l' => do st1 <- forget_one st i n; do_forget st1 l'
  end.

(** CdcFuseAccess (775-812). *)
Definition access_bits (uid gid mode : N) : N :=
  let w := N.land mode 7 in
  let g := if gid =? 1000 then N.lor w (N.land (N.shiftr mode 3) 7) else w in
  if uid =? 1000 then N.lor g (N.land (N.shiftr mode 6) 7) else g.
Definition do_access (st : state) (uid gid : N) (i : ino) (mask : N) : outcome (reply * state) :=
  if (uid =? 0) || (gid =? 0) then Ok (RErr 0, st)
  else
    do r <- get_inode st i;
    if negb (is_valid r) then Ok (RErr ENOENT, st)
    else do a <- get_proto (st_heap st) (i_asset r);
         Ok (if N.land (access_bits uid gid (get_mode a)) mask =? mask then RErr 0 else RErr EACCES, st).

Definition exec (st : state) (o : op) : outcome (reply * state) :=
  match o with
  | OLookup i n => do_lookup st i n
  | OGetAttr i => do_getattr st i
  | OOpen i f => do_open st i f
  | ORead i off size => do_read st i off size
  | ORelease i => do_release st i
  | OOpenDir i => do_opendir st i
  | OReadDir i => do_readdir st i
  | OReleaseDir i => do_releasedir st i
  | OForget l => do_forget st l
  | OAccess u g i m => do_access st u g i m
  end.
End Exec.

(** * SetManifest *)

Section Update.
(** [shuffle]: the order in which the tasks of a level run. *)
Context (fetch : cid -> option (list aproto)) (shuffle : list (ino * ino) -> list (ino * ino)).

(** InvalidateTree (1350-1383): a breadth-first walk. *)
Fixpoint invalidate (fuel : nat) (st : state) (q : list ino) : outcome state :=
  match q with
  | [] => Ok st
  | i :: q' =>
      match fuel with
      | O => OutOfFuel
      | S f =>
          do r <- get_inode st i;
          if negb (is_valid r) then Ok st
          else
            do a <- get_proto (st_heap st) (i_asset r);
            let cs := if atype_eqb (ap_type a) TDir then child_inos st (i_asset r) else [] in
            match as_proto (i_asset r) with
            | None => UB
            | Some p =>
                match mget (st_map st) p with
                | None => UB
                | Some j =>
                    do (s, h) <- asset_update (st_heap st) (i_asset r) None;
                    let st1 := set_inode (with_mem st h (st_next st)) i (mkinode s (i_nlookup r) (i_children r) SInvalid) in
                    invalidate f (with_tables st1 (st_objs st1) (mdel (st_map st1) p) (i :: st_invalid st1)) (q' ++ cs)
                end
            end
      end
  end.

(** UpdateInodeTask::ThreadRun (1397-1450): [np] is the inode of the new parent.  The
    results are the children to update next and the proto to remove. *)
Definition update_task (st : state) (np i : ino) : outcome (list (ino * ino) * list ptr * state) :=
  do r <- get_inode st i;
  if negb (is_valid r) then UB
  else
    do a <- get_proto (st_heap st) (i_asset r);
    do pr <- get_inode st np;
    do (res, h, nx, s) <- asset_lookup fetch (st_heap st) (st_next st) (i_asset pr) (ap_name a);
    let st1 := set_inode (with_mem st h nx) np (with_asset pr s) in
    match res with
    | LErr | LNone => do st2 <- invalidate (S (length (st_objs st1))) st1 [i]; Ok ([], [], st2)
    | LFound p =>
        do a' <- match deref (st_heap st1) p with Some a' => Ok a' | None => UB end;
        do r1 <- get_inode st1 i;
        let r2 := with_state r1 (if ap_eqb a' a then SUpdatedProto else SUpdated) in
        match as_proto (i_asset r2) with
        | None => UB
        | Some oldp =>
            match mget (st_map st1) oldp with
            | None => UB
            | Some j =>
                let m := (p, j) :: mdel (st_map st1) p in
                let st1' := set_inode st1 i r2 in
                let st2 := with_tables st1' (st_objs st1') m (st_invalid st1') in
                let cs := map (fun c => (j, c)) (child_inos st2 (i_asset r2)) in
                do (s', h') <- asset_update (st_heap st2) (i_asset r2) (Some p);
                Ok (cs, [oldp], set_inode (with_mem st2 h' (st_next st2)) i (with_asset r2 s'))
            end
        end
    end.

(** ParallelUpdateProtosOnLevel (1458-1480). *)
Fixpoint update_level (st : state) (l : list (ino * ino)) : outcome (list (ino * ino) * list ptr * state) :=
  match l with
  | [] => Ok ([], [], st)
  | (np, i) :: l' =>
      do (cs, old, st1) <- update_task st np i;
      do (cs', old', st2) <- update_level st1 l';
      Ok (cs ++ cs', old ++ old', st2)
  end.

(** The loop over the levels (1513-1525). *)
Fixpoint update_levels (fuel : nat) (st : state) (l : list (ino * ino)) : outcome (list ptr * state) :=
  match l with
  | [] => Ok ([], st)
  | _ =>
      match fuel with
      | O => OutOfFuel
      | S f =>
          do (cs, old, st1) <- update_level st (shuffle l);
          do (old', st2) <- update_levels f st1 cs;
          Ok (old ++ old', st2)
      end
  end.

(** 1527-1534: every outdated proto has an entry. *)
Fixpoint erase_all (m : list (ptr * ino)) (ps : list ptr) : outcome (list (ptr * ino)) :=
  match ps with
  | [] => Ok m
  | p :: ps' => match mget m p with Some _ => erase_all (mdel m p) ps' | None => UB end
  end.

(** 1569-1580. *)
Fixpoint reset_states (st : state) (l : list ino) : outcome state :=
  match l with
  | [] => Ok st
  | i :: l' =>
      do r <- get_inode st i;
      if negb (is_valid r) then UB
      else do a <- get_proto (st_heap st) (i_asset r);
           reset_states (if istate_eqb (i_state r) SUpdatedProto || atype_eqb (ap_type a) TDir
                         then set_inode st i (with_state r SInit) else st) l'
  end.

(** SetManifest (1539-1581) up to the queued requests, with UpdateProtosFromRoot
    (1483-1537): [root]: the new manifest's root_dir, None if it cannot be fetched.
    While the update runs nothing reads the old root inode (all inodes that are updated
    are below it), so the new one is installed first; the old root's lists and the old
    manifest are freed at the end. *)
Definition set_manifest (st : state) (root : option aproto) : outcome state :=
  match root with
  | None => Ok st
  | Some a =>
      let al := st_next st in
      let st0 := with_mem st ((al, [a]) :: st_heap st) (S al) in
      let rootp := mkptr al 0 [] in
      do s <- asset_init (st_heap st0) root_ino rootp;
      let old := st_root st in
      let level := map (fun c => (root_ino, c)) (child_inos st0 (i_asset old)) in
      let st1 := set_inode st0 root_ino (with_asset old s) in
      do (outdated, st2) <- update_levels (S (length (st_objs st))) st1 level;
      do m <- erase_all (st_map st2) (rev outdated);
      let h := hfree (hfree_all (st_heap st2) (as_lists (i_asset old))) (st_manifest st) in
      let st3 := mkst h (st_next st2) al (st_root st2) (st_objs st2) m (st_invalid st2) in
      do st4 <- reset_states st3 (map snd m);
      Ok (set_inode st4 root_ino (with_state (st_root st4) SInit))
  end.
End Update.

(** InitializeRootManifest (1640-1649). *)
Definition empty_root : aproto := mkap [] TDir 0 0 0 [] false [] [].
Definition init_state : state :=
  mkst [(0%nat, [empty_root])] 1 0 (mkinode (mkasset root_ino (Some (mkptr 0 0 [])) [] []) 1 0 SInit) [] [] [].

(** * Queued requests *)

(** A request has an identity (fuse_req_t).  QueuedRequest (130-149) keeps the request;
    for a lookup it keeps the pointer [name], not a copy of the name (448-463). *)
Record request := mkrq { rq_id : nat; rq_op : op }.
Inductive stage := StIdle | StSet | StDrain.
(** [sy_queue]: ctx->queued_requests; [sy_drain]: the local vector of SetManifest
    (1585-1589) from which requests are resumed; [sy_log]: the replies sent. *)
Record sys := mksys { sy_st : state; sy_queue : list request; sy_drain : list request; sy_stage : stage; sy_log : list (nat * reply) }.

(** What the environment chooses for one callback. *)
Record env := mkenv { e_fetch : cid -> option (list aproto); e_alloc : list ino -> ino; e_read : bool }.

(** One thread of the configuration client calls SetManifest (config_stream_client.cc:
    57-72), so its parts follow each other: [EManifest] up to the queued requests,
    [ESwap] (1585-1589), [EResume] for each request (1590-1611), [EDone].  Callbacks
    from the kernel ([EReq]) come in between.  [EResume]'s [name] is what the buffer with
    the name contains when a queued lookup is resumed: libfuse reuses the buffer once the
    callback has returned. *)
Inductive event :=
| EReq (rq : request) (e : env)
| EManifest (root : option aproto) (e : env) (shuffle : list (ino * ino) -> list (ino * ino))
| ESwap
| EResume (name : bytes) (e : env)
| EDone.

Definition resumed (name : bytes) (o : op) : op := match o with OLookup p _ => OLookup p name | o => o end.
(** Runs a callback; a queued request goes to the end of the queue (427-472). *)
Definition handle (e : env) (y : sys) (q d : list request) (rq : request) : outcome sys :=
  do (r, st) <- exec (e_fetch e) (e_alloc e) (e_read e) (sy_st y) (rq_op rq);
  match r with
  | RQueued _ => Ok (mksys st (q ++ [rq]) d (sy_stage y) (sy_log y))
  | _ => Ok (mksys st q d (sy_stage y) (sy_log y ++ [(rq_id rq, r)]))
  end.
Definition sys_exec (y : sys) (ev : event) : outcome sys :=
  match ev with
  | EReq rq e => handle e y (sy_queue y) (sy_drain y) rq
  | EManifest root e shuffle =>
      match sy_stage y with
      | StIdle =>
          do st <- set_manifest (e_fetch e) shuffle (sy_st y) root;
          Ok (mksys st (sy_queue y) (sy_drain y) (match root with Some _ => StSet | None => StIdle end) (sy_log y))
      | _ => Fail
      end
  | ESwap =>
      match sy_stage y with
      | StSet => Ok (mksys (sy_st y) [] (sy_queue y) StDrain (sy_log y))
      | _ => Fail
      end
  | EResume name e =>
      match sy_stage y, sy_drain y with
      | StDrain, rq :: d => handle e y (sy_queue y) d (mkrq (rq_id rq) (resumed name (rq_op rq)))
      | _, _ => Fail
      end
  | EDone =>
      match sy_stage y, sy_drain y with
      | StDrain, [] => Ok (mksys (sy_st y) (sy_queue y) [] StIdle (sy_log y))
      | _, _ => Fail
      end
  end.
Definition init_sys : sys := mksys init_state [] [] StIdle [].

(** * Reading a directory in parts *)

(** The bytes of an integer, lowest first. *)
Fixpoint le_bytes (n : nat) (x : N) : bytes := match n with O => [] | S n' => x mod 256 :: le_bytes n' (x / 256) end.
Definition dirent_size (name : bytes) : nat := (24 + (length name + 7) / 8 * 8)%nat.
(** fuse_add_direntry (libfuse, struct fuse_dirent): inode, offset of the next entry,
    length of the name, type from the mode, name padded to a multiple of 8. *)
Definition dirent (name : bytes) (i mode : N) (off : nat) : bytes :=
  le_bytes 8 i ++ le_bytes 8 (N.of_nat off) ++ le_bytes 4 (N.of_nat (length name)) ++
  le_bytes 4 (N.land (N.shiftr mode 12) 15) ++ name ++ repeat 0 ((length name + 7) / 8 * 8 - length name).
(** AddDirectoryEntry (308-320): the entry's offset is the size of the buffer after it. *)
Definition add_entry (buf : bytes) (e : bytes * ino * N) : bytes :=
  let '(name, i, mode) := e in buf ++ dirent name i mode (length buf + dirent_size name).
Definition dir_buffer (l : list (bytes * ino * N)) : bytes := fold_left add_entry l [].
(** The reply of CdcFuseReadDir (717-726) for [off] and [size]. *)
Definition read_page (l : list (bytes * ino * N)) (off size : nat) : bytes :=
  let buf := dir_buffer l in
  if (length buf <=? off)%nat then [] else firstn (Nat.min (length buf - off) size) (skipn off buf).
