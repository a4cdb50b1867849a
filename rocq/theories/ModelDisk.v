(** Model of data_store/disk_data_store.{h,cc}.

    The cache directory is a list of files: path relative to root_dir_ (which
    is a common prefix of every path the store uses), contents and modification
    time.  The sub-directories are treated separately ([created_dirs]); a Put is
    assumed to find or create them.  [sep] is path::PathSeparator() ('/' or
    backslash).  The product capacity_ * fill_factor_ (disk_data_store.cc:224,
    double arithmetic) is an arbitrary number chosen by the caller. *)
From Verif Require Import Base Str ModelText ModelChunkMap.
Local Open Scope N_scope.

Definition other_sep (sep : byte) : byte := if sep =? 47 then 92 else 47.

(** The loop of AddPathSeparators (disk_data_store.cc:61-69). *)
Fixpoint add_seps_loop (sep : byte) (distance : nat) (count : nat) (input : bytes) : bytes :=
  match count with
  | O => input
  | S c => match input with
           | [] => []
           | _ => firstn distance input ++ sep :: add_seps_loop sep distance c (skipn distance input)
           end
  end.
(** AddPathSeparators (disk_data_store.cc:52-71).  The clamping in 57 makes sure
    that it_pos + distance stays within the string. *)
Definition add_seps (sep : byte) (input : bytes) (distance count : nat) : bytes :=
  match input, distance, count with
  | [], _, _ | _, O, _ | _, _, O => input
  | _, _, _ => add_seps_loop sep distance (Nat.min ((length input - 1) / distance) count) input
  end.

(** GetCacheFilePath (disk_data_store.cc:315-320), kDirNameLength = 2 (disk_data_store.h:112). *)
Definition cache_path (sep : byte) (depth : nat) (id : cid) : bytes :=
  add_seps sep (to_hex_string id) 2 depth.

(** ParseCacheFilePath (disk_data_store.cc:322-334). *)
Definition strip_seps (sep : byte) (p : bytes) : bytes :=
  filter (fun c => negb ((c =? sep) || (c =? other_sep sep))) p.
Definition parse_path (sep : byte) (depth : nat) (p : bytes) : option cid :=
  let p := match depth with O => p | S _ => strip_seps sep p end in
  match from_hex_string p with Ok id => Some id | _ => None end.

(** GenerateDirNames (disk_data_store.cc:33-44) with kDirNames = "0123456789abcdef":
    the low nibble comes first. *)
Fixpoint name_of (length : nat) (symbol : N) : bytes :=
  match length with
  | O => []
  | S l => int_to_hex (N.land symbol 15) :: name_of l (N.shiftr symbol 4)
  end.
Definition dir_names (length : nat) : list bytes :=
  map (fun i => name_of length (N.of_nat i)) (seq 0 (N.to_nat (2 ^ (N.of_nat length * 4)))).

(** CreateDirLevelRec (disk_data_store.cc:351-364): the directories created
    below [parent] ([]: the root), with path::Join's separator.  [names] is
    GenerateDirNames(2), see CreateDirHierarchy (343-349). *)
Fixpoint created_dirs (sep : byte) (names : list bytes) (parent : bytes) (depth : nat) : list bytes :=
  match depth with
  | O => []
  | S d => flat_map (fun n => let name := match parent with [] => n | _ => parent ++ sep :: n end in
                              name :: created_dirs sep names name d) names
  end.

Definition dfile : Type := bytes * (bytes * Z).   (* path, (contents, mtime) *)

Record dstore := mkdstore {
  ds_fs : list dfile;
  ds_size : Z;             (* size_ (std::atomic<size_t>) *)
  ds_init : bool;          (* size_initialized_ *)
  ds_limit : option N }.   (* None: capacity_ < 0; Some t: t = capacity_ * fill_factor_ *)

Definition dlen (b : bytes) : Z := Z.of_nat (length b).
Definition total (fs : list dfile) : Z := fold_right (fun f z => (dlen (fst (snd f)) + z)%Z) 0%Z fs.

(** The comparison of Cleanup's sort (disk_data_store.cc:233-238). *)
Definition lru_ltb (a b : dfile) : bool :=
  if (snd (snd a) =? snd (snd b))%Z then sltb (fst a) (fst b) else (snd (snd a) <? snd (snd b))%Z.
(** std::sort: the order is total on distinct paths, so the sorted list is unique. *)
Fixpoint lru_insert (x : dfile) (l : list dfile) : list dfile :=
  match l with [] => [x] | y :: r => if lru_ltb x y then x :: y :: r else y :: lru_insert x r end.
Definition lru_sort (l : list dfile) : list dfile := fold_right lru_insert [] l.

Inductive dop :=
| DPut (id : cid) (data : bytes) (now : Z)
| DPutFail (id : cid) (data : bytes) (written : nat) (now : Z)  (* the disk is full after [written] bytes *)
| DGet (id : cid) (offset size : nat) (now : Z)
| DGetAll (id : cid) (now : Z)
| DRemove (id : cid)
| DContains (id : cid)
| DWipe
| DPrune (keep : list cid) (order : list dfile -> list dfile) (interrupted : bool)
| DCleanup (order : list dfile -> list dfile) (interrupted : bool) (interrupt : nat -> bool)
| DList (order : list dfile -> list dfile)
| DSize
| DSetLimit (limit : option N).

Inductive dresult := RDone | RErr | RBytes (b : bytes) | RBool (b : bool) | RIds (l : list cid) | RNum (n : Z).

Definition set_fs (s : dstore) (fs : list dfile) : dstore := mkdstore fs (ds_size s) (ds_init s) (ds_limit s).
(** UpdateModificationTime (disk_data_store.cc:336-341). *)
Definition touch (p : bytes) (c : bytes) (now : Z) (s : dstore) : dstore := set_fs s (fput p (c, now) (ds_fs s)).

(** The loop of Prune (disk_data_store.cc:187-199). *)
Fixpoint prune_loop (sep : byte) (depth : nat) (files : list dfile) (keep : list cid) (fs : list dfile) (size : Z) :
  list cid * list dfile * Z :=
  match files with
  | [] => (keep, fs, size)
  | f :: r =>
      match parse_path sep depth (fst f) with
      | None => prune_loop sep depth r keep fs size                                   (* 191 *)
      | Some id =>
          if existsb (seqb id) keep
          then prune_loop sep depth r (filter (fun k => negb (seqb id k)) keep) fs size          (* 197 *)
          else prune_loop sep depth r keep (ferase (cache_path sep depth id) fs)
                          (size - dlen (fst (snd f)))%Z                                (* 194-195 *)
      end
  end.

(** The loop of Cleanup (disk_data_store.cc:239-249): whether it was interrupted. *)
Fixpoint evict (limit : Z) (interrupt : nat -> bool) (n : nat) (files : list dfile) (fs : list dfile) (size : Z) :
  bool * list dfile * Z :=
  match files with
  | [] => (false, fs, size)
  | f :: r =>
      if (limit <? size)%Z
      then let fs' := ferase (fst f) fs in
           let size' := (size - dlen (fst (snd f)))%Z in
           if interrupt n then (true, fs', size') else evict limit interrupt (S n) r fs' size'
      else (false, fs, size)
  end.

Definition dstep (sep : byte) (depth : nat) (s : dstore) (o : dop) : dstore * dresult :=
  match o with
  | DPut id data now =>                              (* Put (disk_data_store.cc:100-110) *)
      let p := cache_path sep depth id in
      (mkdstore (fput p (data, now) (ds_fs s)) (ds_size s + dlen data)%Z (ds_init s) (ds_limit s), RDone)
  | DPutFail id data written now =>                  (* Put returning at 106: "wb" has truncated the file *)
      (set_fs s (fput (cache_path sep depth id) (firstn written data, now) (ds_fs s)), RErr)
  | DGet id offset size now =>                       (* Get (disk_data_store.cc:112-124), ReadFile (path.cc:848-870) *)
      match size with
      | O => (s, RBytes [])
      | _ => let p := cache_path sep depth id in
             match ffind p (ds_fs s) with
             | None => (s, RErr)
             | Some (c, _) => (touch p c now s, RBytes (firstn size (skipn offset c)))
             end
      end
  | DGetAll id now =>                                (* Get (disk_data_store.cc:126-146) *)
      let p := cache_path sep depth id in
      match ffind p (ds_fs s) with
      | None => (s, RErr)
      | Some (c, _) => (touch p c now s, RBytes (firstn (length c) c))
      end
  | DRemove id =>                                    (* Remove (disk_data_store.cc:210-213), RemoveFile ignores ENOENT *)
      (set_fs s (ferase (cache_path sep depth id) (ds_fs s)), RDone)
  | DContains id =>                                  (* Contains (disk_data_store.cc:215-217) *)
      (s, RBool (match ffind (cache_path sep depth id) (ds_fs s) with Some _ => true | None => false end))
  | DWipe => (mkdstore [] 0 (ds_init s) (ds_limit s), RDone)      (* Wipe (disk_data_store.cc:169-177) *)
  | DPrune keep order interrupted =>                 (* Prune (disk_data_store.cc:179-208) *)
      if interrupted then (s, RErr)                  (* CollectCacheFiles cancelled (303-305) *)
      else let '(missing, fs, size) := prune_loop sep depth (order (ds_fs s)) keep (ds_fs s) (total (ds_fs s)) in
           (mkdstore fs size true (ds_limit s), match missing with [] => RDone | _ => RErr end)
  | DCleanup order interrupted interrupt =>          (* Cleanup (disk_data_store.cc:219-252) *)
      match ds_limit s with
      | None => (s, RDone)                           (* 220-222 *)
      | Some limit =>
          if ds_init s && (ds_size s <=? Z.of_N limit)%Z then (s, RDone)     (* 225-227 *)
          else if interrupted then (s, RErr)
          else let '(intr, fs, size) := evict (Z.of_N limit) interrupt 0 (lru_sort (order (ds_fs s))) (ds_fs s) (total (ds_fs s)) in
               (mkdstore fs size true (ds_limit s), if intr then RErr else RDone)
      end
  | DList order =>                                   (* List (disk_data_store.cc:254-268) *)
      (mkdstore (ds_fs s) (total (ds_fs s)) true (ds_limit s),
       RIds (flat_map (fun f => match parse_path sep depth (fst f) with Some id => [id] | None => [] end) (order (ds_fs s))))
  | DSize => (s, RNum (ds_size s))                   (* Size (disk_data_store.cc:154) *)
  | DSetLimit l => (mkdstore (ds_fs s) (ds_size s) (ds_init s) l, RDone)     (* SetCapacity (158), SetFillFactor (165) *)
  end.

(** A new store over an existing cache directory: nothing counted yet. *)
Definition dopen (fs : list dfile) (limit : option N) : dstore := mkdstore fs 0 false limit.

Fixpoint drun (sep : byte) (depth : nat) (s : dstore) (ops : list dop) : dstore * list dresult :=
  match ops with
  | [] => (s, [])
  | o :: r => let '(s1, x) := dstep sep depth s o in let '(s2, xs) := drun sep depth s1 r in (s2, x :: xs)
  end.
