(** What users of the streamed file system rely on: which asset a path denotes in a
    manifest, what the kernel may send, and histories of the mounted file system. *)
From Verif Require Import Base Str ModelFuse.
Local Open Scope N_scope.

Section Store.
(** The contents of the indirect asset lists, by content id. *)
Variable store : cid -> option (list aproto).

(** The assets in a directory, direct and indirect. *)
Definition dir_children (a : aproto) : list aproto :=
  ap_assets a ++ concat (map (fun id => match store id with Some l => l | None => [] end) (ap_ind a)).

(** [below a d]: [d] is [a] or an asset somewhere in the directory [a]. *)
Inductive below : aproto -> aproto -> Prop :=
| below_refl a : below a a
| below_step a c d : In c (dir_children a) -> below c d -> below a d.

(** Names are unique in every directory of the manifest. *)
Definition names_unique (root : aproto) : Prop := forall d, below root d -> NoDup (map ap_name (dir_children d)).
(** Only the root directory is so large that it has indirect lists. *)
Definition only_root_is_large (root : aproto) : Prop :=
  forall c d, In c (dir_children root) -> below c d -> ap_ind d = [].
(** Nothing is left to be processed. *)
Definition complete (root : aproto) : Prop := forall d, below root d -> ap_progress d = false.

(** The asset a path denotes. *)
Definition is_name (n : bytes) (c : aproto) : bool := if list_eq_dec N.eq_dec n (ap_name c) then true else false.
Fixpoint asset_at (a : aproto) (path : list bytes) : option aproto :=
  match path with
  | [] => Some a
  | n :: path' =>
      match ap_type a with
      | TDir => match find (is_name n) (dir_children a) with Some c => asset_at c path' | None => None end
      | _ => None
      end
  end.

(** * The kernel *)

(** The kernel counts, for every inode number, how often a reply to lookup gave it the
    number, minus what it has forgotten (readdir does not count: fuse_lowlevel.h). *)
Definition counts := ino -> N.
Definition knows (k : counts) (i : ino) : Prop := i = root_ino \/ 0 < k i.
Definition forgotten (l : list (ino * N)) (i : ino) : N :=
  fold_right N.add 0 (map snd (filter (fun e => fst e =? i) l)).
Definition uses (o : op) (i : ino) : Prop :=
  match o with
  | OLookup j _ | OGetAttr j | OOpen j _ | ORead j _ _ | ORelease j | OOpenDir j | OReadDir j | OReleaseDir j | OAccess _ _ j _ => j = i
  | OForget _ => False
  end.
Definition learned (k : counts) (r : reply) : counts :=
  match r with REntry i _ => fun j => if j =? i then k j + 1 else k j | _ => k end.
Definition after_op (k : counts) (o : op) : counts :=
  match o with OForget l => fun j => k j - forgotten l j | _ => k end.

(** * Histories *)

(** The mounted file system with the kernel.  [w_root]: the manifest that was set last;
    [w_paths]: the path for which the kernel was given an inode number, None once a
    manifest was set in which there is nothing at that path (the inode is stale);
    [w_changed]: the last manifest has a different asset at the path of an inode the
    kernel knows, and the kernel has not opened the inode since. *)
Record world := mkw { w_sys : sys; w_kernel : counts; w_issued : list nat; w_root : aproto;
                      w_paths : ino -> option (list bytes); w_changed : ino -> Prop }.
Definition init_world : world :=
  mkw init_sys (fun _ => 0) [] empty_root (fun i => if i =? root_ino then Some [] else None) (fun _ => False).

Definition env_ok (e : env) : Prop :=
  (forall id l, e_fetch e id = Some l -> store id = Some l) /\
  (forall keys, ~ In (e_alloc e keys) keys /\ e_alloc e keys <> root_ino).
Definition waiting (y : sys) (i : ino) : Prop := exists rq, In rq (sy_queue y ++ sy_drain y) /\ uses (rq_op rq) i.
(** What may happen next: the kernel sends requests for inodes it knows, does not forget
    more than it was given, and keeps the inodes of requests that have not been answered. *)
Definition may_happen (w : world) (ev : event) : Prop :=
  match ev with
  | EReq rq e =>
      env_ok e /\ ~ In (rq_id rq) (w_issued w) /\
      (forall i, uses (rq_op rq) i -> knows (w_kernel w) i) /\
      match rq_op rq with
      | OForget l => (forall e, In e l -> 0 < snd e) /\ forall i, In i (map fst l) -> i <> root_ino /\ forgotten l i <= w_kernel w i /\
                               (waiting (w_sys w) i -> forgotten l i < w_kernel w i)
      | _ => True
      end
  | EManifest root e shuffle =>
      env_ok e /\ (forall l, Permutation (shuffle l) l) /\ sy_stage (w_sys w) = StIdle
  | ESwap => sy_stage (w_sys w) = StSet
  | EResume _ e => env_ok e /\ sy_stage (w_sys w) = StDrain /\ sy_drain (w_sys w) <> []
  | EDone => sy_stage (w_sys w) = StDrain /\ sy_drain (w_sys w) = []
  end.

(** The request that an event serves, and the operation it runs. *)
Definition serves (w : world) (ev : event) : option (request * env) :=
  match ev with
  | EReq rq e => Some (rq, e)
  | EResume name e => match sy_drain (w_sys w) with rq :: _ => Some (mkrq (rq_id rq) (resumed name (rq_op rq)), e) | [] => None end
  | _ => None
  end.
Definition runs (w : world) (ev : event) : option op := match serves w ev with Some (rq, _) => Some (rq_op rq) | None => None end.
(** The replies sent by an event. *)
Definition sent (y y' : sys) : list (nat * reply) := skipn (length (sy_log y)) (sy_log y').

Definition next_kernel (w : world) (ev : event) (y' : sys) : counts :=
  let k := fold_left (fun k e => learned k (snd e)) (sent (w_sys w) y') (w_kernel w) in
  match ev with EReq rq _ => after_op k (rq_op rq) | _ => k end.
Definition next_paths (w : world) (ev : event) (y' : sys) : ino -> option (list bytes) :=
  match ev with
  | EManifest (Some a) _ _ =>
      fun i => match w_paths w i with
               | Some p => match asset_at a p with Some _ => Some p | None => None end
               | None => None
               end
  | _ =>
      match runs w ev, sent (w_sys w) y' with
      | Some (OLookup q n), [(_, REntry i _)] =>
          fun j => if j =? i then match w_paths w q with Some p => Some (p ++ [n]) | None => None end else w_paths w j
      | _, _ => w_paths w
      end
  end.
Definition next_changed (w : world) (ev : event) (y' : sys) : ino -> Prop :=
  match ev with
  | EManifest (Some a) _ _ =>
      fun i => 0 < w_kernel w i /\ exists p old new, w_paths w i = Some p /\ asset_at (w_root w) p = Some old /\ asset_at a p = Some new /\
               old <> new /\ ap_type new = TFile
  | _ =>
      match runs w ev, sent (w_sys w) y' with
      | Some (OOpen i _), [(_, ROpen _ _)] => fun j => j <> i /\ w_changed w j
      | Some (OForget l), _ => fun j => w_changed w j /\ forgotten l j < w_kernel w j
      | _, _ => w_changed w
      end
  end.
Definition next_world (w : world) (ev : event) (y' : sys) : world :=
  mkw y' (next_kernel w ev y')
      (match ev with EReq rq _ => rq_id rq :: w_issued w | _ => w_issued w end)
      (match ev with EManifest (Some a) _ _ => a | _ => w_root w end)
      (next_paths w ev y') (next_changed w ev y').
(** The states of the mounted file system in all histories whose events satisfy [ok]. *)
Inductive reachable (ok : event -> Prop) : world -> Prop :=
| reach_init : reachable ok init_world
| reach_step w ev y' : reachable ok w -> may_happen w ev -> ok ev -> sys_exec (w_sys w) ev = Ok y' ->
    reachable ok (next_world w ev y').

(** Histories in which every manifest satisfies [P]. *)
Definition manifests (P : aproto -> Prop) (ev : event) : Prop :=
  match ev with EManifest (Some a) _ _ => P a | _ => True end.
(** Histories in which no asset list is missing while a manifest is being set. *)
Definition no_missing_lists (ev : event) : Prop :=
  match ev with EManifest (Some a) e _ => forall d id, below a d -> In id (ap_ind d) -> e_fetch e id <> None | _ => True end.

(** * What a request is answered *)

(** stat of the asset [c]. *)
Definition is_stat (i : ino) (c : aproto) (s : attr) : Prop :=
  at_ino s = i /\ at_size s = ap_size c /\ at_mtime s = ap_mtime c /\
  forall b, N.testbit (at_mode s) b =
    N.testbit (ap_perm c) b || (match ap_type c with TFile => b =? 15 | TDir => b =? 14 | _ => false end).
Definition mode_of (c : aproto) (m : N) : Prop :=
  forall b, N.testbit m b = N.testbit (ap_perm c) b || (match ap_type c with TFile => b =? 15 | TDir => b =? 14 | _ => false end).

(** The path that is given to the server for an asset that is not ready. *)
Fixpoint joined (path : list bytes) : bytes :=
  match path with [] => [] | [n] => n | n :: path' => n ++ 47 :: joined path' end.

(** Every requested right is granted to everybody, to the group (1000) or to the owner
    (1000). *)
Definition granted (uid gid perm mask : N) : Prop :=
  forall b, N.testbit mask b = true -> b < 3 /\
    (N.testbit perm b = true \/ (gid = 1000 /\ N.testbit perm (b + 3) = true) \/ (uid = 1000 /\ N.testbit perm (b + 6) = true)).

(** What operation [o] on the inode [i] of the asset at [path] is answered.  [fetch]: what
    can be fetched. *)
Definition answers (fetch : cid -> option (list aproto)) (root : aproto) (path : list bytes) (i : ino) (o : op) (r : reply) : Prop :=
  exists a, asset_at root path = Some a /\
  let is_queued := exists s, r = RQueued s /\ (path <> [] -> s = joined path) in
  let missing := exists id, In id (ap_ind a) /\ fetch id = None in
  match o with
  | OLookup _ n =>
      if ap_progress a then is_queued
      else match asset_at root (path ++ [n]) with
           | Some c => (exists j s, r = REntry j s /\ is_stat j c s) \/ (r = RErr ENOENT /\ missing)
           | None => r = RErr ENOENT
           end
  | OGetAttr _ => exists s, r = RAttr s /\ is_stat i a s
  | OOpen _ flags =>
      match ap_type a with
      | TDir => r = RErr EISDIR
      | TFile =>
          if N.testbit flags 0 || N.testbit flags 1 then r = RErr EACCES        (* not O_RDONLY *)
          else if (0 <? ap_size a) && ap_progress a then is_queued
          else exists keep, r = ROpen keep (N.testbit flags 14)                   (* O_DIRECT *)
      | _ => r = RErr EINVAL
      end
  | ORead _ off size => r = RErr EIO \/ (ap_type a = TFile /\ r = RRead a off size)
  | ORelease _ => r = RErr (match ap_type a with TDir => EISDIR | TFile => 0 | _ => EINVAL end)
  | OOpenDir _ =>
      match ap_type a with
      | TDir => if ap_progress a then is_queued else r = ROpenDir
      | _ => r = RErr ENOTDIR
      end
  | OReadDir _ =>
      match ap_type a with
      | TDir => (exists e1 e2 l, r = RDir (e1 :: e2 :: l) /\ fst (fst e1) = [46] /\ fst (fst e2) = [46; 46] /\
                   exists cs, Permutation cs (dir_children a) /\
                     Forall2 (fun e c => fst (fst e) = ap_name c /\ mode_of c (snd e)) l cs) \/ (r = RErr EBADF /\ missing)
      | _ => r = RErr ENOTDIR
      end
  | OReleaseDir _ => r = RErr (match ap_type a with TDir => 0 | _ => ENOTDIR end)
  | OAccess uid gid _ mask =>
      (r = RErr 0 /\ (uid = 0 \/ gid = 0 \/ granted uid gid (ap_perm a) mask)) \/
      (r = RErr EACCES /\ uid <> 0 /\ gid <> 0 /\ ~ granted uid gid (ap_perm a) mask)
  | OForget _ => True
  end.
(** The answer to an operation on a stale inode. *)
Definition stale_answer (o : op) (r : reply) : Prop :=
  match o with
  | OAccess uid gid _ _ => if (uid =? 0) || (gid =? 0) then r = RErr 0 else r = RErr ENOENT
  | _ => r = RErr ENOENT
  end.
End Store.

(** * Reading a directory *)

(** How the kernel reads the entries in a reply to readdir (fs/fuse/readdir.c,
    parse_dirfile): entries that are cut off are ignored, and the next request starts at
    the offset stored in the last complete entry. *)
Fixpoint le_value (l : bytes) : N := match l with [] => 0 | x :: l' => x + 256 * le_value l' end.
Record kentry := mkke { ke_name : bytes; ke_ino : N; ke_type : N }.
Fixpoint kernel_parse (fuel : nat) (buf : bytes) (pos : N) : list kentry * N :=
  match fuel with
  | O => ([], pos)
  | S f =>
      if (length buf <? 24)%nat then ([], pos)
      else
        let namelen := N.to_nat (le_value (firstn 4 (skipn 16 buf))) in
        let reclen := ((24 + namelen + 7) / 8 * 8)%nat in
        if (length buf <? reclen)%nat then ([], pos)
        else
          let '(l, pos') := kernel_parse f (skipn reclen buf) (le_value (firstn 8 (skipn 8 buf))) in
          (mkke (firstn namelen (skipn 24 buf)) (le_value (firstn 8 buf)) (le_value (firstn 4 (skipn 20 buf))) :: l, pos')
  end.
(** The kernel reads page after page until a page has no entry. *)
Fixpoint kernel_readdir (fuel : nat) (page : nat -> bytes) (pos : N) : option (list kentry) :=
  match fuel with
  | O => None
  | S f =>
      let buf := page (N.to_nat pos) in
      match kernel_parse (length buf) buf pos with
      | ([], _) => Some []
      | (l, pos') => match kernel_readdir f page pos' with Some l' => Some (l ++ l') | None => None end
      end
  end.
