(** Specification for C21-C23: a map from chunk ids to bytes with the time of the
    last access. *)
From Verif Require Import Base Str ModelText ModelChunkMap ModelDisk.
Local Open Scope N_scope.

(** A chunk id: 20 bytes (ContentId::kHashSize). *)
Definition chunk_id (id : cid) : Prop := length id = 20%nat /\ is_bytes id.

Definition cmap := cid -> option (bytes * Z).
Definition mset (m : cmap) (id : cid) (v : option (bytes * Z)) : cmap :=
  fun q => if list_eq_dec N.eq_dec q id then v else m q.

(** What an operation does to the map and returns. *)
Inductive mstep : cmap -> dop -> cmap -> dresult -> Prop :=
| m_put m id data now : mstep m (DPut id data now) (mset m id (Some (data, now))) RDone
| m_put_fail m id data k now : mstep m (DPutFail id data k now) (mset m id (Some (firstn k data, now))) RErr
| m_get_nothing m id off now : mstep m (DGet id off 0 now) m (RBytes [])
| m_get m id off n now c t : n <> 0%nat -> m id = Some (c, t) ->
    mstep m (DGet id off n now) (mset m id (Some (c, now))) (RBytes (firstn n (skipn off c)))
| m_get_absent m id off n now : n <> 0%nat -> m id = None -> mstep m (DGet id off n now) m RErr
| m_get_all m id now c t : m id = Some (c, t) -> mstep m (DGetAll id now) (mset m id (Some (c, now))) (RBytes c)
| m_get_all_absent m id now : m id = None -> mstep m (DGetAll id now) m RErr
| m_remove m id : mstep m (DRemove id) (mset m id None) RDone
| m_contains m id : mstep m (DContains id) m (RBool (match m id with Some _ => true | None => false end))
| m_wipe m : mstep m DWipe (fun _ => None) RDone
(* pruning keeps exactly the given ids; an error means that one was missing *)
| m_prune m keep order m' :
    (forall id, chunk_id id -> m' id = if in_dec (list_eq_dec N.eq_dec) id keep then m id else None) ->
    (forall id, In id keep -> m id <> None) ->
    mstep m (DPrune keep order false) m' RDone
| m_prune_missing m keep order m' id :
    (forall id, chunk_id id -> m' id = if in_dec (list_eq_dec N.eq_dec) id keep then m id else None) ->
    In id keep -> (chunk_id id -> m id = None) ->
    mstep m (DPrune keep order false) m' RErr
| m_prune_interrupted m keep order : mstep m (DPrune keep order true) m RErr
(* cleanup may drop chunks, see C22, but never changes one *)
| m_cleanup m order i ii m' r : (forall id, m' id = m id \/ m' id = None) -> (r = RDone \/ r = RErr) -> mstep m (DCleanup order i ii) m' r
| m_list m order l : (forall id, chunk_id id -> (In id l <-> m id <> None)) -> NoDup l -> mstep m (DList order) m (RIds l)
| m_size m n : mstep m DSize m (RNum n)
| m_limit m l : mstep m (DSetLimit l) m RDone.

Inductive mrun : cmap -> list dop -> cmap -> list dresult -> Prop :=
| mrun_nil m : mrun m [] m []
| mrun_cons m o m1 r ops m2 rs : mstep m o m1 r -> mrun m1 ops m2 rs -> mrun m (o :: ops) m2 (r :: rs).

(** The ids in a history are chunk ids, and directories are listed in any order. *)
Definition op_ok (o : dop) : Prop :=
  match o with
  | DPut id _ _ | DPutFail id _ _ _ | DGet id _ _ _ | DGetAll id _ | DRemove id | DContains id => chunk_id id
  | DPrune _ order _ | DCleanup order _ _ | DList order => forall l, Permutation (order l) l
  | _ => True
  end.

(** A cache directory of this depth, possibly with unrelated files whose names
    are not chunk names. *)
Definition cache_dir (sep : byte) (depth : nat) (fs : list dfile) : Prop :=
  NoDup (map fst fs) /\
  forall p v, In (p, v) fs -> parse_path sep depth p = None \/ exists id, chunk_id id /\ p = cache_path sep depth id.

(** Bytes stored in the cache directory. *)
Definition stored_bytes (fs : list dfile) : Z := fold_right (fun f z => (Z.of_nat (length (fst (snd f))) + z)%Z) 0%Z fs.

(** [a] was used less recently than [b] (ties are broken by name). *)
Definition less_recent (a b : dfile) : Prop :=
  (snd (snd a) < snd (snd b))%Z \/ snd (snd a) = snd (snd b) /\ slt (fst a) (fst b).

(** No Put ran out of disk space. *)
Definition no_failed_put (ops : list dop) : Prop := Forall (fun o => match o with DPutFail _ _ _ _ => False | _ => True end) ops.

(** The chunks a cache directory holds. *)
Definition stored (sep : byte) (depth : nat) (fs : list dfile) : cmap := fun id => ffind (cache_path sep depth id) fs.
