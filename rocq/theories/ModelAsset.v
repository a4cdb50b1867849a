(** Model of cdc_fuse_fs/asset.cc (Read, Lookup, GetAllChildProtos) and of
    ManifestBuilder::EnforceFileProtoSize (manifest/manifest_builder.cc).
    uint64_t arithmetic wraps.  The chunk lists of a file are numbered 0 (the direct
    list, list_idx -1 in the code), 1 .. n (the indirect lists), n + 1 (the end). *)
From Verif Require Import Base Str ModelText ModelChunkMap ModelProvider.
Local Open Scope N_scope.

Definition w64 (x : N) : N := x mod 18446744073709551616.
Definition sub64 (a b : N) : N := w64 (a + 18446744073709551616 - w64 b).

(** ChunkRef, Asset (the fields of a FILE asset) (proto/manifest.proto:34-107). *)
Record cref := mkref { cr_off : N; cr_id : cid }.
Record fproto := mkfp { fp_size : N; fp_chunks : list cref; fp_ind : list (N * cid) }.

(** std::upper_bound with the comparison value < element, as a binary search
    (libstdc++); [less] is the comparison applied to the value.  The result is the
    position of the iterator. *)
Fixpoint ub_loop {A} (less : A -> bool) (l : list A) (fuel first len : nat) : nat :=
  match fuel with
  | O => first
  | S f =>
      if (len =? 0)%nat then first
      else
        let half := (len / 2)%nat in
        match nth_error l (first + half) with
        | Some x => if less x then ub_loop less l f first half else ub_loop less l f (S (first + half)) (len - half - 1)
        | None => first
        end
  end.
Definition upper_bound {A} (less : A -> bool) (l : list A) : nat := ub_loop less l (length l) 0 (length l).

(** FindChunkList (asset.cc:416-431), shifted by one. *)
Definition find_chunk_list (fp : fproto) (offset : N) : nat :=
  if fp_size fp <=? offset then S (length (fp_ind fp))
  else upper_bound (fun e => offset <? fst e) (fp_ind fp).

(** FindChunk (asset.cc:433-443); None is -1. *)
Definition find_chunk (refs : list cref) (list_off off : N) : option nat :=
  match upper_bound (fun r => sub64 off list_off <? cr_off r) refs with O => None | S i => Some i end.

(** ChunkListOffset (asset.cc:445-453). *)
Definition list_offset (fp : fproto) (li : nat) : N :=
  match li with
  | O => 0
  | S i => match nth_error (fp_ind fp) i with Some e => fst e | None => fp_size fp end
  end.

(** ChunkSize (asset.cc:455-473). *)
Definition chunk_size (fp : fproto) (li ci : nat) (refs : list cref) : outcome N :=
  match nth_error refs ci with
  | None => UB
  | Some r =>
      if (S ci <? length refs)%nat
      then match nth_error refs (S ci) with Some r' => Ok (sub64 (cr_off r') (cr_off r)) | None => UB end
      else Ok (sub64 (list_offset fp (S li)) (w64 (cr_off r + list_offset fp li)))
  end.

Section Read.
(** [fetch i]: the chunks of indirect list i, None if fetching it fails
    (GetProto).  Lists are content-addressed, so it does not matter which thread
    loaded a list (asset.cc:491-517); one Read asks for each list at most once. *)
Context (fp : fproto) (fetch : nat -> option (list cref)).

(** GetChunkRefList (asset.cc:475-518): None is the null pointer at the end. *)
Definition get_refs (li : nat) : outcome (option (list cref)) :=
  match li with
  | O => Ok (Some (fp_chunks fp))
  | S i => if (i =? length (fp_ind fp))%nat then Ok None
           else match fetch i with Some l => Ok (Some l) | None => Fail end
  end.

(** asset.cc:165-181. *)
Fixpoint advance (fuel : nat) (li ci : nat) (refs : list cref) (off : N) : outcome (option (nat * nat * list cref)) :=
  match fuel with
  | O => OutOfFuel
  | S f =>
      if (ci <? length refs)%nat then Ok (Some (li, ci, refs))
      else
        do o <- get_refs (S li);
        match o with
        | None => if off =? fp_size fp then Ok None else Fail
        | Some refs' => advance f (S li) 0 refs' off
        end
  end.

(** The loop of Read (asset.cc:137-192).  A request is (chunk id, offset in the
    chunk, bytes to read); the second result is data_bytes_left. *)
Fixpoint collect (fuel : nat) (li ci : nat) (refs : list cref) (off nleft pleft : N) (acc : list (cid * N * N)) :
    outcome (list (cid * N * N) * N) :=
  match fuel with
  | O => OutOfFuel
  | S f =>
      match nth_error refs ci with
      | None => UB
      | Some r =>
          let abs := w64 (list_offset fp li + cr_off r) in
          let coff := if abs <? off then off - abs else 0 in
          do cs <- chunk_size fp li ci refs;
          let avail := sub64 cs coff in
          let rd := N.min avail nleft in
          let pf := N.min avail pleft in
          let acc' := acc ++ [(cr_id r, coff, rd)] in
          let nleft' := if rd <? nleft then nleft - rd else 0 in
          let pleft' := pleft - pf in
          let off' := w64 (off + pf) in
          if pleft' =? 0 then Ok (acc', nleft')
          else
            do nx <- advance (S (S (length (fp_ind fp)))) li (S ci) refs off';
            match nx with
            | None => Ok (acc', nleft')
            | Some (li', ci', refs') =>
                match nth_error refs' ci' with
                | None => UB
                | Some r' => if off' =? w64 (list_offset fp li' + cr_off r')
                             then collect f li' ci' refs' off' nleft' pleft' acc'
                             else Fail
                end
            end
      end
  end.

Definition fetched_len (i : nat) : nat := match fetch i with Some l => length l | None => 0 end.
(** The number of chunks in all lists: the loop visits each at most once. *)
Definition all_chunks : nat := (length (fp_chunks fp) + list_sum (map fetched_len (seq 0 (length (fp_ind fp)))))%nat.

(** asset.cc:114-192; None: nothing to read, return 0 (114, 122). *)
Definition read_plan (offset size prefetch : N) : outcome (option (list (cid * N * N) * N)) :=
  if size =? 0 then Ok None
  else
    let li := find_chunk_list fp offset in
    do o <- get_refs li;
    match o with
    | None => Ok None
    | Some refs =>
        match find_chunk refs (list_offset fp li) offset with
        | None => Fail
        | Some ci =>
            if (ci <? length refs)%nat
            then do r <- collect (S all_chunks) li ci refs offset size prefetch []; Ok (Some r)
            else Fail
        end
    end.

Definition to_task (q : cid * N * N) : task := let '(id, off, n) := q in mktask id (N.to_nat off) (N.to_nat n) [] [] false.

(** Nothing is written for a range of size 0: its data pointer is null (153). *)
Definition written (t : task) : bytes := if (t_size t =? 0)%nat then [] else t_out t.

(** Read (asset.cc:107-206) with [get] for data_store_reader_->Get.  The result is
    the number of bytes returned and what was written to the buffer: the chunk
    ranges go to consecutive positions (152-154). *)
Definition asset_read (get : list task -> M (status * list task)) (offset size prefetch : N) : M (outcome (N * bytes)) :=
  match read_plan offset size prefetch with
  | Fail => ret Fail
  | UB => ret UB
  | OutOfFuel => ret OutOfFuel
  | Ok None => ret (Ok (0, []))
  | Ok (Some (qs, nleft)) =>
      let* (s, ts) := get (map to_task qs) in
      match s with
      | SOk => if read_done ts then ret (Ok (size - nleft, concat (map written ts))) else ret Fail
      | _ => ret Fail
      end
  end.
End Read.

(** * EnforceFileProtoSize *)

(** Protobuf sizes (ByteSizeLong). *)
Fixpoint varint_loop (fuel : nat) (x : N) : N :=
  match fuel with O => 1 | S f => if x <? 128 then 1 else 1 + varint_loop f (x / 128) end.
Definition varint_size (x : N) : N := varint_loop 9 x.
Definition len_field (n : N) : N := 1 + varint_size n + n.     (* tag, length, payload *)
Definition id_size (id : cid) : N := match id with [] => 0 | _ => len_field (N.of_nat (length id)) end.
Definition offset_size (o : N) : N := if o =? 0 then 0 else 1 + varint_size o.
Definition ref_size (r : cref) : N := offset_size (cr_off r) + len_field (id_size (cr_id r)).
Definition ind_size (e : N * cid) : N := offset_size (fst e) + len_field (id_size (snd e)).
Definition nsum (l : list N) : N := fold_right N.add 0 l.
(** A ChunkList with these chunks. *)
Definition chunk_list_bytes (l : list cref) : N := nsum (map (fun r => len_field (ref_size r)) l).
(** An Asset whose other fields take [base] bytes. *)
Definition file_bytes (base : N) (chunks : list cref) (ind : list (N * cid)) : N :=
  base + chunk_list_bytes chunks + nsum (map (fun e => len_field (ind_size e)) ind).

Definition overhead : N := 2.    (* kRepeatedProtoFieldOverhead (manifest_builder.h:267) *)

(** manifest_builder.cc:531-540: [kept] in reverse order, [over] in file order (the
    deque is read from its back). *)
Fixpoint pop_loop (base max_asset : N) (kept : list cref) (psize : N) (over : list cref) : list cref * list cref :=
  match kept with
  | [] => ([], over)
  | r :: kept' =>
      if max_asset <? psize
      then let p1 := sub64 psize (ref_size r + overhead) in
           let p2 := if p1 <=? max_asset then file_bytes base (rev kept') [] else p1 in
           pop_loop base max_asset kept' p2 (r :: over)
      else (kept, over)
  end.

(** chunk_list_size after adding a chunk (573-576). *)
Definition grown (max_size size s : N) (l : list cref) : N :=
  if max_size <? size + s then chunk_list_bytes l else size + s.

(** manifest_builder.cc:549-580: the lists written, with their offsets. *)
Fixpoint fill_lists (max_size : N) (over : list cref) (loff : N) (cl : list cref) (size : N) : list (N * list cref) :=
  match over with
  | [] => [(loff, cl)]
  | r :: over' =>
      let r1 := mkref (sub64 (cr_off r) loff) (cr_id r) in
      let s1 := ref_size r1 + overhead in
      if (0 <? size) && (max_size <? size + s1)
      then let r2 := mkref 0 (cr_id r) in
           (loff, cl) :: fill_lists max_size over' (cr_off r) [r2] (grown max_size 0 (ref_size r2 + overhead) [r2])
      else fill_lists max_size over' loff (cl ++ [r1]) (grown max_size size s1 (cl ++ [r1]))
  end.

(** WriteBackChunkList for each list (610-618); [put] is PutProto. *)
Fixpoint write_lists (put : list cref -> option cid) (ls : list (N * list cref)) : option (list (N * cid)) :=
  match ls with
  | [] => Some []
  | (o, l) :: r =>
      match put l with
      | None => None
      | Some id => match write_lists put r with None => None | Some r' => Some ((o, id) :: r') end
      end
  end.

(** EnforceFileProtoSize (manifest_builder.cc:515-581). *)
Definition enforce_file (put : list cref -> option cid) (base max_asset max_size : N) (fp : fproto) : outcome fproto :=
  if max_asset =? 0 then Ok fp
  else if (length (fp_chunks fp) <=? 1)%nat then Ok fp
  else match fp_ind fp with
       | _ :: _ => Fail
       | [] =>
           let '(kept, over) := pop_loop base max_asset (rev (fp_chunks fp)) (file_bytes base (fp_chunks fp) []) [] in
           match over with
           | [] => Ok fp
           | r :: _ =>
               match write_lists put (fill_lists max_size over (cr_off r) [] 0) with
               | None => Fail
               | Some ind => Ok (mkfp (fp_size fp) (rev kept) ind)
               end
           end
       end.

(** AppendChunk (asset_builder.cc:34-43) and the loops that call it. *)
Definition append_chunk (fp : fproto) (id : cid) (len : N) : fproto :=
  mkfp (w64 (fp_size fp + len)) (fp_chunks fp ++ [mkref (fp_size fp) id]) (fp_ind fp).
Definition truncate_chunks (fp : fproto) : fproto := mkfp 0 [] [].        (* asset_builder.cc:45-51 *)

(** * Directories: Lookup (asset.cc:76-105) *)
Section Dir.
Context {A : Type} (name : A -> bytes).

(** proto_lookup_: a later entry with the same name replaces an earlier one
    (UpdateProtoLookup, asset.cc:408-414). *)
Definition table := bytes -> option A.
Definition add_all (t : table) (l : list A) : table :=
  fold_left (fun t a => fun q => if list_eq_dec N.eq_dec q (name a) then Some a else t q) l t.

(** Loaded indirect lists and the table. *)
Record dirstate := mkds { ds_loaded : nat; ds_table : table }.
(** Initialize (asset.cc:27-42). *)
Definition dir_init (direct : list A) : dirstate := mkds 0 (add_all (fun _ => None) direct).

(** FetchNextDirAssetList (asset.cc:373-406): one atomic step under the write
    lock (the first test under the read lock only avoids taking it). [Ok b]: whether
    a list was fetched; a failing fetch changes nothing. *)
Definition fetch_next (lists : list (list A)) (fails : bool) (s : dirstate) : outcome bool * dirstate :=
  match nth_error lists (ds_loaded s) with
  | None => (Ok false, s)
  | Some l => if fails then (Fail, s) else (Ok true, mkds (S (ds_loaded s)) (add_all (ds_table s) l))
  end.

(** States other threads can bring about: they load further lists. *)
Inductive loads (lists : list (list A)) (s : dirstate) : dirstate -> Prop :=
| loads_none : loads lists s s
| loads_more s1 l : loads lists s s1 -> nth_error lists (ds_loaded s1) = Some l ->
    loads lists s (mkds (S (ds_loaded s1)) (add_all (ds_table s1) l)).

(** Lookup (asset.cc:84-104): [env] is what other threads may do before every
    step (the table is tested under the read lock, which is released before the
    next list is fetched). *)
Inductive lookup (env : dirstate -> dirstate -> Prop) (lists : list (list A)) (n : bytes) : dirstate -> outcome (option A) -> dirstate -> Prop :=
| lookup_hit s s1 a : env s s1 -> ds_table s1 n = Some a -> lookup env lists n s (Ok (Some a)) s1
| lookup_none s s1 s2 : env s s1 -> ds_table s1 n = None -> env s1 s2 ->
    fetch_next lists false s2 = (Ok false, s2) -> lookup env lists n s (Ok None) s2
| lookup_fail s s1 s2 : env s s1 -> ds_table s1 n = None -> env s1 s2 ->
    fetch_next lists true s2 = (Fail, s2) -> lookup env lists n s Fail s2
| lookup_more s s1 s2 s3 r s4 : env s s1 -> ds_table s1 n = None -> env s1 s2 ->
    fetch_next lists false s2 = (Ok true, s3) -> lookup env lists n s3 r s4 -> lookup env lists n s r s4.

(** GetAllChildProtos (asset.cc:44-61): fetch until nothing is nleft, then list the
    table; the order is that of a hash table. *)
Inductive get_all_children (lists : list (list A)) : dirstate -> outcome table -> dirstate -> Prop :=
| children_done s s1 s2 : loads lists s s1 -> fetch_next lists false s1 = (Ok false, s1) -> loads lists s1 s2 ->
    get_all_children lists s (Ok (ds_table s2)) s2
| children_fail s s1 : loads lists s s1 -> fetch_next lists true s1 = (Fail, s1) -> get_all_children lists s Fail s1
| children_more s s1 s2 r s3 : loads lists s s1 -> fetch_next lists false s1 = (Ok true, s2) ->
    get_all_children lists s2 r s3 -> get_all_children lists s r s3.
End Dir.
