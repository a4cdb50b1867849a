(** Model of manifest/file_chunk_map.{h,cc} (without the statistics printer)
    and manifest/pending_assets_queue.{h,cc}. *)
From Verif Require Import Base Str.
Local Open Scope N_scope.

(** *** FileChunkMap *)

Definition path := bytes.
Definition cid := bytes.                      (* ContentIdProto, compared by value (content_id.h:60-62) *)
Definition fchunk : Type := cid * N.          (* FileChunk: content_id, offset (file_chunk_map.h:35-44) *)
Record cfile := mkcfile { c_size : N; c_chunks : list fchunk }.   (* File (file_chunk_map.h:111-117) *)

(** FileUpdate (file_chunk_map.h:119-129). *)
Inductive update :=
| UInit (p : path) (size : N) (chunks : list fchunk)
| UAppend (p : path) (chunks : list fchunk)
| URemove (p : path)
| UClear.

(** path_to_file_ is a flat_hash_map: an association list with unique keys whose
    iteration order is arbitrary (see [flush]).  id_to_chunk_: newest binding
    first; the value is the path and the index of the chunk.  total_chunks_ is
    an integer here (size_t in the code); C33_total_exact shows that it never
    goes below zero. *)
Record fcmap := mkfcmap {
  fm_updates : list update;                   (* file_updates_ *)
  fm_files : list (path * cfile);             (* path_to_file_ *)
  fm_index : list (cid * (path * N));         (* id_to_chunk_ *)
  fm_total : Z }.                             (* total_chunks_ *)

Definition fcmap_init : fcmap := mkfcmap [] [] [] 0%Z.

Fixpoint ffind {B} (k : bytes) (l : list (bytes * B)) : option B :=
  match l with [] => None | (k', v) :: r => if seqb k k' then Some v else ffind k r end.
Fixpoint fput {B} (k : bytes) (v : B) (l : list (bytes * B)) : list (bytes * B) :=
  match l with [] => [(k, v)] | (k', v') :: r => if seqb k k' then (k, v) :: r else (k', v') :: fput k v r end.
Fixpoint ferase {B} (k : bytes) (l : list (bytes * B)) : list (bytes * B) :=
  match l with [] => [] | (k', v') :: r => if seqb k k' then r else (k', v') :: ferase k r end.

(** path_to_file_[path]: default-constructed if absent. *)
Definition fget (p : path) (l : list (path * cfile)) : cfile :=
  match ffind p l with Some f => f | None => mkcfile 0 [] end.

Definition clen (l : list fchunk) : Z := Z.of_nat (length l).

(** One iteration of the loop in FlushUpdates (file_chunk_map.cc:72-112). *)
Definition apply_update (s : list (path * cfile) * Z) (u : update) : list (path * cfile) * Z :=
  let '(files, total) := s in
  match u with
  | UInit p size chunks =>                                     (* 74-82 *)
      (fput p (mkcfile size chunks) files, (total - clen (c_chunks (fget p files)) + clen chunks)%Z)
  | UAppend p chunks =>                                        (* 84-95 *)
      let f := fget p files in
      (fput p (mkcfile (c_size f) (c_chunks f ++ chunks)) files, (total + clen chunks)%Z)
  | URemove p =>                                               (* 97-104 *)
      match ffind p files with
      | None => (files, total)
      | Some f => (ferase p files, (total - clen (c_chunks f))%Z)
      end
  | UClear => ([], 0%Z)                                        (* 106-110 *)
  end.

(** The inner loop of UpdateIdToChunkMap for one file (file_chunk_map.cc:189-190);
    the bound is the chunk count truncated to 32 bits. *)
Fixpoint index_chunks (p : path) (n : N) (chunks : list fchunk) (bound : N) (acc : list (cid * (path * N))) :
  list (cid * (path * N)) :=
  match chunks with
  | [] => acc
  | c :: r => if n <? bound then index_chunks p (n + 1) r bound ((fst c, (p, n)) :: acc) else acc
  end.

(** UpdateIdToChunkMap (file_chunk_map.cc:182-194), visiting the files in the order given. *)
Definition build_index (files : list (path * cfile)) : list (cid * (path * N)) :=
  fold_left (fun acc '(p, f) => index_chunks p 0 (c_chunks f) (N.of_nat (length (c_chunks f)) mod 2 ^ 32) acc) files [].

(** FlushUpdates (file_chunk_map.cc:67-117).  [order] is the iteration order of the hash map. *)
Definition flush (order : list (path * cfile) -> list (path * cfile)) (m : fcmap) : fcmap :=
  match fm_updates m with
  | [] => m                                                    (* 68 *)
  | us => let '(files, total) := fold_left apply_update us (fm_files m, fm_total m) in
          mkfcmap [] files (build_index (order files)) total
  end.

(** FindChunk (file_chunk_map.cc:223-251): [Ok None] = returns false.
    Dereferencing end() or an index past the vector is undefined behaviour. *)
Definition find_chunk (m : fcmap) (id : cid) : outcome (option (path * N * N)) :=
  match ffind id (fm_index m) with
  | None => Ok None                                            (* 231 *)
  | Some (p, n) =>
      match ffind p (fm_files m) with
      | None => UB                                             (* 237, 240 *)
      | Some f =>
          match nth_error (c_chunks f) (N.to_nat n) with
          | None => UB                                         (* 241, 242 *)
          | Some (_, this_offset) =>
              let index1 := (n + 1) mod 2 ^ 32 in              (* uint32_t + int: unsigned int *)
              if index1 =? N.of_nat (length (c_chunks f))
              then Ok (Some (p, this_offset, (c_size f + 2 ^ 64 - this_offset) mod 2 ^ 64 mod 2 ^ 32))
              else match nth_error (c_chunks f) (N.to_nat index1) with
                   | None => UB
                   | Some (_, next_offset) =>
                       Ok (Some (p, this_offset, (next_offset + 2 ^ 64 - this_offset) mod 2 ^ 64 mod 2 ^ 32))
                   end
          end
      end
  end.

(** AppendCopy / AppendMove (file_chunk_map.cc:36-55): the offsets are shifted
    by list_offset (uint64_t). *)
Definition shift_chunks (list_offset : N) (l : list fchunk) : list fchunk :=
  map (fun c => (fst c, (snd c + list_offset) mod 2 ^ 64)) l.

Inductive fcop :=
| OInit (p : path) (size : N) (chunks : list fchunk)            (* Init (file_chunk_map.cc:28-34) *)
| OAppend (p : path) (l : list fchunk) (list_offset : N)        (* AppendCopy, AppendMove *)
| ORemove (p : path)                                            (* Remove (57-60) *)
| OClear                                                        (* Clear (62-65) *)
| OFlush (order : list (path * cfile) -> list (path * cfile)).  (* FlushUpdates *)

Definition push (m : fcmap) (u : update) : fcmap :=
  mkfcmap (fm_updates m ++ [u]) (fm_files m) (fm_index m) (fm_total m).

Definition fcstep (m : fcmap) (o : fcop) : fcmap :=
  match o with
  | OInit p size chunks => push m (UInit p size chunks)
  | OAppend p l off => push m (UAppend p (shift_chunks off l))
  | ORemove p => push m (URemove p)
  | OClear => push m UClear
  | OFlush order => flush order m
  end.

Definition fcrun (ops : list fcop) : fcmap := fold_left fcstep ops fcmap_init.

(** *** PendingAssetsQueue *)

(** A time is [None] for absl::InfiniteFuture() and nanoseconds otherwise. *)
Definition time := option Z.
(** absl::Time::operator< and operator+ *)
Definition time_ltb (a b : time) : bool :=
  match a, b with Some x, Some y => (x <? y)%Z | Some _, None => true | None, _ => false end.
Definition time_add (a : time) (d : Z) : time := match a with Some x => Some (x + d)%Z | None => None end.
Definition infinite (t : time) : bool := match t with None => true | Some _ => false end.

(** PendingAsset (pending_assets_queue.h:34-62). *)
Record passet := mkpasset {
  pa_type : N; pa_rel : bytes; pa_name : bytes; pa_prio : bool; pa_deadline : time }.

(** Add (pending_assets_queue.cc:25-38). *)
Fixpoint insert_before_infinite (a : passet) (q : list passet) : list passet :=
  match q with
  | [] => [a]
  | x :: r => if infinite (pa_deadline x) then a :: x :: r else x :: insert_before_infinite a r
  end.
Definition queue_add (a : passet) (q : list passet) : list passet :=
  if infinite (pa_deadline a) then q ++ [a] else insert_before_infinite a q.

(** Dequeue (pending_assets_queue.cc:40-47). *)
Fixpoint queue_dequeue (accept : option (passet -> bool)) (q : list passet) : option (passet * list passet) :=
  match q with
  | [] => None
  | x :: r =>
      if match accept with Some f => negb (f x) | None => false end
      then match queue_dequeue accept r with Some (a, r') => Some (a, x :: r') | None => None end
      else Some (x, r)
  end.

(** The search loop of Prioritize (pending_assets_queue.cc:68-88).  [before] is
    the part of the queue already passed, split at prio_end: [pre] has been
    passed before prio_end was set, [post] starts at *prio_end. *)
Fixpoint prio_scan (key : bytes * bytes) (deadline : time) (pre post : list passet) (q : list passet) : list passet :=
  match q with
  | [] => pre ++ post
  | x :: r =>
      let at_end := match post with [] => infinite (pa_deadline x) | _ => true end in   (* 72-74: prio_end is set *)
      if seqb (pa_rel x) (fst key) && seqb (pa_name x) (snd key)       (* 76-77 *)
      then if infinite (pa_deadline x)
           then pre ++ mkpasset (pa_type x) (pa_rel x) (pa_name x) true deadline :: post ++ r   (* 80-85 *)
           else pre ++ post ++ x :: r                                   (* 86 *)
      else if at_end then prio_scan key deadline pre (post ++ [x]) r
           else prio_scan key deadline (pre ++ [x]) post r
  end.

(** Prioritize (pending_assets_queue.cc:49-92).  A request is the time it was
    received and what GetOrCreateAsset(rel_file_path, UNKNOWN) found: [None] if
    that failed or the asset is not in progress (60-65), else the directory and
    the name of the asset. *)
Definition prio_request : Type := time * option (bytes * bytes).
Definition prioritize_one (mpt : Z) (q : list passet) (r : prio_request) : list passet :=
  match snd r with
  | None => q
  | Some key => prio_scan key (time_add (fst r) mpt) [] [] q
  end.
(** pending_assets_queue.cc:52, 55 *)
Definition min_received (reqs : list prio_request) (m : time) : time :=
  fold_left (fun m r => if time_ltb (fst r) m then fst r else m) reqs m.
Definition queue_prioritize (mpt : Z) (reqs : list prio_request) (q : list passet) : time * list passet :=
  (time_add (min_received reqs None) mpt, fold_left (prioritize_one mpt) reqs q).

(** A history of calls on one queue, with the results of the Dequeue calls. *)
Inductive qop :=
| QAdd (a : passet)
| QDequeue (accept : option (passet -> bool))
| QPrioritize (reqs : list prio_request).

Definition qstep (mpt : Z) (q : list passet) (o : qop) : list passet * list (option passet) :=
  match o with
  | QAdd a => (queue_add a q, [])
  | QDequeue accept => match queue_dequeue accept q with
                       | Some (a, q') => (q', [Some a])
                       | None => (q, [None])
                       end
  | QPrioritize reqs => (snd (queue_prioritize mpt reqs q), [])
  end.

Fixpoint qrun (mpt : Z) (q : list passet) (ops : list qop) : list passet * list (option passet) :=
  match ops with
  | [] => (q, [])
  | o :: r => let '(q1, e1) := qstep mpt q o in let '(q2, e2) := qrun mpt q1 r in (q2, e1 ++ e2)
  end.
