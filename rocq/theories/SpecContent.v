(** Specification for C61: fetching chunks from the workstation. *)
From Verif Require Import Base Str ModelChunkMap SpecChunkMap.
Local Open Scope N_scope.

(** The workstation while one chunk is read: the chunk map (what was indexed), the files that
    can be opened, the manifest's data store. *)
Record world := mkworld { w_map : fcmap; w_files : path -> option bytes; w_store : cid -> option bytes }.

(** Bytes [off, off+size) of a file; what lies beyond its end reads as zeros. *)
Definition padded (content : bytes) (off size : nat) : bytes :=
  let b := firstn size (skipn off content) in b ++ repeat 0 (size - length b).

(** [d] is what the workstation has for [id]. *)
Definition answers (w : world) (id : cid) (d : bytes) : Prop :=
  (exists p off size, find_chunk (w_map w) id = Ok (Some (p, off, size)) /\
     (d = [] /\ size = 0 \/ exists content, w_files w p = Some content /\ d = padded content (N.to_nat off) (N.to_nat size))) \/
  (find_chunk (w_map w) id = Ok None /\ w_store w id = Some d).

(** The indexed files have not changed: chunk map and data store describe what is on the disk;
    [truth id] is the chunk with that id. *)
Definition unchanged (truth : cid -> option bytes) (w : world) : Prop :=
  exists ops order later, any_order ops /\ (forall l, Permutation (order l) l) /\ no_flush later /\
    w_map w = fcrun (ops ++ [OFlush order] ++ later) /\
    (forall p f, described_by ops p = Some f -> N.of_nat (length (c_chunks f)) < 2 ^ 32) /\
    (forall p f id off end_, described_by ops p = Some f -> lies_at f id off end_ ->
       off <= end_ < 2 ^ 64 /\ end_ - off < 2 ^ 32 /\
       forall content, w_files w p = Some content ->
         end_ <= N.of_nat (length content) /\
         truth id = Some (firstn (N.to_nat (end_ - off)) (skipn (N.to_nat off) content))) /\
    (forall p f, described_by ops p = Some f -> w_files w p <> None) /\
    (forall id d, w_store w id = Some d -> truth id = Some d).
