(** Model of AssetStreamServiceImpl (cdc_stream/grpc_asset_stream_server.cc) and of
    AssetStreamClient (cdc_fuse_fs/asset_stream_client.cc). The files and the chunk map may
    change between two chunks of a request: the i-th chunk is read in the world [ws i]; [io i]
    tells whether reading it fails although the file can be opened (fread, or the data store). *)
From Verif Require Import Base Str ModelChunkMap SpecContent ModelProvider.
Local Open Scope N_scope.

(** path::ReadFile(path, data, offset, len) (path.cc:848-869) into a buffer of [size] zeros:
    the buffer afterwards. *)
Definition read_file (w : world) (io : bool) (p : path) (off size : nat) : option bytes :=
  if (size =? 0)%nat then Some []
  else match w_files w p with
       | None => None
       | Some content => if io then None
                         else let b := firstn size (skipn off content) in Some (b ++ repeat 0 (size - length b))
       end.
(** ReadFromFile (grpc_asset_stream_server.cc:100-120): read_size is not looked at. *)
Definition read_from_file (w : world) (io : bool) (p : path) (off size : N) : option bytes :=
  let data := repeat 0 (N.to_nat size) in
  match read_file w io p (N.to_nat off) (length data) with Some b => Some b | None => None end.

(** What GetContent tells others: content_sent_(size, 1, instance) and RecordStreamedChunk. *)
Inductive note := NSent (size : N) | NStreamed (id : cid).

(** GetContent (61-89). The result is None for an error status; the notes are made in any case. *)
Fixpoint get_content (ws : nat -> world) (io : nat -> bool) (i : nat) (ids : list cid) : outcome (option (list bytes) * list note) :=
  match ids with
  | [] => Ok (Some [], [])
  | id :: r =>
      match find_chunk (w_map (ws i)) id with
      | Ok (Some (p, off, size)) =>
          match read_from_file (ws i) (io i) p off size with
          | None => Ok (None, [])
          | Some d =>
              match get_content ws io (S i) r with
              | Ok (l, n) => Ok (option_map (cons d) l, NStreamed id :: NSent size :: n)
              | x => x
              end
          end
      | Ok None =>
          match (if io i then None else w_store (ws i) id) with
          | None => Ok (None, [])
          | Some d =>
              match get_content ws io (S i) r with
              | Ok (l, n) => Ok (option_map (cons d) l, NSent (N.of_nat (length d)) :: n)
              | x => x
              end
          end
      | Fail => Fail
      | UB => UB
      | OutOfFuel => OutOfFuel
      end
  end.

(** AssetStreamClient::GetContent(id) (asset_stream_client.cc:45-67): response.mutable_data(0)
    without an item is undefined behaviour. *)
Definition client_get (ws : nat -> world) (io : nat -> bool) (id : cid) : outcome (option bytes) :=
  match get_content ws io 0 [id] with
  | Ok (Some (d :: _), _) => Ok (Some d)
  | Ok (Some [], _) => UB
  | Ok (None, _) => Ok None
  | Fail => Fail
  | UB => UB
  | OutOfFuel => OutOfFuel
  end.
(** AssetStreamClient::GetContent(chunk_ids) (69-94). *)
Definition client_get_list (ws : nat -> world) (io : nat -> bool) (ids : list cid) : outcome (option (list bytes)) :=
  match ids with
  | [] => Ok (Some [])
  | _ => match get_content ws io 0 ids with
         | Ok (l, _) => Ok l
         | Fail => Fail
         | UB => UB
         | OutOfFuel => OutOfFuel
         end
  end.

(** GrpcReader on top of it (grpc_reader.cc), as a reader of the data provider: the worlds
    satisfy [P]. (A failed call is an error for the provider, FNotFound does not occur: the
    server's data store reports not-found, which AssetStreamClient passes on; the provider's
    only reader is this one.) *)
Definition grpc_reader (P : world -> Prop) : reader :=
  mkreader KGrpc (fun id f => exists ws io, (forall i, P (ws i)) /\
    match client_get ws io id with
    | Ok (Some d) => f = FOk d
    | Ok None => f = FErr \/ f = FNotFound
    | _ => False
    end).
