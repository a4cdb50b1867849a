(** Specification for C18. *)
From Verif Require Import Base ModelCdc ModelFileDiff ModelBatch SpecBatch ModelProtocol.
Local Open Scope N_scope.

(** The conversation of the client about one file, when the server sends [sigs]: it
    sends [early] before it has received the last of them and [late] after that. *)
Inductive finishes : job -> list request -> Prop :=
| fin_done : finishes JDone []
| fin_send q j l : finishes j l -> finishes (JSend q j) (q :: l).
Inductive converses : job -> list sigmsg -> list request -> list request -> Prop :=
| conv_late j l : finishes j l -> converses j [] [] l
| conv_send q j s sigs e l : converses j (s :: sigs) e l -> converses (JSend q j) (s :: sigs) (q :: e) l
| conv_recv f s sigs e l : converses (f s) sigs e l -> converses (JRecv f) (s :: sigs) e l.

(** A list of packets that can be sent even if the other side takes none: when the last
    one is sent, the ones before must be less than the capacity. *)
Definition fits (size : packet -> N) (cap : N) (l : list packet) : Prop :=
  forall l1 p l2, l = l1 ++ p :: l2 -> total size l1 < cap.

(** Patch commands end with an empty message. *)
Definition ends_empty (l : list request) : Prop :=
  exists qs eof, l = qs ++ [eof] /\ (rq_sources eof = [] /\ rq_offsets eof = [] /\ rq_sizes eof = []) /\
    Forall (fun q => rq_sources q <> [] /\ length (rq_offsets q) = length (rq_sources q) /\ length (rq_sizes q) = length (rq_sources q)) qs.

(** A changed file that is synced without waiting in a circle: either all signature
    messages fit into the server's queue, or what the client sends before it has all
    signatures fits into the client's queue. *)
Definition syncs (size : packet -> N) (cap : N) (j : job) (sigs : list sigmsg) (reqs : list request) : Prop :=
  exists early late, converses j sigs early late /\ early ++ late = reqs /\ ends_empty reqs /\
    (fits size cap (map KSig sigs) \/ fits size cap (map KPatch early)).

(** The list of files ends with an empty message. *)
Definition files_end_empty (batches files : list addfiles) : Prop :=
  exists eof, batches = files ++ [eof] /\ (aq_files eof = [] /\ aq_dirs eof = []) /\ Forall (fun a => aq_files a <> [] \/ aq_dirs a <> []) files.

(** What both sides have when the sync is over: [files] are the file lists sent by the
    client, [pl] is the server's plan, [reqs i] are the client's patch commands for
    file [i].  The client's statuses about deletions are the plan's, in its order;
    the server has the contents of all missing files and has patched all changed files
    with exactly the client's commands. *)
Definition agreed (o : popts) (files : list addfiles) (pl : plan) (content : N -> option bytes) (reqs : N -> list request) (s : net) : Prop :=
  exists w msgs,
    n_client s = PDone (mk_presult [] [] msgs (pl_missing pl) (pl_changed pl)) /\
    n_server s = PDone (mk_presult files w [] (pl_missing pl) (pl_changed pl)) /\
    n_tasks s = [] /\ n_c2s s = no_packets /\ n_s2c s = no_packets /\
    (if o_delete o then exists eof, empty_response eof /\ receive_deleted (msgs ++ [eof]) = Ok (pl_deleted pl, []) else msgs = []) /\
    (if o_dry_run o then w = [] /\ n_patched s = []
     else map fst w = pl_missing pl /\ (forall i c, In (i, c) w -> content i = Some c) /\
          map fst (n_patched s) = pl_changed pl /\ (forall i ps, In (i, ps) (n_patched s) -> exists eof, reqs i = patches_of ps ++ [eof])).

(** A plan the client can follow: indices of its own files, extraneous files before
    extraneous directories (cdc_rsync_server.cc:545-566). *)
Definition good_plan (num_files : nat) (pl : plan) : Prop :=
  Forall (fun i => i < N.of_nat num_files) (pl_missing pl) /\ Forall (fun i => i < N.of_nat num_files) (pl_changed pl) /\
  exists fs ds, Forall clean_path fs /\ Forall clean_path ds /\ pl_deleted pl = map (fun p => (p, false)) fs ++ map (fun p => (p, true)) ds.
