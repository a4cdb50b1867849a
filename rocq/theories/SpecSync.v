(** Specification vocabulary for C15, C16, C17. *)
From Verif Require Import Base ListX Str ModelFastcdc SpecFastcdc ModelCdc SpecCdc ModelFileDiff ModelSync.
Local Open Scope N_scope.

(** [q] lies somewhere below the directory [p]. *)
Definition below (p q : bytes) : Prop := exists r, q = p ++ 47 :: r.

(** A real directory tree: every path occurs once, everything lies in directories. *)
Definition real_tree (s : fs) : Prop :=
  NoDup (map fst s) /\ forall p q n, In (q, n) s -> below p q -> get s p = Some NDir.

(** What the client sends is a tree: no path twice, nothing lies below a file.  The base
    directory of a client's file is unset on the server, cdc_rsync_server.cc:500-507. *)
Definition client_path (cf : list finfo) (cd : list dinfo) (p : bytes) : Prop := In p (map fi_path cf) \/ In p (map di_path cd).
Definition proper_tree (cf : list finfo) (cd : list dinfo) : Prop :=
  NoDup (map fi_path cf) /\ Forall (fun f => fi_base f = nullptr) cf /\
  (forall p, In p (map fi_path cf) -> ~ In p (map di_path cd)) /\
  (forall p q, In p (map fi_path cf) -> client_path cf cd q -> ~ below p q).
(** None of the client's paths is the name of a temporary file, or lies below one. *)
Definition is_temp (cf : list finfo) (p : bytes) : Prop := exists f, In f cf /\ p = fi_path f ++ temp_suffix.
Definition no_temp_clash (cf : list finfo) (cd : list dinfo) : Prop := forall p q, is_temp cf p -> client_path cf cd q -> q <> p /\ ~ below p q.

(** The rsync exchange is used for files whose chunks do not collide. *)
Definition exchange_ok (hash : bytes -> N) (w : nat) (gear : byte -> N) (cfg : config) (basis src : bytes) : Prop :=
  N.of_nat (length basis) < 2 ^ 63 /\ N.of_nat (length src) < 2 ^ 63 /\
  exists bcs scs, chunks_of w gear cfg basis bcs /\ chunks_of w gear cfg src scs /\ no_collisions hash bcs scs.

(** The file at [p] has these contents (and this time). *)
Definition holds (s : fs) (p : bytes) (data : bytes) : Prop := exists f, get s p = Some (NFile f) /\ f_data f = data.
Definition holds_at (s : fs) (p : bytes) (data : bytes) (mtime : Z) : Prop := exists f, get s p = Some (NFile f) /\ f_data f = data /\ f_mtime f = mtime.

(** How file contents arrive: in blocks, the first of them not too small to recognize an
    executable. *)
Definition blocks_ok (blocks : bytes -> list bytes) : Prop :=
  forall c, concat (blocks c) = c /\ forall b bs, blocks c = b :: bs -> (4 <= length b)%nat \/ bs = [].

(** The server's search lists what the filter accepts: everything (--recursive) or what
    lies directly in the destination. *)
Definition listed (filter_match : bytes -> bool) (opts : sopts) (p : bytes) : Prop :=
  filter_match p = true /\ (so_recursive opts = true \/ ~ In 47 p).

(** The server knows that the file is there: its search has listed it, or it double
    checks (--relative without --recursive). *)
Definition noticed (filter_match : bytes -> bool) (opts : sopts) (p : bytes) : Prop :=
  listed filter_match opts p \/ (so_relative opts = true /\ so_recursive opts = false).

(** When nothing stands in the way of a sync.  [cf], [cd]: the client's files and
    directories; [copy]: the --copy-dest directory. *)
Section Conflicts.
Variable filter_match : bytes -> bool.
Variable opts : sopts.
Variable cf : list finfo.
Variable cd : list dinfo.
Variable copy : option fs.
Variable s : fs.
(** Listed by the server's search, and extraneous things are deleted. *)
Definition goes (q : bytes) : Prop := so_delete opts = true /\ listed filter_match opts q.

Record no_conflicts : Prop := {
  (** Below a directory that is to be deleted, everything is to be deleted. *)
  nc_delete : forall q r n, goes q -> get s q = Some NDir -> ~ In q (map di_path cd) -> get s r = Some n -> below q r ->
    listed filter_match opts r /\ match n with NFile _ => ~ In r (map fi_path cf) | NDir => ~ In r (map di_path cd) end;
  (** Above the client's paths there are no files, except where the client has a
      directory, or they are deleted. *)
  nc_above : forall q p g, client_path cf cd p -> below q p -> get s q = Some (NFile g) ->
    (so_existing opts = false /\ In q (map di_path cd)) \/ goes q;
  (** Where the client has a file there is no directory, unless it is deleted. *)
  nc_files : forall f, In f cf -> get s (fi_path f) = Some NDir -> goes (fi_path f) /\ ~ (so_relative opts = true /\ so_recursive opts = false);
  (** The client's directories that exist already are listed, or empty. *)
  nc_dirs : so_existing opts = false -> forall q, In q (map di_path cd) -> get s q = Some NDir -> listed filter_match opts q \/ forall r, below q r -> get s r = None;
  (** The temporary files are not directories. *)
  nc_temps : forall p, is_temp cf p -> get s p = Some NDir -> goes p;
  (** Files whose basis is in the copy-dest directory have a directory to go to. *)
  nc_copy : forall c f n, copy = Some c -> In f cf -> (forall g, get s (fi_path f) <> Some (NFile g)) -> get c (fi_path f) = Some n ->
    n <> NDir /\ forall q, below q (fi_path f) ->
      (In q (map di_path cd) /\ (so_existing opts = false \/ get s q = Some NDir)) \/ (get s q = Some NDir /\ ~ goes q) }.
End Conflicts.
