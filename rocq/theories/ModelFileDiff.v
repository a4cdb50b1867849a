(** Model of cdc_rsync_server/file_diff_generator.cc and
    cdc_rsync_server/file_finder.cc (ReleaseFiles). *)
From Verif Require Import Base ListX Str.
Local Open Scope N_scope.

(** A [const char*] naming a base directory, compared by pointer identity in
    the C++ (file_diff_generator.cc:72,168,184,191).  0 is nullptr. *)
Definition ptr := N.
Definition nullptr : ptr := 0.

(** cdc_rsync_server/file_info.h:25 *)
Definition kInvalidIndex : N := 2 ^ 32 - 1.

(** cdc_rsync_server/file_info.h:24-44 *)
Record finfo := mk_finfo {
  fi_path : bytes; fi_mtime : Z; fi_size : N; fi_index : N; fi_base : ptr }.

(** cdc_rsync_server/file_info.h:46-60 *)
Record dinfo := mk_dinfo { di_path : bytes; di_index : N; di_base : ptr }.

(** cdc_rsync_server/file_info.h:63-70 *)
Record cinfo := mk_cinfo {
  ci_path : bytes; ci_mtime : Z; ci_size : N; ci_server_size : N;
  ci_index : N; ci_base : ptr }.

(** ChangedFileInfo's constructor, cdc_rsync_server/file_info.h:72-78 *)
Definition changed_of (server client : finfo) : cinfo :=
  {| ci_path := fi_path client; ci_mtime := fi_mtime client; ci_size := fi_size client;
     ci_server_size := fi_size server; ci_index := fi_index client; ci_base := fi_base server |}.

(** std::unique: keeps the first element of each run of equal elements. *)
Fixpoint unique_from {A} (eqb : A -> A -> bool) (last : A) (l : list A) : list A :=
  match l with
  | [] => []
  | x :: l' => if eqb last x then unique_from eqb last l' else x :: unique_from eqb x l'
  end.
Definition unique {A} (eqb : A -> A -> bool) (l : list A) : list A :=
  match l with [] => [] | x :: l' => x :: unique_from eqb x l' end.

(** file_diff_generator.cc:34-38, 46-50 *)
Definition fi_eqb (a b : finfo) := seqb (fi_path a) (fi_path b).
Definition di_eqb (a b : dinfo) := seqb (di_path a) (di_path b).

(** std::stable_sort, as stable insertion. *)
Fixpoint stable_insert {A} (key : A -> bytes) (x : A) (l : list A) : list A :=
  match l with
  | [] => [x]
  | y :: l' => if sltb (key y) (key x) then y :: stable_insert key x l' else x :: l
  end.
Fixpoint stable_sort {A} (key : A -> bytes) (l : list A) : list A :=
  match l with [] => [] | x :: l' => stable_insert key x (stable_sort key l') end.

(** FileFinder::ReleaseFiles, file_finder.cc:59-92.  [files], [dirs] are in the
    order in which AddFiles added them. *)
Definition release_files (files : list finfo) (dirs : list dinfo) : list finfo * list dinfo :=
  (unique fi_eqb (stable_sort fi_path files), unique di_eqb (stable_sort di_path dirs)).

(** file_diff_generator.h:28-49 *)
Record diff := mk_diff {
  missing_files : list finfo; extraneous_files : list finfo;
  changed_files : list cinfo; matching_files : list finfo;
  missing_dirs : list dinfo; extraneous_dirs : list dinfo; matching_dirs : list dinfo }.

Definition empty_diff := mk_diff [] [] [] [] [] [] [].

Definition add_missing f d := mk_diff (f :: missing_files d) (extraneous_files d) (changed_files d) (matching_files d) (missing_dirs d) (extraneous_dirs d) (matching_dirs d).
Definition add_extraneous f d := mk_diff (missing_files d) (f :: extraneous_files d) (changed_files d) (matching_files d) (missing_dirs d) (extraneous_dirs d) (matching_dirs d).
Definition add_changed f d := mk_diff (missing_files d) (extraneous_files d) (f :: changed_files d) (matching_files d) (missing_dirs d) (extraneous_dirs d) (matching_dirs d).
Definition add_matching f d := mk_diff (missing_files d) (extraneous_files d) (changed_files d) (f :: matching_files d) (missing_dirs d) (extraneous_dirs d) (matching_dirs d).
Definition add_missing_dir f d := mk_diff (missing_files d) (extraneous_files d) (changed_files d) (matching_files d) (f :: missing_dirs d) (extraneous_dirs d) (matching_dirs d).
Definition add_extraneous_dir f d := mk_diff (missing_files d) (extraneous_files d) (changed_files d) (matching_files d) (missing_dirs d) (f :: extraneous_dirs d) (matching_dirs d).
Definition add_matching_dir f d := mk_diff (missing_files d) (extraneous_files d) (changed_files d) (matching_files d) (missing_dirs d) (extraneous_dirs d) (f :: matching_dirs d).

Section Generate.
(** path::GetStats(path::Join(base_dir, relative_path)): modified time and size,
    None when stat fails.  The base directory is identified by its pointer. *)
Variable stat : ptr -> bytes -> option (Z * N).
Variable base_dir : ptr.
(** copy_dest.c_str(); None when copy_dest is empty. *)
Variable copy_dest : option ptr.
Variable double_check_missing : bool.
(** std::sort is not stable, its result is some sorted permutation.  The
    theorems assume no more than that about these two functions. *)
Variable sort_f : list finfo -> list finfo.
Variable sort_d : list dinfo -> list dinfo.

(** FindFile, file_diff_generator.cc:52-62 *)
Definition find_file (dir : ptr) (path : bytes) : option finfo :=
  match stat dir path with
  | Some (mtime, size) => Some (mk_finfo path mtime size kInvalidIndex dir)
  | None => None
  end.

(** [!copy_dest.empty() && base == copy_dest.c_str()] *)
Definition in_copy_dest (base : ptr) : bool :=
  match copy_dest with Some c => base =? c | None => false end.

(** FilesMatch, file_diff_generator.cc:68-73 *)
Definition files_match (client server : finfo) : bool :=
  (fi_size client =? fi_size server) && (Z.eqb (fi_mtime client) (fi_mtime server)) &&
  negb (in_copy_dest (fi_base server)).

(** The double check of a file missing from the server's list,
    file_diff_generator.cc:115-123 *)
Definition check_missing (f : finfo) : option finfo :=
  if double_check_missing then
    match find_file base_dir (fi_path f) with
    | Some s => Some s
    | None => match copy_dest with Some c => find_file c (fi_path f) | None => None end
    end
  else None.

(** file_diff_generator.cc:112-132 *)
Definition on_missing (f : finfo) (d : diff) : diff :=
  match check_missing f with
  | None => add_missing f d
  | Some s => if files_match f s then add_matching f d else add_changed (changed_of s f) d
  end.

(** The loop over both sorted arrays, file_diff_generator.cc:104-145.  The C++
    pushes to the back of each vector while walking forward; building the
    result from the back with cons gives the same vectors. *)
Fixpoint merge_files (cs : list finfo) : list finfo -> diff -> diff :=
  fix inner (ss : list finfo) (d0 : diff) : diff :=
    match cs, ss with
    | [], [] => d0
    | [], s :: ss' => add_extraneous s (inner ss' d0)
    | c :: cs', [] => on_missing c (merge_files cs' [] d0)
    | c :: cs', s :: ss' =>
        match scmp (fi_path c) (fi_path s) with
        | Lt => on_missing c (merge_files cs' ss d0)
        | Gt => add_extraneous s (inner ss' d0)
        | Eq => if files_match c s then add_matching c (merge_files cs' ss' d0)
                else add_changed (changed_of s c) (merge_files cs' ss' d0)
        end
    end.

(** file_diff_generator.cc:147-175 *)
Fixpoint merge_dirs (cs : list dinfo) : list dinfo -> diff -> diff :=
  fix inner (ss : list dinfo) (d0 : diff) : diff :=
    match cs, ss with
    | [], [] => d0
    | [], s :: ss' => add_extraneous_dir s (inner ss' d0)
    | c :: cs', [] => add_missing_dir c (merge_dirs cs' [] d0)
    | c :: cs', s :: ss' =>
        match scmp (di_path c) (di_path s) with
        | Lt => add_missing_dir c (merge_dirs cs' ss d0)
        | Gt => add_extraneous_dir s (inner ss' d0)
        | Eq => if in_copy_dest (di_base s) then add_missing_dir c (merge_dirs cs' ss' d0)
                else add_matching_dir c (merge_dirs cs' ss' d0)
        end
    end.

(** Generate, file_diff_generator.cc:77-207 *)
Definition generate (client_files server_files : list finfo) (client_dirs server_dirs : list dinfo) : diff :=
  let cf := unique fi_eqb (sort_f client_files) in
  let sf := sort_f server_files in
  let cd := unique di_eqb (sort_d client_dirs) in
  let sd := sort_d server_dirs in
  let d := merge_files cf sf (merge_dirs cd sd empty_diff) in
  (* :179-194, a no-op filter when copy_dest is empty *)
  mk_diff (missing_files d)
    (filter (fun f => negb (in_copy_dest (fi_base f))) (extraneous_files d))
    (changed_files d) (matching_files d) (missing_dirs d)
    (filter (fun f => negb (in_copy_dest (di_base f))) (extraneous_dirs d))
    (matching_dirs d).
End Generate.

(** SendFileStatsResponse, cdc_rsync/protos/messages.proto *)
Record stats := mk_stats {
  num_missing_files : N; num_extraneous_files : N; num_matching_files : N; num_changed_files : N;
  num_missing_dirs : N; num_extraneous_dirs : N; num_matching_dirs : N;
  total_missing_bytes : N; total_changed_client_bytes : N; total_changed_server_bytes : N }.

Definition u32 (n : N) : N := n mod 2 ^ 32.
Definition u64_add (a b : N) : N := (a + b) mod 2 ^ 64.
(** The counters of type uint64_t, file_diff_generator.cc:262-271 *)
Definition total {A} (size : A -> N) (l : list A) : N := fold_left (fun t f => u64_add t (size f)) l 0.
Definition count {A} (l : list A) : N := u32 (N.of_nat (length l)).

(** AdjustToFlagsAndGetStats, file_diff_generator.cc:209-284 *)
Definition adjust_to_flags (existing checksum whole_file : bool) (d : diff) : stats * diff :=
  (* :230-237 *)
  let d1 := if existing
            then mk_diff [] (extraneous_files d) (changed_files d) (matching_files d) [] (extraneous_dirs d) (matching_dirs d)
            else d in
  (* :239-247 *)
  let d2 := if checksum
            then mk_diff (missing_files d1) (extraneous_files d1)
                   (changed_files d1 ++ map (fun f => changed_of f f) (matching_files d1)) []
                   (missing_dirs d1) (extraneous_dirs d1) (matching_dirs d1)
            else d1 in
  (* :249-259 *)
  let d3 := if whole_file
            then mk_diff (missing_files d2 ++
                            map (fun c => mk_finfo (ci_path c) (ci_mtime c) (ci_size c) (ci_index c) nullptr) (changed_files d2))
                   (extraneous_files d2) [] (matching_files d2)
                   (missing_dirs d2) (extraneous_dirs d2) (matching_dirs d2)
            else d2 in
  ({| num_missing_files := count (missing_files d);
      num_extraneous_files := count (extraneous_files d);
      num_matching_files := count (matching_files d);
      num_changed_files := count (changed_files d);
      num_missing_dirs := count (missing_dirs d);
      num_extraneous_dirs := count (extraneous_dirs d);
      num_matching_dirs := count (matching_dirs d);
      total_missing_bytes := total fi_size (missing_files d3);
      total_changed_client_bytes := total ci_size (changed_files d3);
      total_changed_server_bytes := total ci_server_size (changed_files d3) |}, d3).
