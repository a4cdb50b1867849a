(** Model of how the client turns a source argument into the files to send:
    cdc_rsync/file_finder_and_sender.cc (FindAndSendFiles, GetFullSource, GetBaseDir),
    and, Windows branches, SearchFiles, SearchFilesWin, GetDrivePrefix, DirName of
    common/path.cc.  What happens with the files found is ModelBatch.

    Simplifications: strings are byte strings (UTF-16 and UTF-8 conversions are left
    out); errors of FindFirstFileEx and FindNextFile are only logged by the code, so a
    directory that cannot be read counts as empty; the directories do not change during
    the search; find handles are left out (they leak when the handler fails for a
    directory). *)
From Verif Require Import Base ListX Str ModelPath.
From Verif Require ModelBatch.
Local Open Scope N_scope.
Local Notation str := (list N).

(** A directory as FindFirstFileEx / FindNextFile enumerate it, "." and ".."
    included. *)
Inductive wnode :=
| WFile (mtime : Z) (size : N)
| WDir (mtime : Z) (t : wtree)
with wtree :=
| WNil
| WEntry (name : str) (n : wnode) (rest : wtree).

Definition star : N := 42.
Definition has_star (p : str) : bool := existsb (N.eqb star) p.
Definition is_star (p : str) : bool := seqb p [star].

Section Search.
Context {A : Type}.
Variable handler : A -> str -> str -> Z -> N -> bool -> outcome (A * bool).
(** Whether FindFirstFileEx with this file name pattern reports this name. *)
Variable matches : str -> str -> bool.
Variable recursive : bool.

(** IsRegularDir, common/path.cc:517-531, the names *)
Definition regular_name (n : str) : bool := negb (seqb n [46]) && negb (seqb n [46; 46]).

(** SearchFilesWin, common/path.cc:533-638: [pass1] is the first loop (:563-601),
    [pass2] the separate directory pass (:611-635), [sub] the recursive call for a
    subdirectory.  The boolean is false when the handler failed. *)
Fixpoint pass1 (t : wtree) (dir pat : str) (reset : bool) (s : A) : outcome (A * bool) :=
  match t with
  | WNil => Ok (s, true)
  | WEntry n nd r =>
      if matches pat n then
        match nd with
        | WFile mt sz =>
            do (s', ok) <- handler s dir n mt sz false;
            if (ok : bool) then pass1 r dir pat reset s' else Ok (s', false)
        | WDir mt _ =>
            if regular_name n then
              do (s', ok) <- handler s dir n mt 0 true;
              if (ok : bool) then
                do (s'', ok') <- sub nd (dir ++ n ++ [backslash]) (if reset then [star] else pat) s';
                if (ok' : bool) then pass1 r dir pat reset s'' else Ok (s'', false)
              else Ok (s', false)
            else pass1 r dir pat reset s
        end
      else pass1 r dir pat reset s
  end
with pass2 (t : wtree) (dir pat : str) (reset : bool) (s : A) : outcome (A * bool) :=
  match t with
  | WNil => Ok (s, true)
  | WEntry n nd r =>
      match nd with
      | WDir _ _ =>
          if regular_name n then
            do (s', ok) <- sub nd (dir ++ n ++ [backslash]) (if reset then [star] else pat) s;
            if (ok : bool) then pass2 r dir pat reset s' else Ok (s', false)
          else pass2 r dir pat reset s
      | WFile _ _ => pass2 r dir pat reset s
      end
  end
(** :576-588, :620-629: the recursive call, only made when recursive *)
with sub (nd : wnode) (dir pat : str) (s : A) : outcome (A * bool) :=
  match nd with
  | WFile _ _ => Ok (s, true)
  | WDir _ t =>
      if recursive then
        do (s', ok) <- pass1 t dir pat false s;
        if (ok : bool) then
          if negb (is_star pat) && has_star pat then pass2 t dir pat false s' else Ok (s', true)
        else Ok (s', false)
      else Ok (s, true)
  end.

Definition search_win (t : wtree) (dir pat : str) (reset : bool) (s : A) : outcome (A * bool) :=
  if negb recursive && match pat with [] => true | _ => false end then Ok (s, true)
  else
    do (s', ok) <- pass1 t dir pat reset s;
    if (ok : bool) then
      if recursive && (negb (is_star pat) && has_star pat) then pass2 t dir pat reset s' else Ok (s', true)
    else Ok (s', false).

(** "while (!dir.empty() && dir.back() != L'\\') dir.pop_back();", :744-746, :751-753 *)
Definition up_to_backslash (p : str) : str :=
  match find_last (N.eqb backslash) p with Some i => firstn (S i) p | None => [] end.

(** SearchFiles, common/path.cc:718-757.  [isdir] is GetFileAttributes() saying
    directory; [list_dir d] is the content of directory [d] (with trailing backslash; the
    empty string is the current directory). *)
Definition search_files (isdir : str -> bool) (list_dir : str -> wtree) (pattern : str) (s : A) : outcome (A * bool) :=
  if isdir pattern then
    if negb recursive then search_win (list_dir pattern) pattern [] false s
    else if match last_char pattern with Some c => c =? backslash | None => false end then
      search_win (list_dir pattern) pattern [star] false s
    else
      let dir := up_to_backslash pattern in
      search_win (list_dir dir) dir (skipn (length dir) pattern) true s
  else
    let dir := up_to_backslash pattern in
    search_win (list_dir dir) dir (skipn (length dir) pattern) false s.
End Search.

(** std::string::find for one character, from a position. *)
Fixpoint index_of (c : N) (l : str) : option nat :=
  match l with
  | [] => None
  | x :: l' => if x =? c then Some 0%nat else option_map S (index_of c l')
  end.
Definition index_from (c : N) (l : str) (pos : nat) : option nat :=
  option_map (Nat.add pos) (index_of c (skipn pos l)).

(** GetDrivePrefix, common/path.cc:290-325 *)
Definition drive_prefix (p : str) : str :=
  match p with
  | [] => []
  | c0 :: rest =>
      if c0 =? backslash then
        match rest with
        | [] => []
        | c1 :: _ =>
            if c1 =? backslash then
              match index_from backslash p 2 with
              | None => []
              | Some third =>
                  if (Nat.ltb third 3 || Nat.eqb (length p) (third + 1))%nat then []
                  else
                    match index_from backslash p (third + 1) with
                    | None => p
                    | Some fourth => if Nat.ltb fourth (third + 2) then [] else firstn fourth p
                    end
              end
            else []
        end
      else
        match index_of 58 p with
        | Some 1%nat => firstn 2 p
        | _ => []
        end
  end.

(** GetDrivePrefixWithBackslash, file_finder_and_sender.cc:34-40; reading the character
    at the size of the string gives the terminating NUL. *)
Definition drive_prefix_bs (p : str) : str :=
  let d := drive_prefix p in
  match nth_error p (length d) with
  | Some c => if c =? backslash then d ++ [backslash] else d
  | None => d
  end.

(** path::Join, EnsureEndsWithPathSeparator, FixPathSeparators on Windows. *)
Definition win_join (p a : str) : str :=
  match a with
  | [] => p
  | _ :: _ => (if needs_sep p then p ++ [backslash] else p) ++ a
  end.
Definition win_ensure_sep (p : str) : str := if ends_with_sep p then p else p ++ [backslash].
Definition win_fix_seps (p : str) : str := map (fun b => if b =? slash then backslash else b) p.

(** DirName on Windows, common/path.cc:374-398 *)
Definition win_dirname (p : str) : str :=
  match p with
  | [] => []
  | _ =>
      let drive := drive_prefix p in
      let dirpart := skipn (length drive) p in
      let non_sep := find_last (fun b => negb (is_sep b)) dirpart in
      match find_last_to is_sep dirpart non_sep with
      | None => drive
      | Some sep_pos =>
          match non_sep with
          | None => p
          | Some _ =>
              match find_last_to (fun b => negb (is_sep b)) dirpart (Some sep_pos) with
              | None => firstn (length drive + sep_pos + 1) p
              | Some e => firstn (length drive + e + 1) p
              end
          end
      end
  end.

(** std::string::find for a string *)
Fixpoint is_prefix (a b : str) : bool :=
  match a, b with
  | [], _ => true
  | x :: a', y :: b' => (x =? y) && is_prefix a' b'
  | _, _ => false
  end.
Fixpoint find_str (a l : str) : option nat :=
  if is_prefix a l then Some 0%nat
  else match l with [] => None | _ :: l' => option_map S (find_str a l') end.

(** EndsWithSpecialDir, file_finder_and_sender.cc:28-31 *)
Definition ends_with (l suffix : str) : bool := is_prefix (rev suffix) (rev l).
Definition special_dir (p : str) : bool :=
  seqb p [46] || seqb p [46; 46] || ends_with p [backslash; 46] || ends_with p [backslash; 46; 46].

(** GetFullSource, :44-54 *)
Definition full_source (source sources_dir : str) : str :=
  match sources_dir with
  | [] => source
  | _ => win_join sources_dir (skipn (length (drive_prefix_bs source)) source)
  end.

(** GetBaseDir, :56-87 *)
Definition base_dir (source sources_dir : str) (relative : bool) : str :=
  if negb relative then
    if ends_with_sep source then source
    else match win_dirname source with [] => [] | d => win_ensure_sep d end
  else
    match find_str [backslash; 46; backslash] source with
    | Some pos => firstn (pos + 3) source
    | None => match sources_dir with [] => drive_prefix_bs source | _ => sources_dir end
    end.

(** FindAndSendFiles, :109-122: the full source and the base directory.
    The constructor (:103-104) fixes the separators of sources_dir. *)
Definition prepare (source sources_dir : str) (relative : bool) : str * str :=
  let source := win_fix_seps source in
  let source := if special_dir source then win_ensure_sep source else source in
  let sources_dir := win_fix_seps sources_dir in
  let full := full_source source sources_dir in
  (full, base_dir full sources_dir relative).

(** FindAndSendFiles, :109-147, whole; the handler is HandleFoundFileOrDir (ModelBatch). *)
Definition find_and_send_files (matches : str -> str -> bool) (isdir : str -> bool) (list_dir : str -> wtree)
  (included : str -> bool) (threshold : N) (recursive relative : bool) (sources_dir source : str)
  (s : ModelBatch.ffs) : outcome ModelBatch.ffs :=
  let '(full, base) := prepare source sources_dir relative in
  let s := ModelBatch.mk_ffs base (ModelBatch.ff_files s) (ModelBatch.ff_dirs s) (ModelBatch.ff_req s)
             (ModelBatch.ff_size s) (ModelBatch.ff_out s) in
  do (s', ok) <- search_files
    (fun s d n mt sz b =>
       do s1 <- ModelBatch.handle_found backslash included threshold s (ModelBatch.mk_found d n mt sz b); Ok (s1, true))
    matches recursive isdir list_dir full s;
  if (ok : bool) then Ok s' else Fail.
