(** Model of the server's file search: SearchFilesLinux (common/path.cc:640-716)
    on top of glibc's nftw(), FileFinder (cdc_rsync_server/file_finder.cc) and the
    parts of CdcRsyncServer that prepare the directories to search
    (cdc_rsync_server.cc:404-477), with ExpandPathVariables (common/path.cc:202-235,
    Linux branch).

    Simplifications: the directory tree does not change during the search; nftw's
    limit of 32 simultaneously open directories only costs time (it keeps the rest of
    a directory in memory) and is not modelled; an error of readdir() ends a directory
    like its end does, as in glibc. *)
From Verif Require Import Base ListX Str ModelPath ModelPathFilter ModelFileDiff.
Local Open Scope N_scope.
Local Notation str := (list N).

Definition EACCES : N := 13.
Definition ENOENT : N := 2.

(** What the file system holds at a path: what lstat() says and, for directories,
    what opendir() gives and the entries readdir() reports, "." and ".." included. *)
Inductive node :=
| NoStat (e : N)                       (* lstat fails with errno e *)
| Other (mtime : Z) (size : N)         (* neither directory nor symbolic link *)
| Link                                 (* symbolic link *)
| Dir (mtime : Z) (d : opened)
with opened :=
| OpenErr (e : N)                      (* opendir fails with errno e *)
| Opened (t : tree)
with tree :=
| Nil
| Entry (name : str) (n : node) (rest : tree).

(** nftw's type flags *)
Inductive typeflag := FTW_F | FTW_D | FTW_DNR | FTW_SL | FTW_NS.

(** Return values of nftw's callback and of nftw's internal functions;
    [Failed] is -1 with errno. *)
Inductive ret := Continue | SkipSubtree | Stop | Failed (e : N).

Definition dotname (n : str) : bool := seqb n [46] || seqb n [46; 46].

Section Search.
Context {A : Type}.
(** The SearchHandler: dir, filename, modified_time, size, is_directory; the boolean
    is whether the returned status is OK.  An exception that leaves it (through the
    C function nftw) is UB. *)
Variable handler : A -> str -> str -> Z -> N -> bool -> outcome (A * bool).
Variable recursive : bool.

(** ftw_handler, common/path.cc:655-687.  [dir] and [name] are the two parts of
    filepath at pathinfo->base. *)
Definition ftw_handler (s : A) (dir name : str) (flag : typeflag) (level : nat) (mtime : Z) (size : N)
  : outcome (A * ret) :=
  match flag with
  | FTW_F =>
      do (s', ok) <- handler s dir name mtime size false;
      Ok (s', if (ok : bool) then Continue else Stop)
  | FTW_D =>
      if Nat.ltb 0 level && negb (dotname name) then
        do (s', ok) <- handler s dir name mtime 0 true;
        Ok (s', if (ok : bool) then (if recursive then Continue else SkipSubtree) else Stop)
      else Ok (s, Continue)
  | _ => Ok (s, Continue)
  end.

(** glibc, io/ftw.c: process_entry for the entries of a directory.  [dir] is dirbuf up
    to ftw.base, with its trailing slash. *)
Fixpoint walk_tree (t : tree) (dir : str) (level : nat) (s : A) : outcome (A * ret) :=
  match t with
  | Nil => Ok (s, Continue)
  | Entry n nd rest =>
      if dotname n then walk_tree rest dir level s
      else
        do (s', r) <- walk_node nd dir n level s;
        match r with
        | Continue | SkipSubtree => walk_tree rest dir level s'
        | _ => Ok (s', r)
        end
  end
with walk_node (nd : node) (dir n : str) (level : nat) (s : A) : outcome (A * ret) :=
  match nd with
  | NoStat e =>
      if (e =? EACCES) || (e =? ENOENT) then ftw_handler s dir n FTW_NS level 0 0
      else Ok (s, Failed e)
  | Link => ftw_handler s dir n FTW_SL level 0 0
  | Other mt sz => ftw_handler s dir n FTW_F level mt sz
  | Dir mt d => walk_dir d mt dir n level s
  end
(** io/ftw.c: ftw_dir *)
with walk_dir (d : opened) (mt : Z) (dir n : str) (level : nat) (s : A) : outcome (A * ret) :=
  match d with
  | OpenErr e => if e =? EACCES then ftw_handler s dir n FTW_DNR level mt 0 else Ok (s, Failed e)
  | Opened t =>
      do (s', r) <- ftw_handler s dir n FTW_D level mt 0;
      match r with
      | Continue =>
          let p := dir ++ n in
          let sub := match last_char p with Some c => if c =? slash then p else p ++ [slash] | None => p ++ [slash] end in
          walk_tree t sub (S level) s'
      | _ => Ok (s', r)
      end
  end.

(** io/ftw.c: ftw_startup: trailing slashes are cut off, but one character stays. *)
Fixpoint drop_slashes (l : str) : str :=
  match l with
  | [] => []
  | c :: l' => match l' with [] => l | _ => if c =? slash then drop_slashes l' else l end
  end.
Definition strip (p : str) : str := rev (drop_slashes (rev p)).
(** The part of a path up to and including its last slash, and the rest. *)
Definition base_of (p : str) : nat := match find_last (fun c => c =? slash) p with Some i => S i | None => 0%nat end.

(** nftw(dir, ftw_handler, 32, FTW_PHYS | FTW_ACTIONRETVAL).  [fs] is the file system,
    by absolute or relative path without trailing slash. *)
Definition nftw (fs : str -> node) (dir : str) (s : A) : outcome (A * ret) :=
  match dir with
  | [] => Ok (s, Failed ENOENT)
  | _ =>
      let p := strip dir in
      let d := firstn (base_of p) p in
      let n := skipn (base_of p) p in
      match fs p with
      | NoStat e => Ok (s, Failed e)
      | Link => ftw_handler s d n FTW_SL 0 0 0
      | Other mt sz => ftw_handler s d n FTW_F 0 mt sz
      | Dir mt o => walk_dir o mt d n 0 s
      end
  end.

(** SearchFilesLinux, common/path.cc:691-716 (SearchFiles, :718-730).  The second
    component: whether the returned status is OK. *)
Definition search_files (fs : str -> node) (dir : str) (s : A) : outcome (A * bool) :=
  do (s', r) <- nftw fs dir s;
  match r with
  | Failed e => Ok (s', e =? ENOENT)
  | Stop => Ok (s', false)
  | _ => Ok (s', true)
  end.
End Search.

(** FileFinder's members files_ and dirs_, file_finder.h *)
Definition finder : Type := (list finfo * list dinfo)%type.

(** FileFinder::AddFiles, file_finder.cc:26-57.  std::string::substr throws when its
    position is beyond the end.  [ptr] is base_dir.c_str(). *)
Definition add_handler (base : str) (p : ptr) (rules : list rule)
  (s : finder) (dir name : str) (mtime : Z) (size : N) (is_dir : bool) : outcome (finder * bool) :=
  if Nat.ltb (length dir) (length base) then UB
  else
    let path := join (skipn (length base) dir) name in
    do m <- filter_is_match rules path;
    if (m : bool) then
      if is_dir then Ok ((fst s, snd s ++ [mk_dinfo path kInvalidIndex p]), true)
      else Ok ((fst s ++ [mk_finfo path mtime size kInvalidIndex p], snd s), true)
    else Ok (s, true).

Definition add_files (fs : str -> node) (base : str) (p : ptr) (recursive : bool) (rules : list rule)
  (s : finder) : outcome finder :=
  do (s', ok) <- search_files (add_handler base p rules) recursive fs base s;
  if (ok : bool) then Ok s' else Fail.

(** CdcRsyncServer::FindFiles, cdc_rsync_server.cc:452-477 *)
Definition find_files (fs : str -> node) (destination copy_dest : str) (dest_ptr copy_ptr : ptr)
  (recursive : bool) (rules : list rule) : outcome (list finfo * list dinfo) :=
  do s1 <- add_files fs destination dest_ptr recursive rules ([], []);
  do s2 <- match copy_dest with
           | [] => Ok s1
           | _ => add_files fs copy_dest copy_ptr recursive rules s1
           end;
  Ok (release_files (fst s2) (snd s2)).

(** What wordexp() does with a string: it succeeds with a list of words, or it fails
    and leaves its (here uninitialised) result as it was. *)
Inductive expansion := Words (l : list str) | ExpansionError.

(** path::ExpandPathVariables, common/path.cc:223-233: the return value of wordexp is
    not looked at; without any word, we_wordv[0] is the null pointer. *)
Definition expand_path (wordexp : str -> expansion) (p : str) : outcome str :=
  match wordexp p with
  | ExpansionError => UB
  | Words [] => UB
  | Words [w] => Ok w
  | Words _ => Fail
  end.

(** CdcRsyncServer::HandleSetOptions, the directories: cdc_rsync_server.cc:422-437 *)
Definition set_directories (wordexp : str -> expansion) (destination copy_dest : str) : outcome (str * str) :=
  let d := ensure_ends_with_sep (fix_seps destination) in
  let c := match copy_dest with [] => [] | _ => ensure_ends_with_sep (fix_seps copy_dest) end in
  do d' <- expand_path wordexp d;
  Ok (d', c).
