(** Model of common/dir_iter.cc: DirectoryIterator and DirectoryEntry, Linux
    values of the dirent types.

    Outside the model: the text of error messages (a status is modelled by the
    errno it was made from, 0 is OK), closedir (assumed not to touch errno),
    and changes of the file system during the iteration: [fs] is what opendir
    and the readdir calls on its result return for a path. *)
From Verif Require Import Base ListX Str ModelPath.
Local Open Scope N_scope.
Local Notation str := (list N).

(** d_type values of <dirent.h>: DT_DIR, DT_REG, DT_LNK *)
Definition DT_DIR : N := 4.
Definition DT_REG : N := 8.
Definition DT_LNK : N := 10.
(** errno value EACCES *)
Definition EACCES : N := 13.

(** What opendir(path) gives: a stream of (d_name, d_type) pairs followed by
    errno at the end (0: end of directory), or a failure with an errno. *)
Inductive opened :=
| Opened (es : list (str * N)) (end_errno : N)
| OpenFailed (e : N).

(** DirectoryEntry::Impl, dir_iter.cc:50-61 *)
Record entry := { e_rel : str; e_name : str; e_type : N }.

(** DirectoryEntry::Valid, IsDir, IsRegularFile, IsSymlink, RelPathName,
    dir_iter.cc:69-89 *)
Definition e_valid (e : entry) : bool := negb (e_type e =? 0).
Definition e_is_dir (e : entry) : bool := negb (N.land (e_type e) DT_DIR =? 0).
Definition e_is_regular (e : entry) : bool := negb (N.land (e_type e) DT_REG =? 0).
Definition e_is_symlink (e : entry) : bool := negb (N.land (e_type e) DT_LNK =? 0).
Definition e_rel_path_name (e : entry) : str := join (e_rel e) (e_name e).

(** OpenedDir with its readdir position, dir_iter.cc:158-165; [f_ptr] is the
    DIR pointer *)
Record frame := { f_ptr : N; f_name : str; f_rest : list (str * N); f_end : N }.

(** DirectoryIterator::Impl, dir_iter.cc:98-188. The back of dirs_ is the head
    of [i_dirs]. [i_opens] counts the opendir calls, it only feeds the oracle
    that chooses DIR addresses. *)
Record iter := {
  i_path : str;
  i_ret_dirs : bool;      (* ReturnDirs, :112-114 *)
  i_ret_files : bool;     (* ReturnFiles, :116-118 *)
  i_rec : bool;
  i_status : N;
  i_dirs : list frame;
  i_last : N;             (* last_dir_, 0 is nullptr *)
  i_rel : str;
  i_opens : nat }.

Definition ptrs (d : list frame) : list N := map f_ptr d.

(** UpdateRelPath, dir_iter.cc:167-178: all names but the first, in stack order *)
Definition rel_of (d : list frame) : str :=
  fold_left (fun acc f => append acc (f_name f)) (tl (rev d)) [].

(** DirectoryIterator::Valid, dir_iter.cc:207-209, for an iterator with an Impl *)
Definition i_valid (it : iter) : bool :=
  (i_status it =? 0) && negb (match i_dirs it with [] => true | _ => false end).

Definition dot : str := [46].
Definition dotdot : str := [46; 46].

Section WithFs.
Variable fs : str -> opened.
(** The address of the DIR object made by the n-th opendir call while those in
    the list are open. *)
Variable alloc : nat -> list N -> N.

(** DirectoryIterator::Open, dir_iter.cc:215-227 *)
Definition open (path : str) (ret_dirs ret_files recursive : bool) : bool * iter :=
  match fs path with
  | Opened es e =>
      (true,
       {| i_path := path; i_ret_dirs := ret_dirs; i_ret_files := ret_files; i_rec := recursive;
          i_status := 0;
          i_dirs := [{| f_ptr := alloc 0 []; f_name := basename path; f_rest := es; f_end := e |}];
          i_last := 0; i_rel := []; i_opens := 1 |})
  | OpenFailed e =>
      (false,
       {| i_path := path; i_ret_dirs := ret_dirs; i_ret_files := ret_files; i_rec := recursive;
          i_status := e; i_dirs := []; i_last := 0; i_rel := []; i_opens := 1 |})
  end.

Inductive step_result :=
| Go (it : iter)              (* next round of the while loop *)
| Ret (e : entry) (it : iter) (* return true *)
| Halt (it : iter).           (* return false *)

Definition set_pos (it : iter) (last : N) (rel : str) (dirs : list frame) : iter :=
  {| i_path := i_path it; i_ret_dirs := i_ret_dirs it; i_ret_files := i_ret_files it;
     i_rec := i_rec it; i_status := i_status it; i_dirs := dirs; i_last := last; i_rel := rel;
     i_opens := i_opens it |}.
Definition set_status (it : iter) (e : N) : iter :=
  {| i_path := i_path it; i_ret_dirs := i_ret_dirs it; i_ret_files := i_ret_files it;
     i_rec := i_rec it; i_status := e; i_dirs := i_dirs it; i_last := i_last it; i_rel := i_rel it;
     i_opens := i_opens it |}.
(** PushDir, dir_iter.cc:142-145, for the result of an opendir call *)
Definition push (it : iter) (name : str) (es : list (str * N)) (e : N) : iter :=
  {| i_path := i_path it; i_ret_dirs := i_ret_dirs it; i_ret_files := i_ret_files it;
     i_rec := i_rec it; i_status := i_status it;
     i_dirs := {| f_ptr := alloc (i_opens it) (ptrs (i_dirs it)); f_name := name;
                  f_rest := es; f_end := e |} :: i_dirs it;
     i_last := i_last it; i_rel := i_rel it; i_opens := S (i_opens it) |}.

(** One round of the while loop of NextEntry, dir_iter.cc:235-283, with
    NextDirEntry, :125-136. errno is 0 whenever the loop is left because no
    directory is open: it was reset by the last NextDirEntry or at :233. *)
Definition step (it : iter) : step_result :=
  match i_dirs it with
  | [] => Halt it
  | f :: below =>
      let rel := if i_last it =? f_ptr f then i_rel it else rel_of (i_dirs it) in
      match f_rest f with
      | [] =>
          if f_end f =? 0
          then Go (set_pos it (f_ptr f) rel below)
          else Halt (set_status (set_pos it (f_ptr f) rel (i_dirs it)) (f_end f))
      | (name, ty) :: rest =>
          let f' := {| f_ptr := f_ptr f; f_name := f_name f; f_rest := rest; f_end := f_end f |} in
          let it1 := set_pos it (f_ptr f) rel (f' :: below) in
          if negb (N.land ty DT_DIR =? 0) then
            if seqb name dot || seqb name dotdot then Go it1
            else
              let ent := {| e_rel := rel; e_name := name; e_type := ty |} in
              let finish it2 := if i_ret_dirs it then Ret ent it2 else Go it2 in
              if i_rec it then
                match fs (join (join (i_path it) rel) name) with
                | Opened es e => finish (push it1 name es e)
                | OpenFailed e => if e =? EACCES then finish it1 else Halt (set_status it1 e)
                end
              else finish it1
          else if negb (N.land ty DT_REG =? 0) then
            if i_ret_files it
            then Ret {| e_rel := rel; e_name := name; e_type := ty |} it1
            else Go it1
          else Go it1
      end
  end.

(** The while loop, dir_iter.cc:235-283 *)
Fixpoint loop (fuel : nat) (it : iter) : outcome (option entry * iter) :=
  match fuel with
  | O => OutOfFuel
  | S f => match step it with
           | Go it' => loop f it'
           | Ret e it' => Ok (Some e, it')
           | Halt it' => Ok (None, it')
           end
  end.

(** DirectoryIterator::NextEntry, dir_iter.cc:229-290 *)
Definition next_entry (fuel : nat) (it : iter) : outcome (option entry * iter) :=
  if i_status it =? 0 then loop fuel it else Ok (None, it).

(** The caller's loop [while (it.NextEntry(&entry)) ...], as in
    common/dir_iter_test.cc:102-104: all entries, and the iterator afterwards. *)
Fixpoint drain (fuel : nat) (it : iter) : outcome (list entry * iter) :=
  match fuel with
  | O => OutOfFuel
  | S f => do (r, it') <- next_entry f it;
           match r with
           | None => Ok ([], it')
           | Some e => do (es, it'') <- drain f it'; Ok (e :: es, it'')
           end
  end.

End WithFs.
