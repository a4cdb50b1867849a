(** Model of the string-level path helpers in common/path.cc and common/path.h,
    Linux branch: PathSeparator() is '/', OtherPathSeparator() is '\',
    common/path.h:53-68. *)
From Verif Require Import Base ListX Str.
Local Open Scope N_scope.

Definition slash : byte := 47.
Definition backslash : byte := 92.

(** membership in kPathSeparators, common/path.cc:59 *)
Definition is_sep (b : byte) : bool := (b =? slash) || (b =? backslash).

(** std::string::find_last_of / find_last_not_of without position: index of the
    last character satisfying the predicate, None is npos. *)
Fixpoint find_last (P : byte -> bool) (l : bytes) : option nat :=
  match l with
  | [] => None
  | x :: l' => match find_last P l' with
               | Some i => Some (S i)
               | None => if P x then Some 0%nat else None
               end
  end.

(** The same with a start position: only characters up to and including [pos]
    count; npos means the whole string. *)
Definition find_last_to (P : byte -> bool) (l : bytes) (pos : option nat) : option nat :=
  match pos with None => find_last P l | Some p => find_last P (firstn (S p) l) end.

Definition last_char (p : bytes) : option byte :=
  match rev p with [] => None | b :: _ => Some b end.

(** EndsWithPathSeparator, common/path.cc:445-448 *)
Definition ends_with_sep (p : bytes) : bool :=
  match last_char p with Some b => is_sep b | None => false end.

(** NeedsPathSep, common/path.cc:72-76 *)
Definition needs_sep (p : bytes) : bool :=
  match last_char p with None => false | Some b => negb (is_sep b) end.

(** JoinImpl with separator '/', common/path.cc:78-88; Join :410-429;
    JoinUnix :431-435 (the same on Linux) *)
Definition join (p a : bytes) : bytes :=
  match a with
  | [] => p
  | _ :: _ => (if needs_sep p then p ++ [slash] else p) ++ a
  end.

(** The three- and four-argument overloads, common/path.cc:416-424 *)
Definition join3 p a b := join (join p a) b.
Definition join4 p a b c := join (join3 p a b) c.

(** AppendImpl, common/path.cc:90-97 *)
Definition append (dest a : bytes) : bytes :=
  match a with
  | [] => dest
  | _ :: _ => (if needs_sep dest then dest ++ [slash] else dest) ++ a
  end.

(** DirName, common/path.cc:374-398 (empty drive prefix) *)
Definition dirname (p : bytes) : bytes :=
  match p with
  | [] => []
  | _ :: _ =>
      let non_sep_pos := find_last (fun b => negb (is_sep b)) p in
      match find_last_to is_sep p non_sep_pos with
      | None => []                                          (* :386-389 *)
      | Some sep_pos =>
          match non_sep_pos with
          | None => p                                       (* :391 *)
          | Some _ =>
              match find_last_to (fun b => negb (is_sep b)) p (Some sep_pos) with
              | None => firstn (S sep_pos) p                (* :394-395 *)
              | Some dir_end_pos => firstn (S dir_end_pos) p (* :397 *)
              end
          end
      end
  end.

(** BaseName, common/path.cc:400-408 *)
Definition basename (p : bytes) : bytes :=
  match p with
  | [] => []
  | _ :: _ =>
      let non_sep_pos0 := find_last (fun b => negb (is_sep b)) p in
      let sep_pos := find_last_to is_sep p non_sep_pos0 in
      let non_sep_pos := match non_sep_pos0 with Some n => n | None => (length p - 1)%nat end in
      match sep_pos with
      | Some s => firstn (non_sep_pos - s) (skipn (S s) p)
      | None => firstn (S non_sep_pos) p
      end
  end.

(** EnsureEndsWithPathSeparator, common/path.cc:450-454 *)
Definition ensure_ends_with_sep (p : bytes) : bytes := if ends_with_sep p then p else p ++ [slash].

(** EnsureDoesNotEndWithPathSeparator, common/path.cc:456-460: pops while the
    last character is a separator; on the reversed string this is a prefix drop. *)
Fixpoint drop_seps (l : bytes) : bytes :=
  match l with [] => [] | b :: l' => if is_sep b then drop_seps l' else l end.
Definition ensure_no_sep (p : bytes) : bytes := rev (drop_seps (rev p)).

(** FixPathSeparators, ToUnix, ToNative, common/path.cc:462-475 (all three
    replace '\' by '/' on Linux) *)
Definition fix_seps (p : bytes) : bytes := map (fun b => if b =? backslash then slash else b) p.
