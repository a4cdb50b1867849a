(** Specification for C73: what is in a directory tree, and what searching it should
    report.  Only the type of trees (what the operating system reports) comes from the
    model. *)
From Verif Require Import Base ModelPathFilter SpecPathFilter.
From Verif Require Import ModelFinder.
Local Open Scope N_scope.
Local Notation str := (list N).

Definition dot_or_dotdot (n : str) : Prop := n = [46] \/ n = [46; 46].

(** A direct entry of a directory. *)
Inductive entry : tree -> str -> node -> Prop :=
| entry_here n nd r : entry (Entry n nd r) n nd
| entry_rest m md r n nd : entry r n nd -> entry (Entry m md r) n nd.

(** [at_path t l nd]: going from the directory with entries [t] through the
    subdirectories named by all but the last element of [l], the entry named by the last
    one is [nd]. *)
Inductive at_path : tree -> list str -> node -> Prop :=
| at_direct t n nd : entry t n nd -> ~ dot_or_dotdot n -> at_path t [n] nd
| at_below t n mt t' l nd : entry t n (Dir mt (Opened t')) -> ~ dot_or_dotdot n ->
    at_path t' l nd -> at_path t (n :: l) nd.

(** a/b/c *)
Fixpoint slashed (l : list str) : str :=
  match l with
  | [] => []
  | [n] => n
  | n :: r => n ++ 47 :: slashed r
  end.

(** Names that the operating system can report. *)
Definition good_name (n : str) : Prop := n <> [] /\ ~ In 47 n /\ ~ In 0 n.

(** Every entry anywhere in the tree satisfies [P], including "." and "..". *)
Fixpoint everywhere (P : str -> node -> Prop) (t : tree) : Prop :=
  match t with
  | Nil => True
  | Entry n nd r =>
      P n nd /\
      match nd with Dir _ (Opened t') => everywhere P t' | _ => True end /\
      everywhere P r
  end.

Definition good_names : tree -> Prop := everywhere (fun n _ => good_name n).

(** No error but missing permissions (errno 13) and files that vanished since the
    directory was read (lstat: errno 2). *)
Definition searchable : tree -> Prop :=
  everywhere (fun _ nd => match nd with
                          | NoStat e => e = 13 \/ e = 2
                          | Dir _ (OpenErr e) => e = 13
                          | _ => True
                          end).

(** Entries of a directory have different names. *)
Fixpoint names (t : tree) : list str :=
  match t with Nil => [] | Entry n _ r => n :: names r end.
Fixpoint distinct (t : tree) : Prop :=
  match t with
  | Nil => True
  | Entry n nd r =>
      ~ In n (names r) /\
      match nd with Dir _ (Opened t') => distinct t' | _ => True end /\
      distinct r
  end.

(** What has to be reported: path, modified time, size of the files (everything but
    directories and symbolic links), paths of the readable directories; without
    recursion only direct entries; only what the filter rules include. *)
Definition wanted (recursive : bool) (rules : list rule) (l : list str) : Prop :=
  (recursive = true \/ length l = 1%nat) /\ filter_spec rules (slashed l) true.
Definition file_of (recursive : bool) (rules : list rule) (t : tree) (path : str) (mtime : Z) (size : N) : Prop :=
  exists l, at_path t l (Other mtime size) /\ path = slashed l /\ wanted recursive rules l.
Definition dir_of (recursive : bool) (rules : list rule) (t : tree) (path : str) : Prop :=
  exists l mtime t', at_path t l (Dir mtime (Opened t')) /\ path = slashed l /\ wanted recursive rules l.

(** Rules for which the filter does not read out of bounds (see C35). *)
Definition safe_rules (rules : list rule) : Prop :=
  Forall (fun r => nul_free (r_pattern r) /\ bounded_prefix 0 (r_pattern r)) rules.

(** A directory argument with exactly one trailing slash: "/" or p ++ "/", p not empty
    and not ending with a slash.  [without base] is the directory without it. *)
Inductive one_slash : str -> str -> Prop :=
| os_root : one_slash [47] [47]
| os_dir p c : c <> 47 -> one_slash (p ++ [c; 47]) (p ++ [c]).

(** Calls of the search handler: directory, name, modified time, size, is_directory. *)
Definition call : Type := (str * str * Z * N * bool)%type.

(** The calls for a directory tree in order, and the error that ends the search early.
    [dir] ends with a slash. *)
Fixpoint calls (recursive : bool) (dir : str) (t : tree) : list call * option N :=
  match t with
  | Nil => ([], None)
  | Entry n nd r =>
      let '(l, e) :=
        if list_eq_dec N.eq_dec n [46] then ([], None)
        else if list_eq_dec N.eq_dec n [46; 46] then ([], None)
        else match nd with
             | NoStat e => ([], if (e =? 13) || (e =? 2) then None else Some e)
             | Link => ([], None)
             | Other mt sz => ([(dir, n, mt, sz, false)], None)
             | Dir _ (OpenErr e) => ([], if e =? 13 then None else Some e)
             | Dir mt (Opened t') =>
                 let '(l, e) := if recursive then calls recursive (dir ++ n ++ [47]) t' else ([], None) in
                 ((dir, n, mt, 0, true) :: l, e)
             end in
      match e with
      | Some _ => (l, e)
      | None => let '(l', e') := calls recursive dir r in (l ++ l', e')
      end
  end.

(** Making calls until one reports failure. *)
Fixpoint make_calls {A} (h : A -> str -> str -> Z -> N -> bool -> outcome (A * bool)) (l : list call) (s : A)
  : outcome (A * bool) :=
  match l with
  | [] => Ok (s, true)
  | (d, n, mt, sz, b) :: l' =>
      do (s', ok) <- h s d n mt sz b;
      if (ok : bool) then make_calls h l' s' else Ok (s', false)
  end.
