(** Specification for C70: what a directory tree is and what listing it means.
    Nothing here mentions the iterator; [opened] is the type of opendir's
    results. *)
From Verif Require Import Base.
From Verif Require ModelDirIter.
Notation opened := ModelDirIter.opened.
Notation Opened := ModelDirIter.Opened.
Notation OpenFailed := ModelDirIter.OpenFailed.
Local Open Scope N_scope.
Local Notation str := (list N).

(** Kinds of directory entries, and the number readdir reports for each. *)
Inductive kind := Unknown | Fifo | CharDev | Directory | BlockDev | Regular | Symlink | Socket.
Definition type_code (k : kind) : N :=
  match k with
  | Unknown => 0 | Fifo => 1 | CharDev => 2 | Directory => 4
  | BlockDev => 6 | Regular => 8 | Symlink => 10 | Socket => 12
  end.

(** A directory: its entries in the order readdir gives them, without "." and
    "..", and the errno with which reading ends (0 if it ends normally).
    For each entry: what trying to open it as a directory gives. *)
Inductive tree :=
| End (e : N)
| Entry (name : str) (k : kind) (sub : subdir) (rest : tree)
with subdir :=
| Denied                  (* no permission *)
| Broken (e : N)          (* any other failure *)
| Contents (t : tree).

Definition child (p name : str) : str :=
  match rev p with
  | [] => name
  | 47 :: _ => p ++ name
  | _ => p ++ [47] ++ name
  end.

Definition good_name (n : str) : Prop :=
  n <> [] /\ n <> [46] /\ n <> [46; 46] /\ ~ In 47 n /\ forall m, n <> m ++ [92].

Fixpoint good_names (t : tree) : Prop :=
  match t with
  | End _ => True
  | Entry n _ s r => good_name n /\
                     match s with Contents t' => good_names t' | _ => True end /\ good_names r
  end.

Fixpoint only_kinds (P : kind -> Prop) (t : tree) : Prop :=
  match t with
  | End _ => True
  | Entry _ k s r => P k /\
                     match s with Contents t' => only_kinds P t' | _ => True end /\ only_kinds P r
  end.

(** What is listed: relative directory, name, kind. *)
Definition item : Type := (str * str * kind)%type.

(** Depth-first listing: a directory is followed by everything below it.
    An unreadable directory is listed but nothing below it; any other error
    ends the listing, and is the second component. *)
Fixpoint listing (dirs files recursive : bool) (rel : str) (t : tree) : list item * N :=
  match t with
  | End e => ([], e)
  | Entry n Directory s r =>
      let own := if dirs then [(rel, n, Directory)] else [] in
      let after l := let '(l', e) := listing dirs files recursive rel r in (own ++ l ++ l', e) in
      if recursive then
        match s with
        | Denied => after []
        | Broken e => ([], e)
        | Contents t' =>
            let '(l, e) := listing dirs files recursive (child rel n) t' in
            if e =? 0 then after l else (own ++ l, e)
        end
      else after []
  | Entry n Regular s r =>
      let '(l, e) := listing dirs files recursive rel r in
      ((if files then [(rel, n, Regular)] else []) ++ l, e)
  | Entry _ _ _ r => listing dirs files recursive rel r
  end.

(** No error anywhere in the tree. *)
Fixpoint readable (t : tree) : Prop :=
  match t with
  | End e => e = 0
  | Entry _ k s r =>
      (k = Directory -> match s with Contents t' => readable t' | _ => False end) /\ readable r
  end.

(** An entry at a position of the tree: relative directory, name and kind. *)
Inductive in_tree (rel : str) : tree -> item -> Prop :=
| in_here n k s r : in_tree rel (Entry n k s r) (rel, n, k)
| in_below n t r i : in_tree (child rel n) t i -> in_tree rel (Entry n Directory (Contents t) r) i
| in_rest n k s r i : in_tree rel r i -> in_tree rel (Entry n k s r) i.

(** Siblings have different names. *)
Fixpoint names (t : tree) : list str :=
  match t with End _ => [] | Entry n _ _ r => n :: names r end.
Fixpoint distinct_names (t : tree) : Prop :=
  match t with
  | End _ => True
  | Entry n _ s r => ~ In n (names r) /\
                     match s with Contents t' => distinct_names t' | _ => True end /\ distinct_names r
  end.

(** The file system holds tree [t] in directory [path], whose remaining readdir
    results are [es] and then errno [e]: "." and ".." may come anywhere, and
    opening a subdirectory (or something taken for one) by its path gives what
    the tree says. 13 is EACCES. *)
Inductive on_disk (fs : str -> opened) : str -> tree -> list (str * N) -> N -> Prop :=
| disk_end p e : on_disk fs p (End e) [] e
| disk_dot p t es e n : n = [46] \/ n = [46; 46] -> on_disk fs p t es e ->
    on_disk fs p t ((n, type_code Directory) :: es) e
| disk_entry p n k s r es e : sub_on_disk fs (child p n) s -> on_disk fs p r es e ->
    on_disk fs p (Entry n k s r) ((n, type_code k) :: es) e
with sub_on_disk (fs : str -> opened) : str -> subdir -> Prop :=
| sub_denied p : fs p = OpenFailed 13 -> sub_on_disk fs p Denied
| sub_broken p e : e <> 0 -> e <> 13 -> fs p = OpenFailed e -> sub_on_disk fs p (Broken e)
| sub_contents p t es e : fs p = Opened es e -> on_disk fs p t es e -> sub_on_disk fs p (Contents t).

(** opendir returns an object that is not null and not one still in use; it may
    well be one closed before. *)
Definition addresses_ok (alloc : nat -> list N -> N) : Prop :=
  forall n open, alloc n open <> 0 /\ ~ In (alloc n open) open.

(** A direct entry of the directory. *)
Inductive direct : tree -> str -> kind -> Prop :=
| direct_here n k s r : direct (Entry n k s r) n k
| direct_rest n k s r m j : direct r m j -> direct (Entry n k s r) m j.

(** Which kinds a search asks for. *)
Definition wanted (dirs files : bool) (k : kind) : Prop :=
  (k = Directory /\ dirs = true) \/ (k = Regular /\ files = true).
