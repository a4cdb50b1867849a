(** Specification for C74: which files and directories a source argument stands for.
    The type of directory contents comes from ModelSource. *)
From Verif Require Import Base ModelSource.
Local Open Scope N_scope.
Local Notation str := (list N).

Definition bs : N := 92.

(** A direct entry of a directory. *)
Inductive wentry : wtree -> str -> wnode -> Prop :=
| wentry_here n nd r : wentry (WEntry n nd r) n nd
| wentry_rest m md r n nd : wentry r n nd -> wentry (WEntry m md r) n nd.

Definition dots (n : str) : Prop := n = [46] \/ n = [46; 46].

(** [below t l nd]: the path [l] (names, outermost first) leads from the directory with
    content [t] to [nd]. *)
Inductive below : wtree -> list str -> wnode -> Prop :=
| below_direct t n nd : wentry t n nd -> ~ dots n -> below t [n] nd
| below_deep t n mt t' l nd : wentry t n (WDir mt t') -> ~ dots n -> below t' l nd -> below t (n :: l) nd.

(** Calls of the search handler: directory, name, modified time, size, is_directory. *)
Definition call : Type := (str * str * Z * N * bool)%type.
Definition call_of (dir : str) (l : list str) (n : str) (nd : wnode) : call :=
  let d := dir ++ concat (map (fun x => x ++ [bs]) l) in
  match nd with
  | WFile mt sz => (d, n, mt, sz, false)
  | WDir mt _ => (d, n, mt, 0, true)
  end.

(** Making calls until one reports failure. *)
Fixpoint make_calls {A} (h : A -> str -> str -> Z -> N -> bool -> outcome (A * bool)) (l : list call) (s : A)
  : outcome (A * bool) :=
  match l with
  | [] => Ok (s, true)
  | (d, n, mt, sz, b) :: l' =>
      do (s', ok) <- h s d n mt sz b;
      if (ok : bool) then make_calls h l' s' else Ok (s', false)
  end.

(** Names that the file system reports: not empty, without separators, "." and ".." only
    for directories. *)
Definition wgood (n : str) (nd : wnode) : Prop :=
  n <> [] /\ ~ In 47 n /\ ~ In 92 n /\ (dots n -> exists mt t, nd = WDir mt t).
Fixpoint weverywhere (P : str -> wnode -> Prop) (t : wtree) : Prop :=
  match t with
  | WNil => True
  | WEntry n nd r => P n nd /\ match nd with WDir _ t' => weverywhere P t' | _ => True end /\ weverywhere P r
  end.
Definition wgood_names : wtree -> Prop := weverywhere wgood.
Fixpoint wnames (t : wtree) : list str := match t with WNil => [] | WEntry n _ r => n :: wnames r end.
Fixpoint wdistinct (t : wtree) : Prop :=
  match t with
  | WNil => True
  | WEntry n nd r => ~ In n (wnames r) /\ match nd with WDir _ t' => wdistinct t' | _ => True end /\ wdistinct r
  end.

(** No call is made twice for the same path. *)
Definition once (l : list call) : Prop :=
  NoDup (map (fun c : call => let '(d, n, _, _, _) := c in d ++ n) l).

(** Paths as far as drives are concerned: without a drive, on a drive X:\ (not X:file,
    which is relative to the current directory of that drive), or on a network share
    \\computer\share\. *)
Inductive rooted : str -> Prop :=
| rooted_plain p : (forall c q, p <> c :: 58 :: q) -> (forall q, p <> 92 :: 92 :: q) -> rooted p
| rooted_drive c q : c <> 92 -> c <> 58 -> rooted (c :: 58 :: 92 :: q)
| rooted_share c s q : c <> [] -> s <> [] -> ~ In 92 c -> ~ In 92 s ->
    rooted (92 :: 92 :: c ++ 92 :: s ++ 92 :: q).

(** A path split at its last backslash. *)
Definition dir_and_name (p d n : str) : Prop :=
  p = d ++ n /\ ~ In 92 n /\ (d = [] \/ exists d', d = d' ++ [92]).

(** What a source path stands for.  [matches pat x]: the file system's matching of a name
    against a pattern with * and ?.  [d] is the part up to the last backslash, [n] what
    follows, [p ++ [y]] the path of something below [d].
    - a directory stands for nothing unless the search is recursive;
    - a directory written with a trailing backslash: everything in it;
    - a directory written without: the directory and everything in it;
    - otherwise [n] is a pattern: the entries of [d] that match, and, when the search is
      recursive: with a * in it, everything below [d] whose own name matches; without *,
      what can be reached through matching names only. *)
Definition wanted (matches : str -> str -> bool) (recursive isdir : bool) (d n : str)
  (p : list str) (y : str) : Prop :=
  if isdir then
    recursive = true /\ (n = [] \/ exists x r, p ++ [y] = x :: r /\ matches n x = true)
  else if recursive then
    (if existsb (N.eqb 42) n then n = [42] \/ matches n y = true
     else Forall (fun x => matches n x = true) (p ++ [y]))
  else p = [] /\ matches n y = true.

(** No subdirectory matches the pattern. *)
Definition no_directory_matches (matches : str -> str -> bool) (n : str) : wtree -> Prop :=
  weverywhere (fun x nd => match nd with WDir _ _ => dots x \/ matches n x = false | _ => True end).

(** A path with the separators of Windows. *)
Definition windows (p : str) : str := map (fun b => if b =? 47 then 92 else b) p.

(** The root of a path: its drive or share and the backslash after it. *)
Inductive root_of : str -> str -> Prop :=
| root_none p : (forall c q, p <> c :: 58 :: q) -> (forall q, p <> 92 :: q) -> root_of p []
| root_bs p : (forall q, p <> 92 :: q) -> (forall q, p <> 58 :: q) -> root_of (92 :: p) [92]
| root_drive c q : c <> 92 -> c <> 58 -> root_of (c :: 58 :: 92 :: q) [c; 58; 92]
| root_share c s q : c <> [] -> s <> [] -> ~ In 92 c -> ~ In 92 s ->
    root_of (92 :: 92 :: c ++ 92 :: s ++ 92 :: q) (92 :: 92 :: c ++ 92 :: s ++ [92]).
