(** Specification for C71: what indexing a list of inputs should count. [env]
    describes the file system, the configuration and the hash function. *)
From Verif Require Import Base ModelFastcdc SpecFastcdc ModelIndexer.
Local Open Scope N_scope.
Local Notation str := (list N).

Fixpoint sum {A} (f : A -> N) (l : list A) : N :=
  match l with [] => 0 | x :: r => f x + sum f r end.

(** Backslashes in an input that is a file are taken for slashes. *)
Definition with_slashes (p : str) : str := map (fun b => if b =? 92 then 47 else b) p.

(** The files an input stands for. *)
Definition input_files (en : env) (i : str) : list str :=
  if file_exists en (with_slashes i) then [with_slashes i]
  else match look_dir en i with Listing l _ => l | CannotList _ => [] end.
Definition files_of (en : env) (ins : list str) : list str := concat (map (input_files en) ins).

(** Permission errors of directories are not errors (errno EPERM, EACCES, EROFS, ENOKEY). *)
Definition permission_errno (e : N) : Prop := In e [1; 13; 30; 126].

Definition input_ok (en : env) (i : str) : Prop :=
  file_exists en (with_slashes i) = true \/
  match look_dir en i with Listing _ e => e = 0 | CannotList e => permission_errno e end.
Definition file_ok (en : env) (p : str) : Prop := exists content, look_file en p = Readable content false.

(** Why an indexing run may fail with errno [e]. *)
Inductive cause (en : env) (ins : list str) (e : N) : Prop :=
| bad_listing i l : In i ins -> file_exists en (with_slashes i) = false -> look_dir en i = Listing l e -> cause en ins e
| bad_input i : In i ins -> file_exists en (with_slashes i) = false -> look_dir en i = CannotList e ->
    ~ permission_errno e -> cause en ins e
| bad_open p : In p (files_of en ins) -> look_file en p = CannotOpen e -> cause en ins e
| bad_read p content : In p (files_of en ins) -> look_file en p = Readable content true -> e = 1 -> cause en ins e.

(** System calls that fail set errno. *)
Definition errno_set (en : env) : Prop :=
  (forall i e, look_dir en i = CannotList e -> e <> 0) /\ (forall p e, look_file en p = CannotOpen e -> e <> 0).

(** [cut p] is the content of file [p], cut by the chunking rule of the
    configured sizes. *)
Definition cuts (en : env) (p : str) (cs : list bytes) : Prop :=
  exists content, look_file en p = Readable content false /\ concat cs = content /\
    is_chunking 64 (gear en) (cdc_cfg (cfg en)) cs.

(** What a chunk is recognised by. *)
Definition digest (en : env) (x : bytes) : bytes :=
  match htype (cfg en) with HBlake3 => blake3 en x | HNull | HUndefined => [] end.

Definition bytes_dec : forall a b : bytes, {a = b} + {a <> b} := list_eq_dec N.eq_dec.
Definition distinct (l : list bytes) : list bytes := nodup bytes_dec l.

Definition count_at (b : N) (m : list (N * N)) : N := sum (fun x => if fst x =? b then snd x else 0) m.

(** The configuration results from [c] given by the user, with sizes that fit. *)
Definition configured (en : env) (hw : N) (c : icfg) : Prop :=
  cfg en = sanitize hw c /\ avg_chunk c < 2 ^ 63 /\ step_size c <= 2 ^ 63.
