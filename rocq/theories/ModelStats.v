(** Model of the streaming statistics display, manifest/stats_printer.{h,cc}.

    Simplifications: the map from paths to files is an association list in which the first
    entry counts; a chunk's time is a number, 0 before it is touched; bandwidths are left out;
    a printed line is a list of cells, colours are given by their indices; counters do not
    wrap around. *)
From Verif Require Import Base.

(** enum ChunkState, struct FileChunk, stats_printer.h:92-116 *)
Inductive cstate := NotLoaded | Streamed | Cached.
Record chunk := mkch { c_state : cstate; c_thread : N; c_time : N }.
Definition no_chunk : chunk := mkch NotLoaded 0 0.

(** The members, stats_printer.h:118-142 *)
Record stats := mks {
  recent : list bytes;
  files : list (bytes * list chunk);
  colors : list (N * nat);           (* thread_id_to_color_ *)
  threads : nat;                     (* num_threads_ *)
  total_streamed : N;
  total_cached : N }.
Definition empty : stats := mks [] [] [] 0 0 0.

Definition kMaxFilenameSize : nat := 32.
Definition kMaxNumRecentFiles : nat := 32.
Definition kNumBgColors : nat := 12.
Definition kNumFgColors : nat := 3.

Definition path_eqb (a b : bytes) : bool := if list_eq_dec N.eq_dec a b then true else false.
Fixpoint lookup (p : bytes) (l : list (bytes * list chunk)) : option (list chunk) :=
  match l with [] => None | (q, c) :: r => if path_eqb q p then Some c else lookup p r end.
Fixpoint thread_color (t : N) (l : list (N * nat)) : option nat :=
  match l with [] => None | (u, c) :: r => if N.eqb u t then Some c else thread_color t r end.

(** std::vector::resize *)
Definition resize (c : list chunk) (n : nat) : list chunk := firstn n c ++ repeat no_chunk (n - length c).
(** chunks[index] = c; no check in a release build *)
Definition set_chunk (c : list chunk) (i : nat) (x : chunk) : outcome (list chunk) :=
  if Nat.ltb i (length c) then Ok (firstn i c ++ x :: skipn (S i) c) else UB.

(** InitFile, :125-127 *)
Definition init_file (p : bytes) (n : nat) (s : stats) : stats :=
  mks (recent s) ((p, resize (match lookup p (files s) with Some c => c | None => [] end) n) :: files s) (colors s) (threads s) (total_streamed s) (total_cached s).
(** Clear, :129-139 *)
Definition clear (s : stats) : stats := empty.
(** AddToRecentFiles, :252-260 *)
Definition add_recent (p : bytes) (l : list bytes) : list bytes :=
  if existsb (path_eqb p) l then l
  else let l' := l ++ [p] in if Nat.ltb kMaxNumRecentFiles (length l') then tl l' else l'.
(** path_to_file_[path] creates an empty entry if there is none. *)
Definition chunks_of (p : bytes) (s : stats) : list chunk := match lookup p (files s) with Some c => c | None => [] end.
(** RecordStreamedChunk, :147-162 *)
Definition record_streamed (now : N) (p : bytes) (i : nat) (size : N) (thread : N) (s : stats) : outcome stats :=
  do c <- set_chunk (chunks_of p s) i (mkch Streamed thread now);
  let known := match thread_color thread (colors s) with Some _ => true | None => false end in
  Ok (mks (add_recent p (recent s)) ((p, c) :: files s)
          (if known then colors s else (thread, threads s) :: colors s) (if known then threads s else S (threads s))
          (total_streamed s + size)%N (total_cached s)).
(** RecordCachedChunk, :164-169 *)
Definition record_cached (now : N) (p : bytes) (i : nat) (size : N) (s : stats) : outcome stats :=
  do c <- set_chunk (chunks_of p s) i (mkch Cached 0 now);
  Ok (mks (add_recent p (recent s)) ((p, c) :: files s) (colors s) (threads s) (total_streamed s) (total_cached s + size)%N).

Inductive event :=
| Init (p : bytes) (n : nat)
| Clear
| RecStreamed (now : N) (p : bytes) (i : nat) (size : N) (thread : N)
| RecCached (now : N) (p : bytes) (i : nat) (size : N).
Definition apply (e : event) (s : stats) : outcome stats :=
  match e with
  | Init p n => Ok (init_file p n s)
  | Clear => Ok (clear s)
  | RecStreamed now p i size t => record_streamed now p i size t s
  | RecCached now p i size => record_cached now p i size s
  end.
Fixpoint run (l : list event) (s : stats) : outcome stats :=
  match l with [] => Ok s | e :: r => do s1 <- apply e s; run r s1 end.

(** ** Print *)
(** A visible cell of a line. *)
Inductive cell :=
| Char (c : byte)
| Dash                            (* '-' *)
| C                               (* 'C' *)
| X (bg fg : nat).                (* 'X' with the indices of its colours *)
(** path::BaseName on Unix paths: what follows the last '/' (47) *)
Fixpoint base_name_from (acc p : bytes) : bytes :=
  match p with [] => acc | c :: r => if N.eqb c 47 then base_name_from [] r else base_name_from (acc ++ [c]) r end.
Definition base_name (p : bytes) : bytes := base_name_from [] p.
(** GetShortFilename, :112-117; '.' is 46 *)
Definition short_name (p : bytes) : bytes :=
  let f := base_name p in
  if Nat.ltb kMaxFilenameSize (length f) then firstn (kMaxFilenameSize - 2) f ++ [46; 46; 46]%N else f.

(** The loop at :198-207: the index of the chunk with the largest time, the first of several *)
Fixpoint latest (l : list chunk) (i : nat) (best : nat) (t : N) : nat :=
  match l with
  | [] => best
  | c :: r => if N.ltb t (c_time c) then latest r (S i) i (c_time c) else latest r (S i) best t
  end.
(** :194-207; reading past the end is undefined *)
Definition pick (c : list chunk) (n w : nat) : outcome chunk :=
  let b := n * length c / w in
  let e := (n + 1) * length c / w in
  match nth_error c b with
  | None => UB
  | Some x =>
    if Nat.leb e (length c) then
      match nth_error c (latest (firstn (e - (b + 1)) (skipn (b + 1) c)) (b + 1) b (c_time x)) with Some y => Ok y | None => UB end
    else UB
  end.
(** :213-226; an unknown thread is entered with colour 0 by operator[] *)
Definition show (s : stats) (x : chunk) : cell :=
  match c_state x with
  | NotLoaded => Dash
  | Cached => C
  | Streamed =>
    let col := match thread_color (c_thread x) (colors s) with Some n => n | None => O end in
    X (col mod kNumBgColors) ((col / kNumBgColors) mod kNumFgColors)
  end.
Fixpoint collect {A} (l : list (outcome A)) : outcome (list A) :=
  match l with [] => Ok [] | x :: r => do a <- x; do b <- collect r; Ok (a :: b) end.
(** One line, :180-236; the width of the console is at least 36, :173.  |pad| is the number of
    blanks at the end: line.size() + console_width - num_chars + 1 less line.size(); this
    takes the compiler to read line.size() before it moves the line. *)
Definition file_line (s : stats) (width max_name : nat) (p : bytes) : outcome (list cell) :=
  let c := chunks_of p s in
  let name := firstn (max_name + 1) (short_name p ++ repeat 32%N (max_name + 1 - length (short_name p))) in
  let w := Nat.min (length c) (width - length name) in
  do cells <- collect (map (fun n => do x <- pick c n w; Ok (show s x)) (seq 0 w));
  Ok (map Char name ++ cells ++ repeat (Char 32%N) (width - (length name + w) + 1)).
(** The file lines of Print, :171-236 *)
Definition print_files (s : stats) (width : nat) : outcome (list (list cell)) :=
  if Nat.ltb width (kMaxFilenameSize + 4) then Ok []
  else
    let m := fold_right (fun p m => Nat.max (length (short_name p)) m) 0 (recent s) in
    collect (map (file_line s width m) (recent s)).
