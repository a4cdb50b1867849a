(** Model of reading and writing files as streams and as a whole, common/path.cc:763-893 and
    961-983.

    Simplifications: a FILE is its content, a position, its end-of-file flag and the offset,
    if any, from which on reading fails; what is written goes through a buffer of which the
    size is a parameter; 64-bit numbers are only taken for offsets and sizes given by the
    system. Paths and text mode are left out. *)
From Verif Require Import Base.

(** ** The C library *)
Record file := mkfile { content : bytes; fault : option nat; pos : nat; at_eof : bool }.
(** Whether reading runs into the fault rather than into the end. *)
Definition faulty (f : file) : bool := match fault f with Some k => Nat.leb k (length (content f)) | None => false end.
Definition readable (f : file) : nat := match fault f with Some k => Nat.min k (length (content f)) | None => length (content f) end.
(** fread: what there is, at most |n| bytes; sets the flag if the end is hit, and returns
    nothing if it is set already. *)
Definition fread (n : nat) (f : file) : bytes * file :=
  if at_eof f then ([], f)
  else
    let got := firstn (Nat.min n (readable f - pos f)) (skipn (pos f) (content f)) in
    (got, mkfile (content f) (fault f) (pos f + length got) (if Nat.ltb (length got) n then negb (faulty f) else false)).

(** ** StreamReadFileContents, :769-800 *)
Inductive status :=
| Done
| Rejected            (* the handler's error, wrapped *)
| Broken              (* reading or writing failed *)
| EmptyBuffer.        (* FailedPrecondition *)
(** A handler has a state and may use the file. [None] is the call (nullptr, 0). *)
Definition handler (H : Type) := H -> option bytes -> file -> bool * H * file.
Record result (H : Type) := mkr { r_status : status; r_state : H; r_file : file; r_calls : list (option bytes) }.
Arguments mkr {H}. Arguments r_status {H}. Arguments r_state {H}. Arguments r_file {H}. Arguments r_calls {H}.
Definition add_call {H} (c : option bytes) (r : result H) : result H := mkr (r_status r) (r_state r) (r_file r) (c :: r_calls r).

Fixpoint read_loop {H} (fuel n : nat) (h : handler H) (s : H) (f : file) : outcome (result H) :=
  match fuel with
  | O => OutOfFuel
  | S k =>
    let (d, f1) := fread n f in
    let short := negb (Nat.eqb (length d) n) in
    let eof := short && at_eof f1 in
    let finish s f :=
      if eof then
        let '(ok, s2, f2) := h s None f in
        mkr (if ok then Done else Rejected) s2 f2 [None]
      else mkr Broken s f [] in
    match d with
    | [] => if short then Ok (finish s f1) else read_loop k n h s f1
    | _ =>
      let '(ok, s1, f2) := h s (Some d) f1 in
      if negb ok then Ok (mkr Rejected s1 f2 [Some d])
      else if short then Ok (add_call (Some d) (finish s1 f2))
      else do r <- read_loop k n h s1 f2; Ok (add_call (Some d) r)
    end
  end.
Definition stream_read {H} (fuel n : nat) (h : handler H) (s : H) (f : file) : outcome (result H) :=
  match n with
  | O => Ok (mkr EmptyBuffer s f [])
  | _ => read_loop fuel n h s f
  end.

(** ** Writing *)
(** What is on the disk, what is in the buffer and how much the disk still takes. *)
Record ofile := mko { disk : bytes; pending : bytes; room : nat }.
Definition flush (o : ofile) : bool * ofile :=
  (Nat.leb (length (pending o)) (room o),
   mko (disk o ++ firstn (room o) (pending o)) [] (room o - length (pending o))).
(** fwrite through a buffer of |b| bytes *)
Definition fwrite (b : nat) (d : bytes) (o : ofile) : bool * ofile :=
  let o1 := mko (disk o) (pending o ++ d) (room o) in
  if Nat.ltb (length (pending o1)) b then (true, o1) else flush o1.
Definition fclose (o : ofile) : bool * ofile := flush o.

(** StreamWriteFileContents, :802-822. The handler gives the next piece, or [None] for an
    error; an empty piece is the end, whatever its address (assert is off in a release). *)
Fixpoint write_loop {W} (fuel b : nat) (h : W -> option bytes * W) (s : W) (o : ofile) : outcome (status * W * ofile) :=
  match fuel with
  | O => OutOfFuel
  | S k =>
    match h s with
    | (None, s1) => Ok (Rejected, s1, o)
    | (Some [], s1) => Ok (Done, s1, o)
    | (Some d, s1) =>
      let (ok, o1) := fwrite b d o in
      if ok then write_loop k b h s1 o1 else Ok (Broken, s1, o1)
    end
  end.

(** WriteFile, :964-983; the second component: the number of FILEs left open. *)
Definition write_file (b : nat) (data : bytes) (space : nat) : bool * bytes * nat :=
  let (ok, o) := fwrite b data (mko [] [] space) in
  if ok then (true, disk (snd (fclose o)), 0)
  else (false, disk o, 1).

(** ** ReadFile *)
(** What a path names: what reading it gives, where reading fails, what ftell says after
    seeking to the end (all ones: an error), and whether one can seek at all. *)
Record node := mknode { n_data : bytes; n_fault : option nat; n_tell : N; n_seekable : bool }.
Inductive answer :=
| Got (d : bytes)
| Error
| Crash.              (* an uncaught exception, or a write to address 0 *)
Definition opened (n : node) : file := mkfile (n_data n) (n_fault n) 0 false.
(** The largest block of memory there is. *)
Definition kMemory : N := (2 ^ 46)%N.
(** ReadFile(path, Buffer* ), :824-848, common/buffer.cc:60-66: resize does not notice that there is
    no memory. With each answer the number of FILEs left open. *)
Definition read_file_buffer (x : option node) : answer * nat :=
  match x with
  | None => (Error, 0)
  | Some n =>
    if N.ltb kMemory (n_tell n) then
      match fst (fread 1 (opened n)) with [] => (Error, 1) | _ => (Crash, 1) end
    else
      let size := N.to_nat (n_tell n) in
      let d := fst (fread size (opened n)) in
      if Nat.eqb (length d) size then (Got d, 0) else (Error, 1)
  end.
(** ReadFile(path), :872-893; std::string::resize throws. *)
Definition read_file_string (x : option node) : answer * nat :=
  match x with
  | None => (Error, 0)
  | Some n =>
    if N.ltb kMemory (n_tell n) then (Crash, 1)
    else
      let size := N.to_nat (n_tell n) in
      let d := fst (fread size (opened n)) in
      if Nat.eqb (length d) size then (Got d, 0) else (Error, 1)
  end.
(** fseek64 to |offset|: a negative offset or a pipe is an error, which nobody looks at. *)
Definition fseek (offset : N) (n : node) (f : file) : file :=
  if n_seekable n && N.ltb offset (2 ^ 63) then mkfile (content f) (fault f) (N.to_nat offset) false else f.
(** ReadFile(path, data, offset, len), :850-870 *)
Definition read_file_range (x : option node) (offset : N) (len : nat) : answer * nat :=
  match len with
  | O => (Got [], 0)
  | _ =>
    match x with
    | None => (Error, 0)
    | Some n =>
      let f := if N.eqb offset 0 then opened n else fseek offset n (opened n) in
      let (d, f1) := fread len f in
      if negb (Nat.eqb (length d) len) && negb (at_eof f1) then (Error, 0) else (Got d, 0)
    end
  end.
