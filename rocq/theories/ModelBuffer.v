(** Model of Buffer (common/buffer.{h,cc}) on a heap of blocks.

    Simplifications: realloc always moves the block, succeeds exactly if at most [avail] bytes
    are asked for, and otherwise returns a null pointer and leaves the old block as it is;
    memcpy and memcmp of no bytes are defined for null pointers; the byte past the end and overlapping ranges in append are not modelled; the end of
    a buffer is followed by the construction of a default one in its place; the constructor
    from an initializer list is construction and a write. *)
From Verif Require Import Base SpecBuffer.
Local Open Scope N_scope.

(** buffer.h:82-86 *)
Record buffer := mkb { data : option nat; size : N; capacity : N }.
Definition no_buffer : buffer := mkb None 0 0.
(** The blocks on the heap (bytes are [None] as long as nothing was written), the next block and
    the buffers. *)
Record state := mks { heap : nat -> option (list (option N)); next : nat; bufs : nat -> buffer }.
Definition start : state := mks (fun _ => None) 0 (fun _ => no_buffer).
Definition set_block (h : nat -> option (list (option N))) (p : nat) (m : option (list (option N))) :=
  fun q => if Nat.eqb q p then m else h q.
Definition set_buffer (s : state) (i : nat) (b : buffer) : state :=
  mks (heap s) (next s) (fun j => if Nat.eqb j i then b else bufs s j).

(** free; UB if the block is not allocated *)
Definition free (s : state) (p : option nat) : outcome state :=
  match p with
  | None => Ok s
  | Some q => match heap s q with
              | None => UB
              | Some _ => Ok (mks (set_block (heap s) q None) (next s) (bufs s))
              end
  end.
(** realloc *)
Definition realloc (avail : N) (s : state) (p : option nat) (n : N) : outcome (state * option nat) :=
  if avail <? n then Ok (s, None)
  else
    do old <- match p with
              | None => Ok []
              | Some q => match heap s q with Some m => Ok m | None => UB end
              end;
    do s1 <- free s p;
    let k := N.to_nat n in
    Ok (mks (set_block (heap s1) (next s1) (Some (firstn k old ++ repeat None (k - length old)))) (Datatypes.S (next s1)) (bufs s1),
        Some (next s1)).

(** Unsigned 64-bit arithmetic *)
Definition wrap (n : N) : N := n mod 2 ^ 64.

(** buffer.cc:65-71: resize *)
Definition resize (avail : N) (s : state) (i : nat) (n : N) : outcome state :=
  let b := bufs s i in
  if capacity b <? n then
    let c := wrap (n + n / 2) in
    do (s1, p) <- realloc avail s (data b) c;
    Ok (set_buffer s1 i (mkb p n c))
  else Ok (set_buffer s i (mkb (data b) n (capacity b))).
(** buffer.cc:73-78: reserve *)
Definition reserve (avail : N) (s : state) (i : nat) (n : N) : outcome state :=
  let b := bufs s i in
  if capacity b <? n then
    do (s1, p) <- realloc avail s (data b) n;
    Ok (set_buffer s1 i (mkb p (size b) n))
  else Ok s.
(** memcpy(data_ + off, l, l.size()) *)
Definition put (s : state) (i : nat) (off : N) (l : list N) : outcome state :=
  match l with
  | [] => Ok s
  | _ =>
    match data (bufs s i) with
    | None => UB
    | Some p =>
      match heap s p with
      | None => UB
      | Some m =>
        let k := N.to_nat off in
        if Nat.ltb (length m) (k + length l) then UB
        else Ok (mks (set_block (heap s) p (Some (firstn k m ++ map Some l ++ skipn (k + length l) m))) (next s) (bufs s))
      end
    end
  end.
(** buffer.cc:80-84: append *)
Definition append (avail : N) (s : state) (i : nat) (l : list N) : outcome state :=
  let prev := size (bufs s i) in
  do s1 <- resize avail s i (wrap (prev + N.of_nat (length l)));
  put s1 i prev l.
(** buffer.cc:53-59: ~Buffer, and a default buffer in its place *)
Definition destroy (s : state) (i : nat) : outcome state :=
  do s1 <- free s (data (bufs s i));
  Ok (set_buffer s1 i no_buffer).
(** buffer.cc:24-27: Buffer(size_t) *)
Definition construct (avail : N) (s : state) (i : nat) (n : N) : outcome state :=
  let s1 := set_buffer s i (mkb None n 0) in
  do s2 <- reserve avail s1 i n;
  resize avail s2 i n.
(** buffer.cc:37-51: the move assignment *)
Definition move (s : state) (i j : nat) : outcome state :=
  do s1 <- free s (data (bufs s i));
  let s2 := set_buffer s1 i (bufs s1 j) in
  Ok (set_buffer s2 j no_buffer).

Definition step (avail : N) (s : state) (c : call) : outcome state :=
  match c with
  | Construct i n => do s1 <- destroy s i; construct avail s1 i n
  | Destroy i => destroy s i
  | Resize i n => resize avail s i n
  | Reserve i n => reserve avail s i n
  | Clear i => let b := bufs s i in Ok (set_buffer s i (mkb (data b) 0 (capacity b)))
  | Append i l => append avail s i l
  | Write i off l => put s i off l
  | Move i j => move s i j
  end.
Fixpoint run_from (avail : N) (s : state) (h : list call) : outcome state :=
  match h with
  | [] => Ok s
  | c :: h' => do s1 <- step avail s c; run_from avail s1 h'
  end.
Definition run (avail : N) (h : list call) : outcome state := run_from avail start h.

(** The first size() bytes at data(), as far as they are allocated *)
Definition contents (s : state) (i : nat) : list (option N) :=
  match data (bufs s i) with
  | None => []
  | Some p => match heap s p with Some m => firstn (N.to_nat (size (bufs s i))) m | None => [] end
  end.
(** buffer.cc:61-63: operator==; memcmp of bytes that were never written is UB *)
Fixpoint compare (x y : list (option N)) : outcome bool :=
  match x, y with
  | [], [] => Ok true
  | Some a :: x', Some b :: y' => if a =? b then compare x' y' else Ok false
  | _, _ => UB
  end.
Definition equal (s : state) (i j : nat) : outcome bool :=
  if size (bufs s i) =? size (bufs s j) then
    if (N.of_nat (length (contents s i)) =? size (bufs s i)) && (N.of_nat (length (contents s j)) =? size (bufs s j))
    then compare (contents s i) (contents s j)
    else UB
  else Ok false.
