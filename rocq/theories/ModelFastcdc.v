(** Model of fastcdc/fastcdc.h (ChunkerTmpl). *)
From Verif Require Import Base.

(** fastcdc.h:35-53 [struct Config].  Sizes are unbounded naturals: the model
    assumes max_size < 2^63 (the constructor reserves [max_size << 1] bytes,
    fastcdc.h:111). *)
Record config := { min_size : nat; avg_size : nat; max_size : nat }.

(** fastcdc.h:103-105: the constructor's assertions. *)
Definition wf_config (c : config) : Prop :=
  1 <= avg_size c /\ min_size c <= avg_size c /\ avg_size c <= max_size c.

Section Chunker.
(** Template parameters of ChunkerTmpl (fastcdc.h:97-98): [w] is the number of
    bits of the hash type T, [gear] the look-up table (total here; the C++
    table has 256 entries indexed by a uint8_t, so it never runs out). *)
Variable w : nat.
Variable gear : byte -> N.
Variable cfg : config.

Definition modulus : N := (2 ^ N.of_nat w)%N.
(** std::numeric_limits<T>::max() *)
Definition tmax : N := (modulus - 1)%N.

(** fastcdc.h:109-110: threshold_ = max / (avg - min + 1). *)
Definition threshold : N :=
  (tmax / (N.of_nat (avg_size cfg) - N.of_nat (min_size cfg) + 1))%N.

(** fastcdc.h:176 and 190: hash = (hash << 1) + gear[b], in T. *)
Definition hash_step (h : N) (b : byte) : N := ((2 * h + gear b) mod modulus)%N.

(** fastcdc.h:175-177: warm-up loop, [n] iterations starting at index [i]. *)
Fixpoint warm (data : bytes) (n i : nat) (h : N) : outcome N :=
  match n with
  | O => Ok h
  | S n' =>
      match nth_error data i with
      | None => UB
      | Some b => warm data n' (S i) (hash_step h b)
      end
  end.

(** fastcdc.h:188: while (hash & rc_mask) rc_mask <<= 1; *)
Fixpoint shrink_mask (fuel : nat) (h mask : N) : outcome N :=
  if (N.land h mask =? 0)%N then Ok mask
  else match fuel with
       | O => OutOfFuel
       | S f => shrink_mask f h ((2 * mask) mod modulus)%N
       end.

(** fastcdc.h:178-193: search loop with [n] iterations left at index [i]. *)
Fixpoint search (data : bytes) (n i : nat) (h : N) (rc_len : nat) (rc_mask : N)
  : outcome nat :=
  match n with
  | O => Ok (if (N.land h rc_mask =? 0)%N then i else rc_len)
  | S n' =>
      match nth_error data i with
      | None => UB
      | Some b =>
          if (N.land h rc_mask =? 0)%N then
            if (h <=? threshold)%N then Ok i
            else
              do mask <- shrink_mask w h tmax;
              search data n' (S i) (hash_step h b) i mask
          else search data n' (S i) (hash_step h b) rc_len rc_mask
      end
  end.

(** fastcdc.h:157-194 FindChunkBoundary(data, len) with len = |data|. *)
Definition find_chunk_boundary (data : bytes) : outcome nat :=
  let len := length data in
  if len <=? min_size cfg then Ok len
  else
    let len := Nat.min len (max_size cfg) in
    let i := if w <? min_size cfg then min_size cfg - w else 0 in
    do h <- warm data (min_size cfg - i) i tmax;
    search data (len - min_size cfg) (min_size cfg) h len 0%N.

(** fastcdc.h:133-141: the loop of Process on the buffered bytes.  Returns the
    chunks passed to the handler and the bytes left.  Fuel bounds the number of
    iterations; a zero-length chunk would exhaust it. *)
Fixpoint drain (fuel : nat) (eof : bool) (buf : bytes) : outcome (list bytes * bytes) :=
  if (max_size cfg <=? length buf) || ((0 <? length buf) && eof) then
    match fuel with
    | O => OutOfFuel
    | S f =>
        do n <- find_chunk_boundary buf;
        do r <- drain f eof (skipn n buf);
        Ok (firstn n buf :: fst r, snd r)
    end
  else Ok ([], buf).

(** fastcdc.h:117-147 Process(data, size): an empty block means end of file.
    State is the buffered data [data_]. *)
Definition process (buf : bytes) (block : bytes) : outcome (list bytes * bytes) :=
  let eof := match block with [] => true | _ => false end in
  let buf := buf ++ block in
  match buf with
  | [] => Ok ([], [])
  | _ => drain (length buf) eof buf
  end.

(** fastcdc.h:151 Finalize. *)
Definition finalize (buf : bytes) : outcome (list bytes * bytes) := process buf [].

(** A whole use of the chunker: any sequence of Process calls (an empty block
    is the nullptr/0 call, i.e. Finalize).  Returns all chunks in callback
    order and the bytes still buffered. *)
Fixpoint feed (buf : bytes) (blocks : list bytes) : outcome (list bytes * bytes) :=
  match blocks with
  | [] => Ok ([], buf)
  | b :: rest =>
      do r1 <- process buf b;
      do r2 <- feed (snd r1) rest;
      Ok (fst r1 ++ fst r2, snd r2)
  end.

(** The usage pattern of all callers (asset_builder / cdc_interface): process
    every block that was read, then Finalize. *)
Definition chunk_stream (blocks : list bytes) : outcome (list bytes * bytes) :=
  feed [] (blocks ++ [[]]).
End Chunker.
