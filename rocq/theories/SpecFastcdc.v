(** Independent description of content-defined chunking, used by the
    statements about fastcdc. *)
From Verif Require Import Base ModelFastcdc.

Section Spec.
Variable w : nat.
Variable gear : byte -> N.

(** Rolling "gear" hash of a byte sequence, starting from all ones. *)
Definition gear_hash_from (h : N) (l : bytes) : N :=
  fold_left (fun h b => ((2 * h + gear b) mod 2 ^ N.of_nat w)%N) l h.

(** The closed form: the i-th byte from the end has weight 2^i, so bytes more
    than w positions back have no influence. *)
Fixpoint gear_sum (l : bytes) : N :=
  match l with
  | [] => 0%N
  | b :: r => (gear b * 2 ^ N.of_nat (length r) + gear_sum r)%N
  end.

(** Hash in front of position [i] of [data]: the warm-up starts [w] bytes
    before the minimum chunk size (or at 0). *)
Definition hash_at (cfg : config) (data : bytes) (i : nat) : N :=
  gear_hash_from (2 ^ N.of_nat w - 1)
    (skipn (min_size cfg - w) (firstn i data)).

(** Number of significant bits (0 for 0); fewer bits = more leading zeros. *)
Definition leading_zeros (h : N) : nat := w - N.to_nat (N.size h).

(** [r] is the documented chunk boundary for [data]. *)
Definition is_boundary (cfg : config) (thr : N) (data : bytes) (r : nat) : Prop :=
  let m := min_size cfg in
  let len := Nat.min (length data) (max_size cfg) in
  if length data <=? m then r = length data
  else
    m <= r <= len /\
    ( (* first position whose hash is below the threshold *)
      ( r < len /\ (hash_at cfg data r <= thr)%N /\
        forall j, m <= j < r -> (thr < hash_at cfg data j)%N )
      \/
      (* none: last position with the most leading zeros, end included *)
      ( (forall j, m <= j < len -> (thr < hash_at cfg data j)%N) /\
        (forall j, m <= j <= r ->
           leading_zeros (hash_at cfg data j) <= leading_zeros (hash_at cfg data r)) /\
        (forall j, r < j <= len ->
           leading_zeros (hash_at cfg data j) < leading_zeros (hash_at cfg data r)) )).
End Spec.

(** A list of chunks is the content-defined chunking of its concatenation:
    every chunk ends at the documented boundary of what follows. *)
Definition is_chunking (w : nat) (gear : byte -> N) (cfg : config) (cs : list bytes) : Prop :=
  forall pre c post, cs = pre ++ c :: post ->
    c <> [] /\
    is_boundary w gear cfg ((2 ^ N.of_nat w - 1) / (N.of_nat (avg_size cfg - min_size cfg) + 1))%N
      (c ++ concat post) (length c).

(** The byte streams delimited by empty blocks in a sequence of Process calls,
    and the not yet terminated stream at the end. *)
Fixpoint split_streams (cur : bytes) (blocks : list bytes) : list bytes * bytes :=
  match blocks with
  | [] => ([], cur)
  | [] :: r => (cur :: fst (split_streams [] r), snd (split_streams [] r))
  | b :: r => split_streams (cur ++ b) r
  end.
