(** What the streaming statistics display shows (manifest/stats_printer.{h,cc}), independently of how it is computed. *)
From Verif Require Import Base ModelStats.

(** The events since the last Clear. *)
Definition is_clear (e : event) : bool := match e with Clear => true | _ => false end.
Fixpoint since (l : list event) : list event :=
  match l with
  | [] => []
  | e :: r => if existsb is_clear r then since r else if is_clear e then r else e :: r
  end.
(** The paths and threads of chunks recorded, and the sizes. *)
Definition paths (l : list event) : list bytes :=
  flat_map (fun e => match e with RecStreamed _ p _ _ _ => [p] | RecCached _ p _ _ => [p] | _ => [] end) l.
Definition threads_in (l : list event) : list N :=
  flat_map (fun e => match e with RecStreamed _ _ _ _ t => [t] | _ => [] end) l.
Definition sum (l : list N) : N := fold_right N.add 0%N l.
Definition streamed_sizes (l : list event) : list N :=
  flat_map (fun e => match e with RecStreamed _ _ _ n _ => [n] | _ => [] end) l.
Definition cached_sizes (l : list event) : list N :=
  flat_map (fun e => match e with RecCached _ _ _ n => [n] | _ => [] end) l.
(** The elements of a list in the order of their first occurrences. *)
Definition firsts_bytes (l : list bytes) : list bytes := rev (nodup (list_eq_dec N.eq_dec) (rev l)).
Definition firsts_N (l : list N) : list N := rev (nodup N.eq_dec (rev l)).

(** The number of chunks with which |p| was last registered. *)
Definition size_of (p : bytes) (l : list event) : nat :=
  fold_left (fun n e => match e with Init q m => if list_eq_dec N.eq_dec q p then m else n | _ => n end) l 0.
(** Every record is about a registered file and one of its chunks. *)
Definition registered (l : list event) : Prop :=
  forall l1 e l2, l = l1 ++ e :: l2 ->
    match e with
    | RecStreamed _ p i _ _ | RecCached _ p i _ => i < size_of p (since l1)
    | _ => True
    end.
(** Time has passed since 1970. *)
Definition clock_set (l : list event) : Prop :=
  Forall (fun e => match e with RecStreamed now _ _ _ _ | RecCached now _ _ _ => (0 < now)%N | _ => True end) l.

(** What was last said about chunk |i| of |p|. *)
Definition last_said (p : bytes) (i : nat) (l : list event) : chunk :=
  fold_left (fun c e =>
    match e with
    | RecStreamed now q j _ t => if list_eq_dec N.eq_dec q p then if Nat.eq_dec j i then mkch Streamed t now else c else c
    | RecCached now q j _ => if list_eq_dec N.eq_dec q p then if Nat.eq_dec j i then mkch Cached 0 now else c else c
    | _ => c
    end) l (mkch NotLoaded 0 0).
(** |p| has one size, |n|, whenever it is registered. *)
Definition one_size (p : bytes) (n : nat) (l : list event) : Prop :=
  Forall (fun e => match e with Init q m => q = p -> m = n | _ => True end) l.

(** The chunks that the |n|-th of |w| characters stands for, of |m| chunks. *)
Definition in_group (m w n i : nat) : Prop := n * m / w <= i < (n + 1) * m / w.
