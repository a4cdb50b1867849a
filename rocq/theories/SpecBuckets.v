(** Specification for C72: the size classes of chunks. *)
From Verif Require Import Base ModelIndexer ModelBuckets SpecIndexer.
From Coq Require Import Sorting.Sorted.
Local Open Scope N_scope.

(** The classes: 1 KB, doubled until the minimum chunk size is reached, then
    in steps. *)
Inductive class (mn st : N) : N -> Prop :=
| c_first : class mn st 1024
| c_double b : class mn st b -> b < mn -> class mn st (2 * b)
| c_step b : class mn st b -> mn <= b -> class mn st (b + st).

(** [b] is the class of chunks of [size] bytes: the smallest that holds them. *)
Definition class_of (c : icfg) (size b : N) : Prop :=
  class (min_chunk c) (step_size c) b /\ size <= b /\
  forall b', class (min_chunk c) (step_size c) b' -> size <= b' -> b <= b'.

(** Sizes that leave room for the arithmetic. *)
Definition roomy (c : icfg) : Prop :=
  min_chunk c <= 2 ^ 62 /\ 1 <= step_size c <= 2 ^ 62 /\ max_chunk c <= 2 ^ 62.

(** How many of the sizes [l] satisfy [p]. *)
Definition count (p : N -> bool) (l : list N) : N := N.of_nat (length (filter p l)).

(** [m] says how many of the chunks of sizes [l] are in each class; [f] is the
    class of a size. *)
Definition distribution (c : icfg) (f : N -> N) (l : list N) (m : list (N * N)) : Prop :=
  (forall s, In s l -> s <= 2 ^ 62 /\ class_of c s (f s)) /\
  NoDup (map fst m) /\ (forall k v, In (k, v) m -> 1 <= v) /\
  forall b, count_at b m = count (fun s => f s =? b) l.

(** All classes between [a] and [b] in increasing order. *)
Definition classes_between (c : icfg) (a b : N) (l : list N) : Prop :=
  StronglySorted N.lt l /\
  forall x, In x l <-> class (min_chunk c) (step_size c) x /\ a <= x <= b.
