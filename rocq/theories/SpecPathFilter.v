(** What the wildcards mean: ? is any one character, * any sequence, anything
    else itself. *)
From Verif Require Import Base ModelPathFilter.

Inductive glob : bytes -> bytes -> Prop :=
| glob_nil : glob [] []
| glob_any c pat s : glob pat s -> glob (ch_question :: pat) (c :: s)
| glob_star pre pat s : glob pat s -> glob (ch_star :: pat) (pre ++ s)
| glob_char c pat s : c <> ch_question -> c <> ch_star ->
    glob pat s -> glob (c :: pat) (c :: s).

Definition nul_free (s : bytes) : Prop := ~ In ch_nul s.

(** The first rule whose pattern matches decides; the default is "include". *)
Inductive filter_spec : list rule -> bytes -> bool -> Prop :=
| fs_default path : filter_spec [] path true
| fs_hit r rest path : glob (r_pattern r) path ->
    filter_spec (r :: rest) path (match r_type r with Include => true | Exclude => false end)
| fs_skip r rest path b : ~ glob (r_pattern r) path -> filter_spec rest path b ->
    filter_spec (r :: rest) path b.

(** The degenerate case in which "**" does not match the empty path. *)
Definition all_stars (pat : bytes) : Prop := Forall (fun c => c = ch_star) pat.
Definition degenerate (pat s : bytes) : Prop := s = [] /\ all_stars pat /\ 2 <= length pat.

(** Patterns for which the matcher cannot run past the end of the path: at most
    one non-wildcard-star character precedes a star that has a successor. *)
Fixpoint bounded_prefix (consumed : nat) (pat : bytes) : Prop :=
  match pat with
  | [] => True
  | c :: rest =>
      if (c =? ch_star)%N then (rest = [] \/ consumed <= 1) /\ bounded_prefix consumed rest
      else bounded_prefix (S consumed) rest
  end.
