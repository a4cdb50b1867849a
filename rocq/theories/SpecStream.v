(** What reading and writing a file as a stream means (common/path.h:241-300). *)
From Verif Require Import Base ModelStream.

(** |l| cut into pieces of |n| bytes, of which only the last may be shorter; none is empty. *)
Definition cut (n : nat) (l : bytes) (ps : list bytes) : Prop :=
  concat ps = l /\ Forall (fun p => 0 < length p <= n) ps /\
  forall i p, nth_error ps i = Some p -> S i < length ps -> length p = n.
(** What is left to read, and whether reading it ends in an error. *)
Definition remaining (f : file) : bytes :=
  skipn (pos f) (match fault f with Some k => firstn k (content f) | None => content f end).
Definition reading_fails (f : file) : Prop := exists k, fault f = Some k /\ k <= length (content f).
(** A handler that leaves the file alone. *)
Definition apart {H} (h : H -> option bytes -> bool * H) : handler H := fun s c f => let (ok, s1) := h s c in (ok, s1, f).
(** The handler accepts all these calls. *)
Inductive accepts {H} (h : H -> option bytes -> bool * H) : H -> list (option bytes) -> H -> Prop :=
| acc_nil s : accepts h s [] s
| acc_cons s c s1 l s2 : h s c = (true, s1) -> accepts h s1 l s2 -> accepts h s (c :: l) s2.
(** The pieces a writer's handler gives until it is at the end or has an error. *)
Inductive gives {W} (h : W -> option bytes * W) : W -> list bytes -> status -> W -> Prop :=
| gives_end s s1 : h s = (Some [], s1) -> gives h s [] Done s1
| gives_error s s1 : h s = (None, s1) -> gives h s [] Rejected s1
| gives_piece s p s1 l st s2 : p <> [] -> h s = (Some p, s1) -> gives h s1 l st s2 -> gives h s (p :: l) st s2.
