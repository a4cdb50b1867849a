(** Specification for C62: how cdc_stream's targets are written. *)
From Verif Require Import Base ParamTypes.
Local Notation str := (list N).
Local Open Scope N_scope.

Definition letter (c : N) : Prop := 65 <= c <= 90 \/ 97 <= c <= 122.
(** "[user@]host:dir"; a single letter before the first colon is a Windows drive. *)
Definition is_target (s host dir : str) : Prop :=
  s = host ++ 58 :: dir /\ ~ In 58 host /\ (forall c, host = [c] -> ~ letter c).
(** No wildcard. *)
Definition plain (s : str) : Prop := ~ In 42 s /\ ~ In 63 s.

(** "organizations/o/projects/p/pools/q/gamelets/a/b/c" *)
Definition part (s : str) : Prop := s <> [] /\ ~ In 47 s.
Definition is_instance_name (name org project instance : str) : Prop :=
  exists pool a b c, Forall part [org; project; pool; a; b; c] /\ instance = a ++ 47 :: b ++ 47 :: c /\
    name = lit "organizations/" ++ org ++ lit "/projects/" ++ project ++ lit "/pools/" ++ pool ++ lit "/gamelets/" ++ instance.

(** The lines of a text: separated by newlines; a final newline does not start another line. *)
Fixpoint unlines (ls : list str) : str := match ls with [] => [] | l :: r => l ++ 10 :: unlines r end.
Definition lines_of (data : str) (ls : list str) : Prop :=
  Forall (fun l => ~ In 10 l) ls /\ (data = unlines ls \/ exists l, l <> [] /\ ~ In 10 l /\ exists ls0, ls = ls0 ++ [l] /\ data = unlines ls0 ++ l).
Definition space (c : N) : Prop := c = 32 \/ 9 <= c <= 13.
(** [v] is [s] without the white space around it. *)
Definition trimmed (s v : str) : Prop :=
  exists a b, s = a ++ v ++ b /\ Forall space a /\ Forall space b /\
    (forall c r, v = c :: r -> ~ space c) /\ (forall c r, v = r ++ [c] -> ~ space c) /\ (v = [] -> b = []).
Definition has_key (key l : str) : Prop := exists r, l = key ++ 58 :: r.
(** The value of the first line "key: value". *)
Definition value_of (ls : list str) (key v : str) : Prop :=
  exists l1 r l2, ls = l1 ++ (key ++ 58 :: r) :: l2 /\ Forall (fun l => ~ has_key key l) l1 /\ trimmed r v.
