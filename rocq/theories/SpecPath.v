(** Specification vocabulary for C19. *)
From Verif Require Import Base ListX Str ModelPath.
Local Open Scope N_scope.

Definition separator (b : byte) : Prop := b = slash \/ b = backslash.
Definition all_seps (l : bytes) : Prop := Forall separator l.
Definition no_seps (l : bytes) : Prop := Forall (fun b => ~ separator b) l.
(** The string is empty or its last character is not a separator. *)
Definition no_trailing_sep (l : bytes) : Prop := forall l' b, l = l' ++ [b] -> ~ separator b.
Definition no_leading_sep (l : bytes) : Prop := forall b l', l = b :: l' -> ~ separator b.
(** Two neighbouring separators occur somewhere. *)
Definition has_double_sep (l : bytes) : Prop :=
  exists l1 a b l2, l = l1 ++ a :: b :: l2 /\ separator a /\ separator b.
