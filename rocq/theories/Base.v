(** Shared basics for all models.

    [outcome] makes undefined behaviour (out-of-bounds reads, reads of freed or
    uninitialised memory, division by zero) and exhausted loop fuel (a loop
    that the model could not finish) distinct from ordinary results, so that
    no theorem can hold because a default value was substituted. *)
From Coq Require Export List Arith NArith ZArith Lia Bool Permutation Sorted.
From Coq Require Export ZifyBool ZifyNat ZifyN.
Export ListNotations.

Inductive outcome (A : Type) : Type :=
| Ok (a : A)          (* normal return *)
| Fail                (* the function reports an error status *)
| UB                  (* undefined behaviour in the C++ *)
| OutOfFuel.          (* the modelled loop did not finish *)
Arguments Ok {A} a.
Arguments Fail {A}.
Arguments UB {A}.
Arguments OutOfFuel {A}.

Definition bind {A B} (x : outcome A) (f : A -> outcome B) : outcome B :=
  match x with
  | Ok a => f a
  | Fail => Fail
  | UB => UB
  | OutOfFuel => OutOfFuel
  end.

Notation "'do' x <- a ; b" := (bind a (fun x => b))
  (at level 200, x pattern, a at level 100, b at level 200).

(** A byte is modelled by a number; definitions that depend on the range
    0..255 say so explicitly. *)
Definition byte := N.
Definition bytes := list byte.

Definition is_byte (b : byte) : Prop := (b < 256)%N.
Definition is_bytes (l : bytes) : Prop := Forall is_byte l.
