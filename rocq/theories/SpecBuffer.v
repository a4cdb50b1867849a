(** Specification for C80: a set of buffers is a set of vectors of bytes. Nothing here refers to
    the model. *)
From Verif Require Import Base.
Local Open Scope N_scope.

(** The calls on the buffers, which are numbered. *)
Inductive call :=
| Construct (i : nat) (n : N)             (* Buffer b(n), after the end of the old b *)
| Destroy (i : nat)                       (* the end of b; a default-constructed b follows *)
| Resize (i : nat) (n : N)
| Reserve (i : nat) (n : N)
| Clear (i : nat)
| Append (i : nat) (l : list N)
| Write (i : nat) (off : N) (l : list N)  (* memcpy(b.data() + off, l) *)
| Move (i j : nat).                       (* b_i = std::move(b_j), possibly with i = j *)

(** A byte of a vector is [None] if nothing is promised about it. *)
Definition vector := list (option N).
Definition set_vector (v : nat -> vector) (i : nat) (x : vector) : nat -> vector :=
  fun j => if Nat.eqb j i then x else v j.
Definition resized (x : vector) (n : nat) : vector := firstn n x ++ repeat None (n - length x).
Definition vector_call (v : nat -> vector) (c : call) : nat -> vector :=
  match c with
  | Construct i n => set_vector v i (repeat None (N.to_nat n))
  | Destroy i => set_vector v i []
  | Resize i n => set_vector v i (resized (v i) (N.to_nat n))
  | Reserve _ _ => v
  | Clear i => set_vector v i []
  | Append i l => set_vector v i (v i ++ map Some l)
  | Write i off l => set_vector v i (firstn (N.to_nat off) (v i) ++ map Some l ++ skipn (N.to_nat off + length l) (v i))
  | Move i j => set_vector (set_vector v i (v j)) j []
  end.
Definition vectors (h : list call) : nat -> vector := fold_left vector_call h (fun _ => []).

(** Half as much again as [n] bytes can be counted in 64 bits and can be allocated. *)
Definition fits (avail n : N) : Prop := n + n / 2 < 2 ^ 64 /\ n + n / 2 <= avail.
(** What a caller has to respect. *)
Definition legal_call (avail : N) (v : nat -> vector) (c : call) : Prop :=
  match c with
  | Construct i n => fits avail n
  | Resize i n => fits avail n
  | Reserve i n => n <= avail
  | Append i l => fits avail (N.of_nat (length (v i)) + N.of_nat (length l))
  | Write i off l => (N.to_nat off + length l <= length (v i))%nat
  | _ => True
  end.
Definition legal (avail : N) (h : list call) : Prop :=
  forall h1 c h2, h = h1 ++ c :: h2 -> legal_call avail (vectors h1) c.

(** What is in memory agrees with what is promised. *)
Definition agrees (x got : vector) : Prop := Forall2 (fun a b => a = None \/ a = b) x got.
(** The buffers a call is about. *)
Definition about (c : call) (k : nat) : Prop :=
  match c with
  | Construct i _ | Destroy i | Resize i _ | Reserve i _ | Clear i | Append i _ | Write i _ _ => k = i
  | Move i j => k = i \/ k = j
  end.
