(** Specification for C58: reserving TCP ports of a range that several processes share
    (common/port_manager.h), as seen from outside. *)
From Verif Require Import Base.
Local Notation str := (list N).

(** What happens to ports; [m] is a PortManager instance of some process. *)
Inductive event : Type :=
| EBegin (m : nat) (l r : list nat)      (* ReservePort: netstat showed the ports [l] unused locally and [r] on the instance *)
| EReserved (m p : nat) (now : N)        (* ReservePort returns port [p] at time [now] *)
| EExhausted (m : nat)                   (* ReservePort reports that no port is available *)
| EOccupied (m p : nat) (now : N)        (* [p] is marked reserved at time [now], then found to be in use *)
| EUndo (m p : nat) (now : N)            (* the code meant to take that mark back marks [p] with time [now] *)
| EReleased (m p : nat)                  (* ReleasePort(p), or the destructor *)
| ECrash (m : nat)                       (* the process of [m] ends without running its destructors *)
| EInt (m : nat).                        (* internal step *)

(** The time when port [p] was last marked as reserved, 0 if it never was or was released
    since. *)
Definition stamp (p : nat) (tr : list event) : N :=
  fold_left (fun t e => match e with
    | EReserved _ q n | EOccupied _ q n | EUndo _ q n => if Nat.eqb q p then n else t
    | EReleased _ q => if Nat.eqb q p then 0%N else t
    | _ => t
    end) tr 0%N.
(** [m] was given port [p] and has neither released it nor crashed. *)
Definition holds (m p : nat) (tr : list event) : bool :=
  fold_left (fun h e => match e with
    | EReserved m2 q _ => if Nat.eqb m2 m && Nat.eqb q p then true else h
    | EReleased m2 q => if Nat.eqb m2 m && Nat.eqb q p then false else h
    | ECrash m2 => if Nat.eqb m2 m then false else h
    | _ => h
    end) tr false.
(** The start or end of a ReservePort call of [m]. *)
Definition bound (m : nat) (e : event) : bool :=
  match e with
  | EBegin m2 _ _ | EReserved m2 _ _ | EExhausted m2 | ECrash m2 => Nat.eqb m2 m
  | _ => false
  end.
(** [m] is in a ReservePort call that began after [tr1] with lists [l] and [r]; [tr2]
    happened since. *)
Definition calling (m : nat) (tr tr1 : list event) (l r : list nat) (tr2 : list event) : Prop :=
  tr = tr1 ++ EBegin m l r :: tr2 /\ forall e, In e tr2 -> bound m e = false.
(** During all of [tr2] port [q]'s mark was [x]. *)
Definition steady (q : nat) (x : N) (tr1 tr2 : list event) : Prop :=
  forall a b, tr2 = a ++ b -> stamp q (tr1 ++ a) = x.
(** An event of a call of [m]. *)
Definition by_m (m : nat) (e : event) : bool :=
  match e with
  | EInt m2 | EReserved m2 _ _ | EExhausted m2 | EOccupied m2 _ _ | EUndo m2 _ _ => Nat.eqb m2 m
  | _ => false
  end.
Definition count (f : event -> bool) (tr : list event) : nat := length (filter f tr).

(** ** netstat *)
Definition substr (a b : str) : Prop := exists u v, b = u ++ a ++ v.
(** [l] is one of the lines of [out]. *)
Definition is_line (l out : str) : Prop :=
  exists u v, out = u ++ l ++ v /\ ~ In 10%N l /\ (u = [] \/ exists u2, u = u2 ++ [10%N]) /\ (v = [] \/ exists v2, v = 10%N :: v2).
(** The decimal numeral of a number. *)
Definition value (s : str) : N := fold_left (fun a c => 10 * a + (c - 48))%N s 0%N.
Definition numeral (p : nat) (s : str) : Prop :=
  Forall (fun c => 48 <= c <= 57)%N s /\ value s = N.of_nat p /\ (s = [48%N] \/ exists c r, s = c :: r /\ c <> 48%N).
Definition time_wait : str := [84; 73; 77; 69; 95; 87; 65; 73; 84]%N.
