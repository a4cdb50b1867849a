From Verif Require Import Base ModelPump.
Local Open Scope N_scope.

(** The packets whose SendMessage call returned OK, and the packets handed out
    by ReceiveMessage, read off the observable events of an execution. *)
Fixpoint sent_ok (ls : list label) (es : list event) : list packet :=
  match ls, es with
  | LQueue p :: ls, ReturnOk :: es => p :: sent_ok ls es
  | _ :: ls, _ :: es => sent_ok ls es
  | _, _ => []
  end.

Fixpoint received_ok (es : list event) : list packet :=
  match es with
  | ReturnPacket p :: es => p :: received_ok es
  | _ :: es => received_ok es
  | [] => []
  end.

Definition prefix {A} (l1 l2 : list A) : Prop := exists t, l2 = l1 ++ t.

(** Decoding a whole byte stream. *)
Fixpoint decode_all (fuel : nat) (w : bytes) : option (list packet) :=
  match w with
  | [] => Some []
  | _ =>
      match fuel with
      | O => None
      | S f =>
          match receive_packet w with
          | Got p r => match decode_all f r with Some ps => Some (p :: ps) | None => None end
          | _ => None
          end
      end
  end.

Definition valid_packet (p : packet) : Prop :=
  fst p < 12 /\ blen (snd p) <= 2 ^ 24 - 1.

(** Packet types used by callers are enumerators of PacketType. *)
Definition typed_label (l : label) : Prop :=
  match l with LQueue p => fst p < 12 | _ => True end.

(** Bytes the queues hold according to their contents. *)
Fixpoint total_bytes (q : list bytes) : N :=
  match q with [] => 0 | b :: q => blen b + total_bytes q end.
Fixpoint total_packets (q : list packet) : N :=
  match q with [] => 0 | p :: q => 4 + blen (snd p) + total_packets q end.
