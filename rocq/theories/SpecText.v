(** Independent descriptions for the text codecs. *)
From Verif Require Import Base ModelText.
Local Open Scope N_scope.

(** The escape-sequence grammar: what is text and what is removed. *)
Definition introducer8 (c : byte) : Prop := c = 0x90 \/ c = 0x9B \/ c = 0x9D.
Definition is_final (c : byte) : Prop := 0x40 <= c <= 0x7E.

(** [opens k intro]: intro starts a sequence of kind k. *)
Inductive opens : ansi_state -> bytes -> Prop :=
| o1 : opens DCS [0x1B; 80] | o2 : opens DCS [0x90]
| o3 : opens CS [0x1B; 91]  | o4 : opens CS [0x9B]
| o5 : opens OSC [0x1B; 93] | o6 : opens OSC [0x9D].

(** [closes k term] *)
Inductive closes : ansi_state -> bytes -> Prop :=
| c1 : closes DCS [0x9C] | c2 : closes DCS [0x1B; 92]
| c3 f : is_final f -> closes CS [f]
| c4 : closes OSC [0x07] | c5 : closes OSC [0x9C] | c6 : closes OSC [0x1B; 92].

(** [body] contains no terminator of kind k, even together with what follows
    (no suffix of body, continued by [tail], starts with a terminator). *)
Definition no_close (k : ansi_state) (body tail : bytes) : Prop :=
  forall b1 b2 t x, body = b1 ++ b2 -> b2 <> [] -> closes k t -> b2 ++ tail <> t ++ x.

(** [ansi input output]: output is input with the sequences taken out; an
    unterminated sequence extends to the end of the input. *)
Inductive ansi : bytes -> bytes -> Prop :=
| ansi_end : ansi [] []
| ansi_text c r o :
    (forall k i x, opens k i -> c :: r <> i ++ x) ->
    ansi r o -> ansi (c :: r) (c :: o)
| ansi_seq k i body t r o :
    opens k i -> closes k t -> no_close k body (t ++ r) ->
    ansi r o -> ansi (i ++ body ++ t ++ r) o
| ansi_open k i body :
    opens k i -> no_close k body [] -> ansi (i ++ body) [].

(** Text that cannot be part of any sequence. *)
Definition plain (s : bytes) : Prop :=
  Forall (fun c => c <> 0x1B /\ ~ introducer8 c) s.

(** Value of a digit string and of a size suffix. *)
Definition digits_value (s : bytes) : N := fold_left (fun a c => 10 * a + (c - 48)) s 0.
Definition all_digits (s : bytes) : Prop := Forall (fun c => 48 <= c <= 57) s.
Inductive suffix_factor : bytes -> N -> Prop :=
| sf_none : suffix_factor [] 1
| sf_b c : c = 98 \/ c = 66 -> suffix_factor [c] 1
| sf_k c : c = 107 \/ c = 75 -> suffix_factor [c] 1024
| sf_m c : c = 109 \/ c = 77 -> suffix_factor [c] (1024 ^ 2)
| sf_g c : c = 103 \/ c = 71 -> suffix_factor [c] (1024 ^ 3)
| sf_t c : c = 116 \/ c = 84 -> suffix_factor [c] (1024 ^ 4)
| sf_p c : c = 112 \/ c = 80 -> suffix_factor [c] (1024 ^ 5).
