(** Specification for C63: where cdc_stream caches the manifest of a directory. *)
From Verif Require Import Base.
Local Notation str := (list N).
Local Open Scope N_scope.

Definition sep (c : N) : Prop := c = 47 \/ c = 92.
(** Two spellings of the same character: itself; slash and backslash; on Windows, upper and
    lower case of an ASCII letter. *)
Definition char_eq (win : bool) (c d : N) : Prop :=
  c = d \/ (sep c /\ sep d) \/ (win = true /\ ((65 <= c <= 90 /\ d = c + 32) \/ (65 <= d <= 90 /\ c = d + 32))).
(** [b] is [a], ending with a separator. *)
Definition with_sep (a b : str) : Prop :=
  (b = a /\ exists r c, a = r ++ [c] /\ sep c) \/ (~ (exists r c, a = r ++ [c] /\ sep c) /\ exists c, sep c /\ b = a ++ [c]).
Definition same_spelling (win : bool) (a b : str) : Prop :=
  exists a2 b2, with_sep a a2 /\ with_sep b b2 /\ Forall2 (char_eq win) a2 b2.

(** Characters that cannot be in a file name: NUL, double quote, star, slash, colon, less,
    greater, question mark, backslash, bar. *)
Definition forbidden (c : N) : Prop := In c [0; 34; 42; 47; 58; 60; 62; 63; 92; 124].

(** UTF-8: the shape of code points, and sequences of them. *)
Definition tail_byte (c : N) : Prop := 128 <= c < 192.
Inductive code_point : str -> Prop :=
| cp1 a : 0 < a < 128 -> code_point [a]
| cp2 a b : 192 <= a < 224 -> tail_byte b -> code_point [a; b]
| cp3 a b c : 224 <= a < 240 -> tail_byte b -> tail_byte c -> code_point [a; b; c]
| cp4 a b c d : 240 <= a < 248 -> tail_byte b -> tail_byte c -> tail_byte d -> code_point [a; b; c; d].
Inductive utf8 : str -> Prop :=
| u_nil : utf8 []
| u_cons p s : code_point p -> utf8 s -> utf8 (p ++ s).
