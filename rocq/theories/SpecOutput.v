(** Specification for C66: what the client reads from the output of cdc_rsync_server, which arrives
    through ssh as one stream, in pieces of any size. *)
From Verif Require Import Base ModelText.
Local Notation str := (list N).

Definition marker : N := 30.  (* 0x1e, base/server_exit_code.h *)
(** "Server is listening", "Port ", ": " *)
Definition listening : str := [83;101;114;118;101;114;32;105;115;32;108;105;115;116;101;110;105;110;103]%N.
Definition port_ : str := [80;111;114;116;32]%N.
Definition colon : str := [58;32]%N.
Definition announcement (p : N) : str := port_ ++ print_dec p ++ colon ++ listening ++ [10%N].

(** What is behind an odd number of markers is an error message, the rest is not. *)
Fixpoint error_text (inside : bool) (s : str) : str :=
  match s with
  | [] => []
  | c :: r => if (c =? marker)%N then error_text (negb inside) r
              else if inside then c :: error_text inside r else error_text inside r
  end.
Fixpoint plain_text (inside : bool) (s : str) : str :=
  match s with
  | [] => []
  | c :: r => if (c =? marker)%N then plain_text (negb inside) r
              else if inside then plain_text inside r else c :: plain_text inside r
  end.
Fixpoint ends_inside (inside : bool) (s : str) : bool :=
  match s with
  | [] => inside
  | c :: r => ends_inside (if (c =? marker)%N then negb inside else inside) r
  end.
(** [w] occurs in [s] *)
Definition occurs (w s : str) : Prop := exists a b, s = a ++ w ++ b.
