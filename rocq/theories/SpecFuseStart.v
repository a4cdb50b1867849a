(** Specification for C68: what cdc_fuse_fs prints when it starts on the device (cdc_fuse_fs/main.cc, constants.h). *)
From Verif Require Import Base ModelText SpecOutput.
Local Notation str := (list N).

(** "Port ", " cdc_fuse_fs is up-to-date", "cdc_fuse_fs is not up-to-date", "cdc_fuse_fs is connected" *)
Definition fport : str := [80;111;114;116;32]%N.
Definition up_to_date : str := [32;99;100;99;95;102;117;115;101;95;102;115;32;105;115;32;117;112;45;116;111;45;100;97;116;101]%N.
Definition not_up_to_date : str := [99;100;99;95;102;117;115;101;95;102;115;32;105;115;32;110;111;116;32;117;112;45;116;111;45;100;97;116;101]%N.
Definition connected_ : str := [99;100;99;95;102;117;115;101;95;102;115;32;105;115;32;99;111;110;110;101;99;116;101;100]%N.
(** What all of these lines share. *)
Definition fuse_is : str := (* "cdc_fuse_fs is " *) [99;100;99;95;102;117;115;101;95;102;115;32;105;115;32]%N.

(** main: not up to date; up to date, listening on port p. *)
Definition says_old : str := not_up_to_date ++ [10%N].
Definition says_port (p : N) : str := fport ++ print_dec p ++ up_to_date ++ [10%N].
Definition says_connected : str := connected_ ++ [10%N].
(** Lines of the login shell that do not look like these. *)
Definition harmless (noise : str) : Prop := ~ occurs fport noise /\ ~ occurs fuse_is noise.
