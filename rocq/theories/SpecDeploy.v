(** Specification for C67: a remote home directory, as sftp sees it. *)
From Verif Require Import Base.
Local Notation str := (list N).
Local Notation path := (list (list N)).

(** A file: contents, time, permissions. *)
Record file : Type := mkf { f_data : str; f_time : N; f_mode : N }.
Inductive node : Type := Dir | File (f : file).
Definition fs : Type := path -> option node.
Definition put_node (s : fs) (p : path) (x : option node) : fs :=
  fun q => if list_eq_dec (list_eq_dec N.eq_dec) q p then x else s q.

(** Executable: 0755. *)
Definition x755 : N := 493.
(** The directories [ds] below the home directory are there, or nothing is in their way. *)
Definition clear_way (s : fs) (ds : path) : Prop :=
  s [] = Some Dir /\
  forall n, (n <= length ds)%nat -> s (firstn n ds) = Some Dir \/ (forall m, (n <= m <= length ds)%nat -> s (firstn m ds) = None).
(** Nothing but the directories [ds], the file [p] and temporary files [t] may differ. *)
Definition only_changes (s s2 : fs) (ds p t : path) : Prop :=
  forall q, q <> p -> q <> t -> (forall n, q <> firstn n ds) -> s2 q = s q.
(** Where the tools are expected, below the home directory of the remote device. *)
Definition tools_linux : path := (* .cache, cdc-file-transfer, bin *)
  [[46;99;97;99;104;101]%N; [99;100;99;45;102;105;108;101;45;116;114;97;110;115;102;101;114]%N; [98;105;110]%N].
Definition tools_windows : path := (* AppData, Roaming, cdc-file-transfer, bin *)
  [[65;112;112;68;97;116;97]%N; [82;111;97;109;105;110;103]%N; [99;100;99;45;102;105;108;101;45;116;114;97;110;115;102;101;114]%N; [98;105;110]%N].
Definition rsync_server : str := (* cdc_rsync_server *) [99;100;99;95;114;115;121;110;99;95;115;101;114;118;101;114]%N.
Definition rsync_server_exe : str := (* cdc_rsync_server.exe *) [99;100;99;95;114;115;121;110;99;95;115;101;114;118;101;114;46;101;120;101]%N.
Definition cdc_fuse : str := (* cdc_fuse_fs *) [99;100;99;95;102;117;115;101;95;102;115]%N.
Definition libfuse : str := (* libfuse.so *) [108;105;98;102;117;115;101;46;115;111]%N.
