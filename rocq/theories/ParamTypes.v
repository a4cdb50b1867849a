(** Data of cdc_rsync's command line: cdc_rsync/params.h:30-36,
    cdc_rsync/cdc_rsync_client.h:40-67, and what parsing reads from the system. *)
From Coq Require Ascii String.
From Verif Require Import Base.
Export String.StringSyntax.
Delimit Scope string_scope with string.
Local Notation str := (list N).

(** ASCII literals. *)
Definition lit (s : String.string) : str := map Ascii.N_of_ascii (String.list_ascii_of_string s).
Arguments lit s%string.

(** Parameters and CdcRsyncClient::Options; filter rules are (include?, pattern). *)
Record params : Type := mkp {
  p_delete : bool; p_recursive : bool; p_verbosity : nat; p_quiet : bool; p_whole_file : bool;
  p_relative : bool; p_compress : bool; p_checksum : bool; p_dry_run : bool; p_existing : bool; p_json : bool;
  p_copy_dest : str; p_level : Z; p_timeout : Z; p_ssh : str; p_sftp : str; p_scp : str; p_sources_dir : str;
  p_filter : list (bool * str); p_sources : list str; p_user_host : str; p_destination : str; p_files_from : str }.

(** What Parse returns: true with the parameters, or false after printing the help text
    or an error. *)
Inductive parsed : Type := Helped | Rejected | Accepted (p : params).

(** Contents of files (None: cannot be read), existing directories, atoi, and the
    environment variables CDC_SSH_COMMAND, CDC_SCP_COMMAND, CDC_SFTP_COMMAND (empty if
    not set). *)
Record world : Type := mkworld {
  w_file : str -> option str; w_is_dir : str -> bool; w_atoi : str -> Z;
  w_env_ssh : str; w_env_scp : str; w_env_sftp : str }.
