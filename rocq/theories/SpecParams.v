(** Specification for C54: what a command line of cdc_rsync means. *)
From Verif Require Import Base ParamTypes SpecQuote.
Local Open Scope N_scope.
Local Notation str := (list N).

(** * Command lines as lists of items (the options of the help text) *)
Inductive flag : Type := Delete | Recursive | Verbose | Quiet | WholeFile | Relative | Compress | Help | Checksum | DryRun | Existing | Json.
Inductive opt : Type := Exclude | ExcludeFrom | Include | IncludeFrom | FilesFrom | CompressLevel | ConTimeout | CopyDest
  | SshCommand | ScpCommand | SftpCommand | ForwardPort.
Inductive item : Type := Flag (f : flag) | Opt (o : opt) (v : str) | Arg (s : str).
Definition flag_eq_dec (a b : flag) : {a = b} + {a <> b}. Proof. decide equality. Defined.
Definition opt_eq_dec (a b : opt) : {a = b} + {a <> b}. Proof. decide equality. Defined.

(** Their names.  (The help text says --verbose, see C54_verbose_refuted.) *)
Definition long (f : flag) : str :=
  match f with
  | Delete => lit "delete" | Recursive => lit "recursive" | Verbose => lit "verbosity" | Quiet => lit "quiet"
  | WholeFile => lit "whole-file" | Relative => lit "relative" | Compress => lit "compress" | Help => lit "help"
  | Checksum => lit "checksum" | DryRun => lit "dry-run" | Existing => lit "existing" | Json => lit "json"
  end.
Definition short (f : flag) : option N :=
  match f with
  | Recursive => Some 114 | Verbose => Some 118 | Quiet => Some 113 | WholeFile => Some 87 | Relative => Some 82
  | Compress => Some 122 | Help => Some 104 | Checksum => Some 99 | DryRun => Some 110 | Delete | Existing | Json => None
  end.
Definition opt_name (o : opt) : str :=
  match o with
  | Exclude => lit "exclude" | ExcludeFrom => lit "exclude-from" | Include => lit "include" | IncludeFrom => lit "include-from"
  | FilesFrom => lit "files-from" | CompressLevel => lit "compress-level" | ConTimeout => lit "contimeout" | CopyDest => lit "copy-dest"
  | SshCommand => lit "ssh-command" | ScpCommand => lit "scp-command" | SftpCommand => lit "sftp-command" | ForwardPort => lit "forward-port"
  end.
Definition no_dash (s : str) : Prop := match s with c :: _ => c <> 45 | [] => True end.

(** How they are written: --flag, -abc, --name=value, --name value, anything else.
    [lax]: also what is read although it is not documented. *)
Inductive written (lax : bool) : list item -> list str -> Prop :=
| w_nil : written lax [] []
| w_long f l a : written lax l a -> written lax (Flag f :: l) (([45; 45] ++ long f) :: a)
| w_short fs cs l a : fs <> [] -> Forall2 (fun f c => short f = Some c) fs cs -> written lax l a -> written lax (map Flag fs ++ l) ((45 :: cs) :: a)
| w_eq o v l a : v <> [] -> written lax l a -> written lax (Opt o v :: l) (([45; 45] ++ opt_name o ++ 61 :: v) :: a)
| w_sep o v l a : no_dash v -> written lax l a -> written lax (Opt o v :: l) (([45; 45] ++ opt_name o) :: v :: a)
| w_arg s l a : no_dash s -> written lax l a -> written lax (Arg s :: l) (s :: a)
(* a short name after two dashes *)
| w_long_short f c l a : lax = true -> short f = Some c -> written lax l a -> written lax (Flag f :: l) ([45; 45; c] :: a)
(* a value for a flag: ignored *)
| w_long_value f v l a : lax = true -> written lax l a -> written lax (Flag f :: l) (([45; 45] ++ long f ++ 61 :: v) :: a)
| w_long_short_value f c v l a : lax = true -> short f = Some c -> written lax l a -> written lax (Flag f :: l) (([45; 45; c] ++ 61 :: v) :: a)
(* one dash: ignored *)
| w_dash l a : lax = true -> written lax l a -> written lax l ([45] :: a).

(** * What they mean *)
Definition given (f : flag) (l : list item) : bool :=
  existsb (fun i => match i with Flag g => if flag_eq_dec f g then true else false | _ => false end) l.
Definition times (f : flag) (l : list item) : nat :=
  length (filter (fun i => match i with Flag g => if flag_eq_dec f g then true else false | _ => false end) l).
Definition values (o : opt) (l : list item) : list str :=
  flat_map (fun i => match i with Opt p v => if opt_eq_dec o p then [v] else [] | _ => [] end) l.
Definition args (l : list item) : list str := flat_map (fun i => match i with Arg s => [s] | _ => [] end) l.
Definition nonempty (s : str) : bool := match s with [] => false | _ => true end.

(** Files with one entry per line: surrounding white space and empty lines do not count. *)
Definition white (c : N) : bool := ((9 <=? c) && (c <=? 13)) || (c =? 32).
Fixpoint drop_white (s : str) : str := match s with c :: r => if white c then drop_white r else s | [] => [] end.
Definition trim (s : str) : str := rev (drop_white (rev (drop_white s))).
Fixpoint cut (c : N) (s : str) : list str :=
  match s with
  | [] => [[]]
  | d :: r => if d =? c then [] :: cut c r else match cut c r with x :: t => (d :: x) :: t | [] => [] end
  end.
Definition entries (text : str) : list str := filter nonempty (map trim (cut 10 text)).

(** Filter rules in the order in which they were given (true: include). *)
Definition item_rules (w : world) (i : item) : option (list (bool * str)) :=
  let from b f := match w_file w f with Some t => Some (map (pair b) (entries t)) | None => None end in
  match i with
  | Opt Include v => Some [(true, v)]
  | Opt Exclude v => Some [(false, v)]
  | Opt IncludeFrom f => from true f
  | Opt ExcludeFrom f => from false f
  | _ => Some []
  end.
Fixpoint rules (w : world) (l : list item) : option (list (bool * str)) :=
  match l with
  | [] => Some []
  | i :: r => match item_rules w i, rules w r with Some a, Some b => Some (a ++ b) | _, _ => None end
  end.

(** The last argument is the destination, the ones before are the sources; with
    --files-from, the source (at most one, a directory) is where the listed files are. *)
Definition with_separator (d : str) : str := match rev d with c :: _ => if (c =? 92) || (c =? 47) then d else d ++ [92] | [] => d end.
Definition sources (w : world) (l : list item) : option (list str * str) :=
  let given_sources := filter nonempty (removelast (args l)) in
  match last (values FilesFrom l) [] with
  | [] => Some (given_sources, [])
  | f => match given_sources, w_file w f with
         | [], Some t => Some (entries t, [])
         | [d], Some t => if w_is_dir w d then Some (entries t, with_separator d) else None
         | _, _ => None
         end
  end.

(** Destinations: drives (C:...) and network shares (\\computer\share...) are local;
    otherwise the part before the first colon is [user@]host. *)
Definition local (s : str) : bool :=
  match s with
  | 92 :: 92 :: r => match span (fun c => negb (c =? 92)) r with
                     | (_ :: _, _ :: d :: _) => negb (d =? 92)
                     | _ => false
                     end
  | c :: 58 :: _ => negb (c =? 92) && negb (c =? 58)
  | _ => false
  end.
Definition host_and_path (s : str) : str * str :=
  if local s then ([], s) else match span (fun c => negb (c =? 58)) s with (h, _ :: p) => (h, p) | (_, []) => ([], s) end.

(** The sftp command belonging to an scp command (C53). *)
Definition converts (s t : str) : Prop :=
  (exists a b, scp_at a b s /\ (forall a' b', scp_at a' b' s -> (length a <= length a')%nat) /\ t = a ++ lit "sftp" ++ b) \/
  ((forall a b, ~ scp_at a b s) /\ t = []).

Definition expected (convert : str -> str) (w : world) (l : list item) : parsed :=
  match rules w l, sources w l with
  | Some filter_rules, Some (srcs, dir) =>
      let '(host, dst) := host_and_path (last (args l) []) in
      let level := match rev (values CompressLevel l) with v :: _ => w_atoi w v | [] => 6%Z end in
      let scp := last (values ScpCommand l) (w_env_scp w) in
      let sftp := last (values SftpCommand l) (w_env_sftp w) in
      if given Help l then Helped
      else if given Delete l && negb (given Recursive l) then Rejected
      else if ((level <? -5)%Z || (22 <? level)%Z || (level =? 0)%Z) then Rejected
      else if negb (nonempty dst) || (length srcs =? 0)%nat then Rejected
      else Accepted
        {| p_delete := given Delete l; p_recursive := given Recursive l; p_verbosity := times Verbose l; p_quiet := given Quiet l;
           p_whole_file := given WholeFile l; p_relative := given Relative l || negb (length (values FilesFrom l) =? 0)%nat;
           p_compress := given Compress l; p_checksum := given Checksum l; p_dry_run := given DryRun l;
           p_existing := given Existing l; p_json := given Json l; p_copy_dest := last (values CopyDest l) [];
           p_level := level; p_timeout := match rev (values ConTimeout l) with v :: _ => w_atoi w v | [] => 10%Z end;
           p_ssh := last (values SshCommand l) (w_env_ssh w);
           p_sftp := if negb (nonempty sftp) && nonempty scp then convert scp else sftp; p_scp := scp; p_sources_dir := dir;
           p_filter := filter_rules; p_sources := srcs; p_user_host := host; p_destination := dst;
           p_files_from := last (values FilesFrom l) [] |}
  | _, _ => Rejected
  end.
