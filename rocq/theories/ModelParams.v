(** Model of cdc_rsync/params.cc. *)
From Verif Require Import Base ParamTypes ModelQuote.
Local Open Scope N_scope.
Local Notation str := (list N).

(** Assignments to fields of Parameters. *)
Definition set_delete x (p : params) : params := mkp x (p_recursive p) (p_verbosity p) (p_quiet p) (p_whole_file p) (p_relative p) (p_compress p) (p_checksum p) (p_dry_run p) (p_existing p) (p_json p) (p_copy_dest p) (p_level p) (p_timeout p) (p_ssh p) (p_sftp p) (p_scp p) (p_sources_dir p) (p_filter p) (p_sources p) (p_user_host p) (p_destination p) (p_files_from p).
Definition set_recursive x (p : params) : params := mkp (p_delete p) x (p_verbosity p) (p_quiet p) (p_whole_file p) (p_relative p) (p_compress p) (p_checksum p) (p_dry_run p) (p_existing p) (p_json p) (p_copy_dest p) (p_level p) (p_timeout p) (p_ssh p) (p_sftp p) (p_scp p) (p_sources_dir p) (p_filter p) (p_sources p) (p_user_host p) (p_destination p) (p_files_from p).
Definition set_verbosity x (p : params) : params := mkp (p_delete p) (p_recursive p) x (p_quiet p) (p_whole_file p) (p_relative p) (p_compress p) (p_checksum p) (p_dry_run p) (p_existing p) (p_json p) (p_copy_dest p) (p_level p) (p_timeout p) (p_ssh p) (p_sftp p) (p_scp p) (p_sources_dir p) (p_filter p) (p_sources p) (p_user_host p) (p_destination p) (p_files_from p).
Definition set_quiet x (p : params) : params := mkp (p_delete p) (p_recursive p) (p_verbosity p) x (p_whole_file p) (p_relative p) (p_compress p) (p_checksum p) (p_dry_run p) (p_existing p) (p_json p) (p_copy_dest p) (p_level p) (p_timeout p) (p_ssh p) (p_sftp p) (p_scp p) (p_sources_dir p) (p_filter p) (p_sources p) (p_user_host p) (p_destination p) (p_files_from p).
Definition set_whole_file x (p : params) : params := mkp (p_delete p) (p_recursive p) (p_verbosity p) (p_quiet p) x (p_relative p) (p_compress p) (p_checksum p) (p_dry_run p) (p_existing p) (p_json p) (p_copy_dest p) (p_level p) (p_timeout p) (p_ssh p) (p_sftp p) (p_scp p) (p_sources_dir p) (p_filter p) (p_sources p) (p_user_host p) (p_destination p) (p_files_from p).
Definition set_relative x (p : params) : params := mkp (p_delete p) (p_recursive p) (p_verbosity p) (p_quiet p) (p_whole_file p) x (p_compress p) (p_checksum p) (p_dry_run p) (p_existing p) (p_json p) (p_copy_dest p) (p_level p) (p_timeout p) (p_ssh p) (p_sftp p) (p_scp p) (p_sources_dir p) (p_filter p) (p_sources p) (p_user_host p) (p_destination p) (p_files_from p).
Definition set_compress x (p : params) : params := mkp (p_delete p) (p_recursive p) (p_verbosity p) (p_quiet p) (p_whole_file p) (p_relative p) x (p_checksum p) (p_dry_run p) (p_existing p) (p_json p) (p_copy_dest p) (p_level p) (p_timeout p) (p_ssh p) (p_sftp p) (p_scp p) (p_sources_dir p) (p_filter p) (p_sources p) (p_user_host p) (p_destination p) (p_files_from p).
Definition set_checksum x (p : params) : params := mkp (p_delete p) (p_recursive p) (p_verbosity p) (p_quiet p) (p_whole_file p) (p_relative p) (p_compress p) x (p_dry_run p) (p_existing p) (p_json p) (p_copy_dest p) (p_level p) (p_timeout p) (p_ssh p) (p_sftp p) (p_scp p) (p_sources_dir p) (p_filter p) (p_sources p) (p_user_host p) (p_destination p) (p_files_from p).
Definition set_dry_run x (p : params) : params := mkp (p_delete p) (p_recursive p) (p_verbosity p) (p_quiet p) (p_whole_file p) (p_relative p) (p_compress p) (p_checksum p) x (p_existing p) (p_json p) (p_copy_dest p) (p_level p) (p_timeout p) (p_ssh p) (p_sftp p) (p_scp p) (p_sources_dir p) (p_filter p) (p_sources p) (p_user_host p) (p_destination p) (p_files_from p).
Definition set_existing x (p : params) : params := mkp (p_delete p) (p_recursive p) (p_verbosity p) (p_quiet p) (p_whole_file p) (p_relative p) (p_compress p) (p_checksum p) (p_dry_run p) x (p_json p) (p_copy_dest p) (p_level p) (p_timeout p) (p_ssh p) (p_sftp p) (p_scp p) (p_sources_dir p) (p_filter p) (p_sources p) (p_user_host p) (p_destination p) (p_files_from p).
Definition set_json x (p : params) : params := mkp (p_delete p) (p_recursive p) (p_verbosity p) (p_quiet p) (p_whole_file p) (p_relative p) (p_compress p) (p_checksum p) (p_dry_run p) (p_existing p) x (p_copy_dest p) (p_level p) (p_timeout p) (p_ssh p) (p_sftp p) (p_scp p) (p_sources_dir p) (p_filter p) (p_sources p) (p_user_host p) (p_destination p) (p_files_from p).
Definition set_copy_dest x (p : params) : params := mkp (p_delete p) (p_recursive p) (p_verbosity p) (p_quiet p) (p_whole_file p) (p_relative p) (p_compress p) (p_checksum p) (p_dry_run p) (p_existing p) (p_json p) x (p_level p) (p_timeout p) (p_ssh p) (p_sftp p) (p_scp p) (p_sources_dir p) (p_filter p) (p_sources p) (p_user_host p) (p_destination p) (p_files_from p).
Definition set_level x (p : params) : params := mkp (p_delete p) (p_recursive p) (p_verbosity p) (p_quiet p) (p_whole_file p) (p_relative p) (p_compress p) (p_checksum p) (p_dry_run p) (p_existing p) (p_json p) (p_copy_dest p) x (p_timeout p) (p_ssh p) (p_sftp p) (p_scp p) (p_sources_dir p) (p_filter p) (p_sources p) (p_user_host p) (p_destination p) (p_files_from p).
Definition set_timeout x (p : params) : params := mkp (p_delete p) (p_recursive p) (p_verbosity p) (p_quiet p) (p_whole_file p) (p_relative p) (p_compress p) (p_checksum p) (p_dry_run p) (p_existing p) (p_json p) (p_copy_dest p) (p_level p) x (p_ssh p) (p_sftp p) (p_scp p) (p_sources_dir p) (p_filter p) (p_sources p) (p_user_host p) (p_destination p) (p_files_from p).
Definition set_ssh x (p : params) : params := mkp (p_delete p) (p_recursive p) (p_verbosity p) (p_quiet p) (p_whole_file p) (p_relative p) (p_compress p) (p_checksum p) (p_dry_run p) (p_existing p) (p_json p) (p_copy_dest p) (p_level p) (p_timeout p) x (p_sftp p) (p_scp p) (p_sources_dir p) (p_filter p) (p_sources p) (p_user_host p) (p_destination p) (p_files_from p).
Definition set_sftp x (p : params) : params := mkp (p_delete p) (p_recursive p) (p_verbosity p) (p_quiet p) (p_whole_file p) (p_relative p) (p_compress p) (p_checksum p) (p_dry_run p) (p_existing p) (p_json p) (p_copy_dest p) (p_level p) (p_timeout p) (p_ssh p) x (p_scp p) (p_sources_dir p) (p_filter p) (p_sources p) (p_user_host p) (p_destination p) (p_files_from p).
Definition set_scp x (p : params) : params := mkp (p_delete p) (p_recursive p) (p_verbosity p) (p_quiet p) (p_whole_file p) (p_relative p) (p_compress p) (p_checksum p) (p_dry_run p) (p_existing p) (p_json p) (p_copy_dest p) (p_level p) (p_timeout p) (p_ssh p) (p_sftp p) x (p_sources_dir p) (p_filter p) (p_sources p) (p_user_host p) (p_destination p) (p_files_from p).
Definition set_sources_dir x (p : params) : params := mkp (p_delete p) (p_recursive p) (p_verbosity p) (p_quiet p) (p_whole_file p) (p_relative p) (p_compress p) (p_checksum p) (p_dry_run p) (p_existing p) (p_json p) (p_copy_dest p) (p_level p) (p_timeout p) (p_ssh p) (p_sftp p) (p_scp p) x (p_filter p) (p_sources p) (p_user_host p) (p_destination p) (p_files_from p).
Definition set_filter x (p : params) : params := mkp (p_delete p) (p_recursive p) (p_verbosity p) (p_quiet p) (p_whole_file p) (p_relative p) (p_compress p) (p_checksum p) (p_dry_run p) (p_existing p) (p_json p) (p_copy_dest p) (p_level p) (p_timeout p) (p_ssh p) (p_sftp p) (p_scp p) (p_sources_dir p) x (p_sources p) (p_user_host p) (p_destination p) (p_files_from p).
Definition set_sources x (p : params) : params := mkp (p_delete p) (p_recursive p) (p_verbosity p) (p_quiet p) (p_whole_file p) (p_relative p) (p_compress p) (p_checksum p) (p_dry_run p) (p_existing p) (p_json p) (p_copy_dest p) (p_level p) (p_timeout p) (p_ssh p) (p_sftp p) (p_scp p) (p_sources_dir p) (p_filter p) x (p_user_host p) (p_destination p) (p_files_from p).
Definition set_user_host x (p : params) : params := mkp (p_delete p) (p_recursive p) (p_verbosity p) (p_quiet p) (p_whole_file p) (p_relative p) (p_compress p) (p_checksum p) (p_dry_run p) (p_existing p) (p_json p) (p_copy_dest p) (p_level p) (p_timeout p) (p_ssh p) (p_sftp p) (p_scp p) (p_sources_dir p) (p_filter p) (p_sources p) x (p_destination p) (p_files_from p).
Definition set_destination x (p : params) : params := mkp (p_delete p) (p_recursive p) (p_verbosity p) (p_quiet p) (p_whole_file p) (p_relative p) (p_compress p) (p_checksum p) (p_dry_run p) (p_existing p) (p_json p) (p_copy_dest p) (p_level p) (p_timeout p) (p_ssh p) (p_sftp p) (p_scp p) (p_sources_dir p) (p_filter p) (p_sources p) (p_user_host p) x (p_files_from p).
Definition set_files_from x (p : params) : params := mkp (p_delete p) (p_recursive p) (p_verbosity p) (p_quiet p) (p_whole_file p) (p_relative p) (p_compress p) (p_checksum p) (p_dry_run p) (p_existing p) (p_json p) (p_copy_dest p) (p_level p) (p_timeout p) (p_ssh p) (p_sftp p) (p_scp p) (p_sources_dir p) (p_filter p) (p_sources p) (p_user_host p) (p_destination p) x.

Definition eqb (a b : str) : bool := if list_eq_dec N.eq_dec a b then true else false.

(** absl::StrSplit with ByNewline (common/path.cc:121-133, 905): a carriage return before
    the newline belongs to the delimiter; [cur]: the line so far. *)
Fixpoint split_lines (cur s : str) : list str :=
  match s with
  | [] => [cur]
  | c :: r => if c =? 10 then (match rev cur with 13 :: _ => removelast cur | _ => cur end) :: split_lines [] r
              else split_lines (cur ++ [c]) r
  end.
(** absl::StripAsciiWhitespace. *)
Definition is_space (c : N) : bool := (c =? 32) || (c =? 9) || (c =? 10) || (c =? 11) || (c =? 12) || (c =? 13).
Fixpoint strip_leading (s : str) : str := match s with c :: r => if is_space c then strip_leading r else s | [] => [] end.
Definition strip (s : str) : str := rev (strip_leading (rev (strip_leading s))).
(** path::ReadAllLines with kRemoveEmpty | kTrimWhitespace (common/path.cc:894-921). *)
Definition read_all_lines (w : world) (f : str) : option (list str) :=
  match w_file w f with
  | Some data => Some (filter (fun l => negb (eqb l [])) (map strip (split_lines [] data)))
  | None => None
  end.

(** OptionResult (params.cc:39). *)
Inductive option_result : Type := ConsumedKey | ConsumedKeyValue | Err.
(** HandleFilterRuleFile (103-122). *)
Definition handle_filter_rule_file (w : world) (path : str) (include : bool) (p : params) : option_result * params :=
  match read_all_lines w path with
  | None => (Err, p)
  | Some patterns => (ConsumedKeyValue, set_filter (p_filter p ++ map (fun x => (include, x)) patterns) p)
  end.
(** ValidateValue (94-100) before an option with a value. *)
Definition with_value (value : option str) (p : params) (f : str -> option_result * params) : option_result * params :=
  match value with None => (Err, p) | Some v => f v end.
(** key == "..." *)
Definition is (key : str) (s : String.string) : bool := eqb key (lit s).
Arguments is key s%string.
(** HandleParameter (168-320); [help] is returned separately. *)
Definition handle_parameter (w : world) (key : str) (value : option str) (p : params) (help : bool) : (option_result * params) * bool :=
  if is key "delete" then ((ConsumedKey, set_delete true p), help)
  else if is key "r" || is key "recursive" then ((ConsumedKey, set_recursive true p), help)
  else if is key "v" || is key "verbosity" then ((ConsumedKey, set_verbosity (S (p_verbosity p)) p), help)
  else if is key "q" || is key "quiet" then ((ConsumedKey, set_quiet true p), help)
  else if is key "W" || is key "whole-file" then ((ConsumedKey, set_whole_file true p), help)
  else if is key "include" then (with_value value p (fun v => (ConsumedKeyValue, set_filter (p_filter p ++ [(true, v)]) p)), help)
  else if is key "include-from" then (with_value value p (fun v => handle_filter_rule_file w v true p), help)
  else if is key "exclude" then (with_value value p (fun v => (ConsumedKeyValue, set_filter (p_filter p ++ [(false, v)]) p)), help)
  else if is key "exclude-from" then (with_value value p (fun v => handle_filter_rule_file w v false p), help)
  else if is key "files-from" then (with_value value p (fun v => (ConsumedKeyValue, set_files_from v (set_relative true p))), help)
  else if is key "R" || is key "relative" then ((ConsumedKey, set_relative true p), help)
  else if is key "z" || is key "compress" then ((ConsumedKey, set_compress true p), help)
  else if is key "compress-level" then (with_value value p (fun v => (ConsumedKeyValue, set_level (w_atoi w v) p)), help)
  else if is key "contimeout" then (with_value value p (fun v => (ConsumedKeyValue, set_timeout (w_atoi w v) p)), help)
  else if is key "h" || is key "help" then ((ConsumedKey, p), true)
  else if is key "c" || is key "checksum" then ((ConsumedKey, set_checksum true p), help)
  else if is key "n" || is key "dry-run" then ((ConsumedKey, set_dry_run true p), help)
  else if is key "existing" then ((ConsumedKey, set_existing true p), help)
  else if is key "copy-dest" then (with_value value p (fun v => (ConsumedKeyValue, set_copy_dest v p)), help)
  else if is key "json" then ((ConsumedKey, set_json true p), help)
  else if is key "ssh-command" then (with_value value p (fun v => (ConsumedKeyValue, set_ssh v p)), help)
  else if is key "scp-command" then (with_value value p (fun v => (ConsumedKeyValue, set_scp v p)), help)
  else if is key "sftp-command" then (with_value value p (fun v => (ConsumedKeyValue, set_sftp v p)), help)
  else if is key "forward-port" then ((ConsumedKeyValue, p), help)
  else ((Err, p), help).
(** CheckOptionResult (377-392). *)
Definition check_option_result (r : option_result) (value : option str) : bool :=
  match r with
  | ConsumedKey => true
  | ConsumedKeyValue => match value with Some _ => true | None => false end
  | Err => false
  end.

(** key.find("=") (437): the parts before and after. *)
Fixpoint find_equals (s : str) : option (str * str) :=
  match s with
  | [] => None
  | c :: r => if c =? 61 then Some ([], r) else match find_equals r with Some (a, b) => Some (c :: a, b) | None => None end
  end.
(** The loop over '-abc' (463-476). *)
Fixpoint short_options (w : world) (cs : str) (p : params) (help : bool) : option (params * bool) :=
  match cs with
  | [] => Some (p, help)
  | c :: r =>
      let '(result, p1, help1) := handle_parameter w [c] None p help in
      if check_option_result result None then short_options w r p1 help1 else None
  end.
(** The loop over the arguments (429-485). *)
Fixpoint parse_loop (w : world) (argv : list str) (p : params) (help : bool) : option (params * bool) :=
  match argv with
  | [] => Some (p, help)
  | (45 :: 45 :: key) :: rest =>
      match find_equals key with
      | Some (k, v) =>
          let value := match v with [] => None | _ => Some v end in
          let '(result, p1, help1) := handle_parameter w k value p help in
          if check_option_result result value then parse_loop w rest p1 help1 else None
      | None =>
          match rest with
          | next :: rest2 =>
              let value := match next with 45 :: _ => None | _ => Some next end in
              let '(result, p1, help1) := handle_parameter w key value p help in
              if check_option_result result value
              then match result with ConsumedKeyValue => parse_loop w rest2 p1 help1 | _ => parse_loop w rest p1 help1 end
              else None
          | [] =>
              let '(result, p1, help1) := handle_parameter w key None p help in
              if check_option_result result None then Some (p1, help1) else None
          end
      end
  | (45 :: cs) :: rest =>
      match short_options w cs p help with Some (p1, help1) => parse_loop w rest p1 help1 | None => None end
  | s :: rest =>
      let p1 := match p_destination p with [] => p | d => set_sources (p_sources p ++ [d]) p end in
      parse_loop w rest (set_destination s p1) help
  end.

(** path::EnsureEndsWithPathSeparator on Windows (common/path.cc:445-454). *)
Definition ensure_ends (d : str) : str :=
  if match d with [] => false | _ => (last d 0 =? 92) || (last d 0 =? 47) end then d else d ++ [92].
(** LoadFilesFrom (128-166). *)
Definition load_files_from (w : world) (p : params) : option params :=
  let load dir := match read_all_lines w (p_files_from p) with
                  | Some lines => Some (set_sources lines (set_sources_dir dir p))
                  | None => None
                  end in
  match p_sources p with
  | [] => load []
  | [d] => if w_is_dir w d then load (match d with [] => [] | _ => ensure_ends d end) else None
  | _ => None
  end.

(** std::string::find of a character from a position; None: npos. *)
Fixpoint find_char (c : N) (s : str) : option nat :=
  match s with
  | [] => None
  | d :: r => if d =? c then Some 0%nat else match find_char c r with Some n => Some (S n) | None => None end
  end.
Definition find_from (c : N) (s : str) (pos : nat) : option nat :=
  match find_char c (skipn pos s) with Some n => Some (pos + n)%nat | None => None end.
(** GetDrivePrefix (common/path.cc:290-329). *)
Definition get_drive_prefix (path : str) : str :=
  match path with
  | [] => []
  | c0 :: r =>
      if negb (c0 =? 92) then
        match find_from 58 path 0 with Some 1%nat => firstn 2 path | _ => [] end
      else match r with
           | [] => []
           | c1 :: _ =>
               if negb (c1 =? 92) then []
               else match find_from 92 path 2 with
                    | None => []
                    | Some third =>
                        if (third <? 3)%nat || (length path =? third + 1)%nat then []
                        else match find_from 92 path (third + 1) with
                             | None => path
                             | Some fourth => if (fourth <? third + 2)%nat then [] else firstn fourth path
                             end
                    end
           end
  end.
(** PopUserHost (398-411); absl::StrSplit with MaxSplits(':', 1). *)
Definition pop_user_host (p : params) : params :=
  match get_drive_prefix (p_destination p) with
  | _ :: _ => set_user_host [] p
  | [] => match find_char 58 (p_destination p) with
          | None => set_user_host [] p
          | Some n => set_user_host (firstn n (p_destination p)) (set_destination (skipn (S n) (p_destination p)) p)
          end
  end.
(** ValidateParameters (322-375). *)
Definition validate_parameters (p : params) (help : bool) : parsed :=
  if help then Helped
  else if p_delete p && negb (p_recursive p) then Rejected
  else if ((p_level p <? -5)%Z || (22 <? p_level p)%Z || (p_level p =? 0)%Z) then Rejected
  else match p_sources p, p_destination p with
       | [], [] => Rejected
       | _, [] => Rejected
       | [], _ => Rejected
       | _, _ => Accepted p
       end.
(** Initial values (cdc_rsync_client.h:40-63) and PopulateFromEnvVars (82-91). *)
Definition initial (w : world) : params :=
  mkp false false 0 false false false false false false false false [] 6%Z 10%Z (w_env_ssh w) (w_env_sftp w) (w_env_scp w) [] [] [] [] [] [].
(** Parse (421-516); [argv] without the program's name. *)
Definition parse (w : world) (argv : list str) : parsed :=
  match argv with
  | [] => Helped
  | _ =>
      match parse_loop w argv (initial w) false with
      | None => Rejected
      | Some (p, help) =>
          match (match p_files_from p with [] => Some p | _ => load_files_from w p end) with
          | None => Rejected
          | Some p1 =>
              let p2 := pop_user_host p1 in
              let p3 := match p_sftp p2, p_scp p2 with [], _ :: _ => set_sftp (scp_to_sftp (p_scp p2)) p2 | _, _ => p2 end in
              validate_parameters p3 help
          end
      end
  end.
