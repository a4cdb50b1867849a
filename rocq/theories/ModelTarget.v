(** Model of cdc_stream's start and stop commands: start_command.cc, stop_command.cc,
    local_assets_stream_manager_client.cc and local_assets_stream_manager_service_impl.cc, on
    top of the session manager of C56. gRPC delivers requests unchanged; that the service is
    started when it is not running is not modelled. *)
From Verif Require Import Base ParamTypes SpecSessions ModelSessions.
Local Notation str := (list N).
Local Open Scope N_scope.

(** absl::StrSplit(s, MaxSplits(':', 1)): None if there is no ':'. *)
Fixpoint split_colon (s : str) : option (str * str) :=
  match s with
  | [] => None
  | c :: r => if c =? 58 then Some ([], r) else match split_colon r with Some (a, b) => Some (c :: a, b) | None => None end
  end.
(** toupper of a char in the C locale *)
Definition toupper (c : N) : N := if (97 <=? c) && (c <=? 122) then c - 32 else c.
(** ParseUserHostDir (local_assets_stream_manager_client.cc:66-85). *)
Definition parse_target (s : str) : option (str * str) :=
  match split_colon s with
  | None => None
  | Some (host, dir) =>
      match host with
      | [c] => if (65 <=? toupper c) && (toupper c <=? 90) then None else Some (host, dir)
      | _ => Some (host, dir)
      end
  end.

(** absl::StrSplit(s, '/') *)
Fixpoint split_slash (cur s : str) : list str :=
  match s with
  | [] => [cur]
  | c :: r => if c =? 47 then cur :: split_slash [] r else split_slash (cur ++ [c]) r
  end.
Definition empty (s : str) : bool := match s with [] => true | _ => false end.
(** ParseInstanceName (local_assets_stream_manager_service_impl.cc:48-66): organization, project
    and instance. *)
Definition parse_instance_name (name : str) : option (str * str * str) :=
  match split_slash [] name with
  | [p0; p1; p2; p3; p4; p5; p6; p7; p8; p9] =>
      if negb (seqb p0 (lit "organizations")) || empty p1 then None
      else if negb (seqb p2 (lit "projects")) || empty p3 then None
      else if negb (seqb p4 (lit "pools")) || empty p5 then None
      else if negb (seqb p6 (lit "gamelets")) || empty p7 || empty p8 || empty p9 then None
      else Some (p1, p3, p7 ++ 47 :: p8 ++ 47 :: p9)
  | _ => None
  end.

(** std::getline until the end. *)
Fixpoint getlines (cur s : str) : list str :=
  match s with
  | [] => match cur with [] => [] | _ => [cur] end
  | c :: r => if c =? 10 then cur :: getlines [] r else getlines (cur ++ [c]) r
  end.
Definition isspace (c : N) : bool := (c =? 32) || ((9 <=? c) && (c <=? 13)).
Fixpoint skip_space (s : str) : str := match s with c :: r => if isspace c then skip_space r else s | [] => [] end.
Fixpoint starts (p s : str) : option str :=
  match p, s with
  | [], _ => Some s
  | a :: p', b :: s' => if a =? b then starts p' s' else None
  | _ :: _, [] => None
  end.
(** ParseValue (71-92). *)
Fixpoint parse_lines (ls : list str) (key : str) : option str :=
  match ls with
  | [] => None
  | l :: r => match starts (key ++ [58]) l with
              | Some rest => Some (rev (skip_space (rev (skip_space rest))))
              | None => parse_lines r key
              end
  end.
Definition parse_value (data key : str) : option str := parse_lines (getlines [] data) key.

(** StartSessionRequest, StopSessionRequest: the fields that matter here. *)
Record start_request := mkstart { q_dir : str; q_gamelet : str; q_host : str; q_mount : str }.
Record stop_request := mkstop { q_stop_gamelet : str; q_stop_host : str; q_stop_mount : str }.

Section Cli.
Variable key : str -> str.
(** Whether, and with which host, 'ggp ssh init' succeeds for an instance. *)
Variable ssh : str -> option str.

(** GetTarget, GetTargetForStadia: instance id and user_host (204-240). *)
Definition get_target (q : start_request) : option (str * str) :=
  match q_gamelet q with
  | [] => Some (q_host q ++ 58 :: q_mount q, q_host q)
  | _ => match parse_instance_name (q_gamelet q) with
         | None => None
         | Some (_, _, i) => match ssh i with Some ip => Some (i, lit "cloudcast@" ++ ip) | None => None end
         end
  end.
(** StartSession, StartSessionInternal (113-145, 166-202). *)
Definition service_start (e : env) (q : start_request) (t : table) : answer * table :=
  if Bool.eqb (empty (q_gamelet q)) (empty (q_host q)) then (AError, t)
  else if empty (q_mount q) then (AError, t)
  else match get_target q with
       | None => (AError, t)
       | Some (i, _) => perform key e (Start i (q_dir q)) t
       end.
(** StopSession (147-164). *)
Definition service_stop (e : env) (q : stop_request) (t : table) : answer * table :=
  perform key e (Stop (if negb (empty (q_stop_gamelet q)) then q_stop_gamelet q else q_stop_host q ++ 58 :: q_stop_mount q)) t.

(** StartCommand::Run (start_command.cc:112-164). *)
Definition cli_start (e : env) (dir target : str) (t : table) : answer * table :=
  match parse_target target with
  | None => (AError, t)
  | Some (host, mount) => service_start e (mkstart dir [] host mount) t
  end.
(** StopCommand::Run (stop_command.cc:61-88). *)
Definition cli_stop (e : env) (target : str) (t : table) : answer * table :=
  if seqb target [42] then service_stop e (mkstop [] [42] [42]) t
  else match parse_target target with
       | None => (AError, t)
       | Some (host, mount) => service_stop e (mkstop [] host mount) t
       end.
End Cli.
