(** Model of how addresses, commands and machines are recognised: common/url.cc,
    RemoteUtil::ScpToSftpCommand (common/remote_util.cc:77-96) and the detection of the server's
    architecture (cdc_rsync/server_arch.cc).

    Simplifications: the regular expression is matched by hand: the longest host and, if there
    is one, the longest port (ProofAddr.v shows that no other choice could match when this one
    does not); messages and logging are left out; the outputs of the remote commands are
    given, escape sequences and blanks already removed (C66). *)
From Verif Require Import Base.
From Verif Require ModelSource.
Local Open Scope N_scope.

(** tolower in the C locale *)
Definition lower_char (c : byte) : byte := if (65 <=? c) && (c <=? 90) then c + 32 else c.
Definition lower (l : bytes) : bytes := map lower_char l.
(** The longest prefix of characters that satisfy |p|, and what follows. *)
Fixpoint span (p : byte -> bool) (l : bytes) : bytes * bytes :=
  match l with
  | [] => ([], [])
  | c :: r => if p c then let (a, b) := span p r in (c :: a, b) else ([], l)
  end.
Fixpoint strip (p l : bytes) : option bytes :=
  match p with
  | [] => Some l
  | c :: p' => match l with x :: l' => if x =? c then strip p' l' else None | [] => None end
  end.

(** ** Url::Parse, common/url.cc:25-44 *)
Definition s_http : bytes := [104; 116; 116; 112].
Definition s_https : bytes := [104; 116; 116; 112; 115].
Definition s_css : bytes := [58; 47; 47].
(** [^:^?/] *)
Definition host_char (c : byte) : bool := negb ((c =? 58) || (c =? 94) || (c =? 63) || (c =? 47)).
Definition digit (c : byte) : bool := (48 <=? c) && (c <=? 57).
(** What '.' matches: all but the ends of lines. *)
Definition dot (c : byte) : bool := negb ((c =? 10) || (c =? 13)).
Record url := mku { protocol : bytes; host : bytes; port : bytes }.
Definition parse_rest (proto : bytes) (default : bytes) (l : bytes) : option url :=
  let (h, r) := span host_char l in
  match h with
  | [] => None
  | _ =>
    let '(p, r2) :=
      match r with
      | c :: r1 => if c =? 58 then let (d, r2) := span digit r1 in match d with [] => ([], r) | _ => (d, r2) end else ([], r)
      | [] => ([], r)
      end in
    if forallb dot r2 then Some (mku proto h (match p with [] => default | _ => p end)) else None
  end.
Definition parse (u : bytes) : option url :=
  let l := lower u in
  match strip (s_https ++ s_css) l with
  | Some r => parse_rest s_https [52; 52; 51] r
  | None => match strip (s_http ++ s_css) l with Some r => parse_rest s_http [56; 48] r | None => None end
  end.

(** ** ScpToSftpCommand, common/remote_util.cc:77-96 *)
Definition s_scp : bytes := [115; 99; 112].
Definition s_sftp : bytes := [115; 102; 116; 112].
(** The loop over the occurrences of "scp" in the lower case command: |l| is what is left. *)
Fixpoint scp_to_sftp (l : bytes) : option bytes :=
  match l with
  | [] => None
  | c :: r =>
    match strip s_scp (lower l) with
    | Some rest =>
      let next := hd 0 rest in
      if (next =? 0) || (next =? 46) || (next =? 32) then Some (s_sftp ++ skipn 3 l)
      else option_map (cons c) (scp_to_sftp r)
    | None => option_map (cons c) (scp_to_sftp r)
    end
  end.
Definition scp_to_sftp_command (l : bytes) : bytes := match scp_to_sftp l with Some r => r | None => [] end.

(** ** The server's architecture, cdc_rsync/server_arch.cc:37-178 *)
Inductive arch := Windows | Linux.
Definition starts_with (p l : bytes) : bool := match strip p l with Some _ => true | None => false end.
Fixpoint contains (p l : bytes) : bool := starts_with p l || match l with [] => false | _ :: r => contains p r end.
Definition s_linux : bytes := [76; 105; 110; 117; 120; 32].        (* "Linux " *)
Definition s_msys : bytes := [77; 83; 89; 83; 95].                 (* "MSYS_" *)
Definition s_x86_64 : bytes := [120; 56; 54; 95; 54; 52].
Definition s_amd64 : bytes := [65; 77; 68; 54; 52].
(** GetArchTypeFromUname, :37-60 *)
Definition from_uname (o : bytes) : option arch :=
  if starts_with s_linux o && contains s_x86_64 o then Some Linux
  else if starts_with s_msys o && contains s_x86_64 o then Some Windows
  else None.
(** GetArchTypeFromWinProcArch, :62-71 *)
Definition from_processor (o : bytes) : option arch := if contains s_amd64 o then Some Windows else None.
(** DetectFromRemoteDevice, :113-165: the commands' outputs, [None] if a command failed *)
Definition detect (uname processor : option bytes) : option arch :=
  let second := match processor with Some o => from_processor o | None => None end in
  match uname with
  | Some o => match from_uname o with Some a => Some a | None => second end
  | None => second
  end.
(** GuessFromDestination, :75-103 *)
Definition guess (d : bytes) : arch :=
  if starts_with [126] d || starts_with [47] d then Linux
  else match ModelSource.drive_prefix d with
       | _ :: _ => Windows
       | [] =>
         if contains [47] d && negb (contains [92] d) then Linux
         else if contains [92] d && negb (contains [47] d) then Windows
         else Linux
       end.
