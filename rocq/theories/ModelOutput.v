(** Model of how cdc_rsync reads the output of its server. *)
From Verif Require Import Base SpecOutput ModelText ModelPort.
From Coq Require Import ZArith.
Local Open Scope N_scope.
Local Notation str := (list N).

(** What a char pointer to data shows: everything before the first NUL. *)
Fixpoint cstr (s : str) : str := match s with [] => [] | c :: r => if c =? 0 then [] else c :: cstr r end.

(** std::string::find(w) and rfind(w, pos) *)
Definition at_pos (w s : str) (i : nat) : bool := is_prefix w (skipn i s).
Definition str_find (w s : str) : option nat := find (at_pos w s) (seq 0 (S (length s))).
Definition str_rfind (w s : str) (pos : nat) : option nat := find (at_pos w s) (rev (seq 0 (S (Nat.min pos (length s))))).

(** is_server_error_, server_error_, server_output_, server_listen_port_ *)
Record ost : Type := os { o_inside : bool; o_err : str; o_out : str; o_port : Z }.
Definition init_out : ost := os false [] [] 0%Z.

(** The loop over parts in HandleServerOutput (cdc_rsync_client.cc:347-357): state, stdout_data_storage. *)
Fixpoint parts_loop (inside : bool) (err out : str) (parts : list str) : bool * str * str :=
  match parts with
  | [] => (inside, err, out)
  | p :: r =>
      let err := if inside then err ++ p else err in
      let out := if inside then out else out ++ p in
      parts_loop (match r with [] => inside | _ => negb inside end) err out r
  end.
(** The port in server_output_ (cdc_rsync_client.cc:364-383); Ok None: not there yet. *)
Definition parse_port (out : str) : outcome (option Z) :=
  match str_find listening out with
  | None => Ok None
  | Some lpos =>
      match str_rfind port_ out lpos with
      | None => Fail
      | Some ppos =>
          do v <- atoi (firstn (lpos - ppos) (skipn (ppos + length port_) out));
          if (v =? 0)%Z then Fail else Ok (Some v)
      end
  end.
(** CdcRsyncClient::HandleServerOutput (cdc_rsync_client.cc:333-386); Fail: it returns an error. *)
Definition handle (st : ost) (data : str) : outcome ost :=
  let data := cstr data in
  let '(inside, err, out) :=
    if o_inside st || existsb (fun c => c =? marker) data
    then parts_loop (o_inside st) (o_err st) [] (split_at marker data)
    else (o_inside st, o_err st, data) in
  if (o_port st =? 0)%Z then
    let all := o_out st ++ out in
    do p <- parse_port all;
    Ok (os inside err all (match p with Some v => v | None => 0%Z end))
  else Ok (os inside err (o_out st) (o_port st)).
Fixpoint handle_all (st : ost) (pieces : list str) : outcome ost :=
  match pieces with
  | [] => Ok st
  | p :: r => do st <- handle st p; handle_all st r
  end.

(** SendErrorMessage of cdc_rsync_server (main.cc:24-27). *)
Definition send_error (msg : str) : str := marker :: cstr msg ++ [marker].

(** What is left of the state when the handler returns an error: everything was appended, the port is 0. *)
Definition after_error (st : ost) (data : str) : ost :=
  let data := cstr data in
  let '(inside, err, out) :=
    if o_inside st || existsb (fun c => c =? marker) data
    then parts_loop (o_inside st) (o_err st) [] (split_at marker data)
    else (o_inside st, o_err st, data) in
  os inside err (o_out st ++ out) 0%Z.

(** StartServer's wait for the server (cdc_rsync_client.cc:236-277): what the process does; what comes of it.
    An error of the output handler is only logged (AsyncReader::Read and IssueRead, process_win.cc:230-234, 283-287:
    "Don't return an error, it stops the pump thread"). *)
Inductive event : Type := Out (piece : str) | Exit (code : N) | TimeOut.
Inductive waited : Type := ListeningOn (port : Z) | HasExited (code : N) | TimedOut | Undefined.
Fixpoint wait (st : ost) (evs : list event) : ost * waited :=
  if negb (o_port st =? 0)%Z then
    (st, match evs with Exit c :: _ => HasExited c | _ => ListeningOn (o_port st) end)
  else match evs with
       | [] => (st, TimedOut)
       | TimeOut :: _ => (st, TimedOut)
       | Exit c :: _ => (st, HasExited c)
       | Out p :: r => match handle st p with Ok st => wait st r | Fail => wait (after_error st p) r | _ => (st, Undefined) end
       end.
