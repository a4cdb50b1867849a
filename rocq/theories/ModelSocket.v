(** Model of Send and Receive of common/server_socket.cc and common/client_socket.cc. A
    connection delivers a stream of bytes; the operating system decides how much of it each
    call transfers. None: the call blocks (for ever, or until the next choice). *)
From Verif Require Import Base SpecSocket.
Local Notation str := (list N).

(** recv() of up to n > 0 bytes: data, or [] at the end of the stream. *)
Inductive ret : Type := RData (d : str) | RAgain | RError.
Definition os_recv (c : choice) (s : str) (eof : bool) (n : nat) : option (ret * str) :=
  match c with
  | Again => Some (RAgain, s)
  | Fails => Some (RError, s)
  | Take k => match s with
              | [] => if eof then Some (RData [], []) else None
              | _ => let k := Nat.max 1 (Nat.min k n) in Some (RData (firstn k s), skipn k s)
              end
  end.
(** recv() with MSG_WAITALL: all n bytes, or less at the end of the stream or when a signal
    arrives after the first byte (k < n). Again: a signal before the first byte; the call is
    repeated (HANDLE_EINTR). *)
Fixpoint os_recv_all (cs : list choice) (s : str) (eof : bool) (n : nat) : option (ret * str * list choice) :=
  match cs with
  | [] => None
  | Again :: r => os_recv_all r s eof n
  | Fails :: r => Some (RError, s, r)
  | Take k :: r => let m := Nat.max 1 (Nat.min k n) in
                   if m <=? length s then Some (RData (firstn m s), skipn m s, r)
                   else if eof then Some (RData s, [], r) else None
  end.
(** send() of n > 0 bytes: how many were accepted. *)
Definition os_send (c : choice) (n : nat) : option nat :=
  match c with Take k => Some (Nat.max 1 (Nat.min k n)) | _ => None end.

(** ServerSocket::Receive (server_socket.cc:221-266); [got]: bytes received so far. *)
Fixpoint receive_loop (cs : list choice) (s : str) (eof : bool) (size : nat) (partial : bool) (got : str) : option (status * str * str * list choice) :=
  match size - length got with
  | O => Some (SOk, got, s, cs)
  | left_ =>
      match cs with
      | [] => None
      | c :: r => match os_recv c s eof left_ with
                  | None => None
                  | Some (RAgain, s2) => receive_loop r s2 eof size partial got
                  | Some (RError, s2) => Some (SError, got, s2, r)
                  | Some (RData d, s2) =>
                      match d with
                      | [] => match got with [] => Some (SEof, got, s2, r) | _ => Some (SError, got, s2, r) end
                      | _ => if partial then Some (SOk, got ++ d, s2, r) else receive_loop r s2 eof size partial (got ++ d)
                      end
                  end
      end
  end.
Definition server_receive (cs : list choice) (s : str) (eof : bool) (size : nat) (partial : bool) : option (status * str * str * list choice) :=
  receive_loop cs s eof size partial [].

(** ClientSocket::Receive (client_socket.cc:142-172): status, the bytes reported in
    bytes_received, the bytes taken from the stream, the rest of the stream. *)
Definition client_receive (cs : list choice) (s : str) (eof : bool) (size : nat) (partial : bool) : option (status * str * str * str * list choice) :=
  match size with
  | O => Some (SOk, [], [], s, cs)
  | _ =>
      let res := if partial then match cs with
                                 | [] => None
                                 | c :: r => match os_recv c s eof size with Some (x, s2) => Some (x, s2, r) | None => None end
                                 end
                 else os_recv_all cs s eof size in
      match res with
      | None => None
      | Some (RAgain, s2, r) => Some (SError, [], [], s2, r)
      | Some (RError, s2, r) => Some (SError, [], [], s2, r)
      | Some (RData [], s2, r) => Some (SEof, [], [], s2, r)
      | Some (RData d, s2, r) => if negb (length d =? size) && negb partial then Some (SError, [], d, s2, r) else Some (SOk, d, d, s2, r)
      end
  end.

(** ServerSocket::Send (server_socket.cc:195-219): status and what was sent. *)
Fixpoint server_send (cs : list choice) (d : str) : option (status * str * list choice) :=
  match d with
  | [] => Some (SOk, [], cs)
  | _ => match cs with
         | [] => None
         | c :: r => match c with
                     | Again => server_send r d
                     | Fails => Some (SError, [], r)
                     | Take _ => match os_send c (length d) with
                                 | Some k => match server_send r (skipn k d) with Some (st, o, r2) => Some (st, firstn k d ++ o, r2) | None => None end
                                 | None => None
                                 end
                     end
         end
  end.
(** ClientSocket::Send (client_socket.cc:131-140) *)
Definition client_send (cs : list choice) (d : str) : option (status * str * list choice) :=
  match d with
  | [] => Some (SOk, [], cs)
  | _ => match cs with
         | [] => None
         | c :: r => match os_send c (length d) with Some k => Some (SOk, firstn k d, r) | None => Some (SError, [], r) end
         end
  end.

(** A sequence of calls on one connection: Receive(size, allow_partial_read) ... and Send ... ; it
    ends with the first call that does not return OK. *)
Fixpoint server_receives (cs : list choice) (s : str) (eof : bool) (reqs : list (nat * bool)) : option (list (status * str) * str * list choice) :=
  match reqs with
  | [] => Some ([], s, cs)
  | (size, partial) :: rs =>
      match server_receive cs s eof size partial with
      | None => None
      | Some (SOk, b, s2, r) => match server_receives r s2 eof rs with Some (l, s3, r2) => Some ((SOk, b) :: l, s3, r2) | None => None end
      | Some (st, b, s2, r) => Some ([(st, b)], s2, r)
      end
  end.
Fixpoint client_receives (cs : list choice) (s : str) (eof : bool) (reqs : list (nat * bool)) : option (list (status * str) * str * list choice) :=
  match reqs with
  | [] => Some ([], s, cs)
  | (size, partial) :: rs =>
      match client_receive cs s eof size partial with
      | None => None
      | Some (SOk, b, _, s2, r) => match client_receives r s2 eof rs with Some (l, s3, r2) => Some ((SOk, b) :: l, s3, r2) | None => None end
      | Some (st, b, _, s2, r) => Some ([(st, b)], s2, r)
      end
  end.
Fixpoint server_sends (cs : list choice) (ds : list str) : option (status * str * list choice) :=
  match ds with
  | [] => Some (SOk, [], cs)
  | d :: r => match server_send cs d with
              | Some (SOk, o, c2) => match server_sends c2 r with Some (st, o2, c3) => Some (st, o ++ o2, c3) | None => None end
              | Some (st, o, c2) => Some (st, o, c2)
              | None => None
              end
  end.
