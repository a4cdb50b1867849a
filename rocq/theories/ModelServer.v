(** Model of how cdc_rsync starts and deploys its server. *)
From Verif Require Import Base SpecServer ModelText.
From Coq Require Import ZArith.
Local Open Scope N_scope.
Local Notation str := (list N).

Definition str_eqb (a b : str) : bool := if list_eq_dec N.eq_dec a b then true else false.

(** GameletComponent::operator== (common/gamelet_component.cc:37-53), with its condition as it is
    written: both halves of it look at this component's version. *)
Definition comp_eq (a b : component) : bool :=
  if negb (str_eqb (c_name a) (c_name b)) then false
  else if negb (str_eqb (c_version a) dev) && negb (str_eqb (c_version a) dev) then str_eqb (c_version a) (c_version b)
  else (c_size a =? c_size b) && (c_mtime a =? c_mtime b)%Z.
(** std::vector's operator== (cdc_rsync_server.cc:284) *)
Fixpoint comps_eq (a b : list component) : bool :=
  match a, b with
  | [], [] => true
  | x :: a, y :: b => comp_eq x y && comps_eq a b
  | _, _ => false
  end.

(** printf's %d *)
Definition print_z (z : Z) : str := if (z <? 0)%Z then ch_minus :: print_dec (Z.to_N (- z)) else print_dec (Z.to_N z).
(** GameletComponent::ToCommandLineArgs (common/gamelet_component.cc:77-87) *)
Definition comp_args (c : component) : str := c_version c ++ 32 :: c_name c ++ 32 :: print_dec (c_size c) ++ 32 :: print_z (c_mtime c).
Definition to_args (cs : list component) : str :=
  fold_left (fun args c => args ++ (match args with [] => [] | _ => [32] end) ++ comp_args c) cs [].
(** std::stol where long has the given number of bits; None: it throws. *)
Definition stol (bits : Z) (s : str) : option Z :=
  let s := skip_space s in
  let '(neg, s) :=
    match s with
    | c :: r => if c =? ch_minus then (true, r) else if c =? ch_plus then (false, r) else (false, s)
    | [] => (false, s)
    end in
  match s with
  | c :: _ => if is_digit c
              then let v := Z.of_N (leading_digits 0 s) in
                   let v := if neg then (- v)%Z else v in
                   if ((- 2 ^ (bits - 1) <=? v) && (v <? 2 ^ (bits - 1)))%Z then Some v else None
              else None
  | [] => None
  end.
(** GameletComponent::FromCommandLineArgs(argc, argv) (common/gamelet_component.cc:89-98); None: stol
    throws, and the process aborts. The cast to uint64_t wraps. *)
Fixpoint from_argv (bits : Z) (argv : list str) : option (list component) :=
  match argv with
  | v :: n :: sz :: mt :: r =>
      match stol bits sz, stol bits mt with
      | Some s, Some m => match from_argv bits r with
                          | Some cs => Some (comp v n (Z.to_N (s mod 2 ^ 64)) m :: cs)
                          | None => None
                          end
      | _, _ => None
      end
  | _ => Some []
  end.
(** FromCommandLineArgs(string) (common/gamelet_component.cc:100-108) *)
Definition from_args (bits : Z) (s : str) : option (list component) := from_argv bits (split_at 32 s).
(** The words a shell makes of a command line without quotes. *)
Definition words (s : str) : list str := filter (fun w => match w with [] => false | _ => true end) (split_at 32 s).

(** Exit codes (base/server_exit_code.h). *)
Definition kGenericStartup : N := 50.
Definition kOutOfDate : N := 51.
Definition kMax : N := 53.
Definition kNotFound : N := 127.

(** cdc_rsync_server's main (main.cc:62-98) up to Run: the exit code, or None if the server gets to listen.
    [own]: GameletComponent::Get of its own file (CheckComponents, cdc_rsync_server.cc:272-289).
    134: abort (SIGABRT), by the uncaught exception. *)
Definition server_main (bits : Z) (argv : list str) (own : component) : option N :=
  if (Nat.ltb (length argv) 4) then Some kGenericStartup
  else match from_argv bits argv with
       | None => Some 134
       | Some cs => if comps_eq cs [own] then None else Some kOutOfDate
       end.

(** CdcRsyncClient::StartServer (cdc_rsync_client.cc:187-305) after the attempt: up, to be deployed
    (Tag::kDeployServer), failed. *)
Inductive started : Type := StartOk | Redeploy (code : N) | StartFailed (code : option N).
Definition start_status (remote : bool) (x : attempt) : started :=
  match x with
  | Up => StartOk
  | Failed => StartFailed None
  | Exited code =>
      if (kOutOfDate <? code) && (code <=? kMax) then StartFailed (Some code)
      else if negb remote then StartFailed (Some code)
      else Redeploy code
  end.

Section Run.
  (** The device and the network: what the steps do to them and what comes of it. *)
  Variable E : Type.
  Variable do_start : E -> arch -> E * attempt.
  Variable do_detect : E -> E * option arch.       (* DetectFromRemoteDevice *)
  Variable do_deploy : E -> arch -> E * bool.      (* DeployServer *)
  Variable do_sync : E -> E * sync_result.         (* Sync *)
  Variable do_stop : E -> E * option (N * str).    (* StopServer: exit code, server_error_ *)

  Definition arch_eqb (a b : arch) : bool := match a, b with Linux, Linux => true | Windows, Windows => true | _, _ => false end.

  (** The second half of CdcRsyncClient::Run (cdc_rsync_client.cc:158-184). *)
  Definition finish (e : E) (log : list action) : E * list action * verdict :=
    let (e, s) := do_sync e in
    let log := log ++ [SyncFiles] in
    match s with
    | SyncFailed => (e, log, NotSynced)
    | _ =>
        let (e, x) := do_stop e in
        let log := log ++ [Stop] in
        match x with
        | None => (e, log, NotStopped)
        | Some (code, err) =>
            let eof := match s with SyncEof => true | _ => false end in
            if (match err with [] => true | _ => false end) && eof then (e, log, Disconnected)
            else if negb (code =? 0) then (e, log, ServerFailed code err)
            else (e, log, if eof then Disconnected else Done)
        end
    end.
  (** Deployment and what follows (cdc_rsync_client.cc:145-157). *)
  Definition deploy_and_go (e : E) (remote : bool) (a : arch) (st : started) (log : list action) : E * list action * verdict :=
    match st with
    | Redeploy _ =>
        let (e, ok) := do_deploy e a in
        let log := log ++ [Deploy a] in
        if negb ok then (e, log, NotDeployed)
        else let (e, x) := do_start e a in
             let log := log ++ [Start a] in
             match start_status remote x with
             | StartOk => finish e log
             | _ => (e, log, NotStarted)
             end
    | StartOk => finish e log
    | StartFailed _ => (e, log, NotStarted)
    end.
  (** CdcRsyncClient::Run (cdc_rsync_client.cc:117-184). [a]: the architecture guessed from the
      destination, or, for a local sync, this machine's. *)
  Definition run (e : E) (remote : bool) (a : arch) : E * list action * verdict :=
    let guess := remote in
    let (e, x) := do_start e a in
    let log := [Start a] in
    match start_status remote x with
    | Redeploy code =>
        if guess && negb (code =? kOutOfDate) then
          let (e, d) := do_detect e in
          let log := log ++ [Detect] in
          match d with
          | None => (e, log, NotDetected)
          | Some b =>
              if negb (arch_eqb b a) then
                let (e, x) := do_start e b in
                deploy_and_go e remote b (start_status remote x) (log ++ [Start b])
              else deploy_and_go e remote b (Redeploy code) log
          end
        else deploy_and_go e remote a (Redeploy code) log
    | st => deploy_and_go e remote a st log
    end.
End Run.

(** ** A device that works *)
(** What is installed on a device for an architecture, and the exit codes of commands that cannot
    find the server, or that were written for another architecture. *)
Record device : Type := dv { d_arch : arch; d_server : option component; d_missing : N; d_wrong : N }.
(** The client's server binaries, by architecture (they lie next to cdc_rsync). *)
Definition filename (a : arch) : str :=
  match a with
  | Linux => [99;100;99;95;114;115;121;110;99;95;115;101;114;118;101;114]
  | Windows => [99;100;99;95;114;115;121;110;99;95;115;101;114;118;101;114;46;101;120;101]
  end.
(** GetStartServerCommand's command as the device runs it. *)
Definition dev_start (bin : arch -> component) (d : device) (a : arch) : device * attempt :=
  (d, if negb (arch_eqb a (d_arch d)) then Exited (d_wrong d)
      else match d_server d with
           | None => Exited (d_missing d)
           | Some own => match server_main (long_bits a) (words (to_args [bin a])) own with
                         | Some code => Exited code
                         | None => Up
                         end
           end).
(** sftp with -p: size and time are kept. *)
Definition dev_deploy (bin : arch -> component) (d : device) (a : arch) : device * bool :=
  (dv (d_arch d) (if arch_eqb a (d_arch d) then Some (bin a) else d_server d) (d_missing d) (d_wrong d), true).
Definition dev_detect (d : device) : device * option arch := (d, Some (d_arch d)).
Definition dev_sync (d : device) : device * sync_result := (d, SyncOk).
Definition dev_stop (d : device) : device * option (N * str) := (d, Some (0, [])).
Definition dev_run (bin : arch -> component) (d : device) (guess : arch) : device * list action * verdict :=
  run device (dev_start bin) dev_detect (dev_deploy bin) dev_sync dev_stop d true guess.
