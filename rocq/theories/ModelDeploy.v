(** Model of the deployment of remote components: the sftp scripts, and what sftp does with them. *)
From Verif Require Import Base SpecDeploy ModelText ModelServer SpecServer.
Local Open Scope N_scope.
Local Notation str := (list N).
Local Notation path := (list (list N)).

(** The commands used; [ign]: errors are ignored (leading dash). *)
Inductive cmd : Type :=
  | Mkdir (d : str) (ign : bool) | Cd (d : str) | Put (l r : str) | Chmod (f : str) (ign : bool) | Rename (a b : str).

(** ServerArch::RemoteToolsBinDir (server_arch.cc:169-180) *)
Definition bin_dir (a : arch) : str :=
  match a with
  | Windows => [65;112;112;68;97;116;97;92;82;111;97;109;105;110;103;92;99;100;99;45;102;105;108;101;45;116;114;97;110;115;102;101;114;92;98;105;110;92]
  | Linux => [46;99;97;99;104;101;47;99;100;99;45;102;105;108;101;45;116;114;97;110;115;102;101;114;47;98;105;110;47]
  end.
(** path::ToUnix, absl::StrSplit(.., '/', SkipEmpty()) *)
Definition to_unix (s : str) : str := map (fun c => if c =? 92 then 47 else c) s.
Definition dir_parts (s : str) : path := filter (fun w => match w with [] => false | _ => true end) (split_at 47 s).

(** ServerArch::GetDeploySftpCommands (server_arch.cc:216-241); [uid]: Util::GenerateUniqueId. *)
Definition server_script (a : arch) (uid : str) : list cmd :=
  flat_map (fun d => [Mkdir d true; Cd d]) (dir_parts (to_unix (bin_dir a))) ++
  let f := filename a in
  let tmp := f ++ uid in
  [Put f tmp; Chmod f true; Chmod tmp false; Rename tmp f].

(** CdcFuseManager::Deploy (cdc_fuse_manager.cc:67-96) *)
Definition fuse_file : str := [99;100;99;95;102;117;115;101;95;102;115].
Definition lib_file : str := [108;105;98;102;117;115;101;46;115;111].
Definition fuse_script : list cmd :=
  flat_map (fun d => [Mkdir d true; Cd d]) (dir_parts (bin_dir Linux)) ++
  [Put fuse_file fuse_file; Put lib_file lib_file; Chmod fuse_file false].

(** sftp -p -b: [loc] are the local files. None: the command fails. *)
Definition exec (loc : str -> option file) (c : cmd) (s : fs) (cwd : path) : option (fs * path) :=
  match c with
  | Mkdir d ign => match s cwd, s (cwd ++ [d]) with
                   | Some Dir, None => Some (put_node s (cwd ++ [d]) (Some Dir), cwd)
                   | _, _ => if ign then Some (s, cwd) else None
                   end
  | Cd d => match s (cwd ++ [d]) with Some Dir => Some (s, cwd ++ [d]) | _ => None end
  | Put l r => match loc l, s cwd, s (cwd ++ [r]) with
               | Some f, Some Dir, Some Dir => None
               | Some f, Some Dir, _ => Some (put_node s (cwd ++ [r]) (Some (File f)), cwd)
               | _, _, _ => None
               end
  | Chmod f ign => match s (cwd ++ [f]) with
                   | Some (File x) => Some (put_node s (cwd ++ [f]) (Some (File (mkf (f_data x) (f_time x) x755))), cwd)
                   | Some Dir => Some (s, cwd)
                   | None => if ign then Some (s, cwd) else None
                   end
  | Rename a b => match s (cwd ++ [a]), s (cwd ++ [b]) with
                  | Some (File x), Some Dir => None
                  | Some (File x), _ => Some (put_node (put_node s (cwd ++ [b]) (Some (File x))) (cwd ++ [a]) None, cwd)
                  | _, _ => None
                  end
  end.
(** A batch stops at the first command that fails. *)
Fixpoint batch (loc : str -> option file) (cs : list cmd) (s : fs) (cwd : path) : bool * fs * path :=
  match cs with
  | [] => (true, s, cwd)
  | c :: r => match exec loc c s cwd with Some (s2, cwd2) => batch loc r s2 cwd2 | None => (false, s, cwd) end
  end.
(** The connection breaks: after some commands, or in the middle of a put, which leaves a part of the file
    (with another time and mode) behind. *)
Inductive broken (loc : str -> option file) (cs : list cmd) (s : fs) : fs -> Prop :=
  | Between (n : nat) (s2 : fs) : snd (fst (batch loc (firstn n cs) s [])) = s2 -> broken loc cs s s2
  | Within (n : nat) (l r : str) (s2 : fs) (cwd : path) (f x : file) (k : nat) :
      batch loc (firstn n cs) s [] = (true, s2, cwd) -> nth_error cs n = Some (Put l r) ->
      loc l = Some f -> s2 (cwd ++ [r]) <> Some Dir -> f_data x = firstn k (f_data f) ->
      broken loc cs s (put_node s2 (cwd ++ [r]) (Some (File x))).

(** Where the start command looks for the server (ServerArch::GetStartServerCommand, server_arch.cc:182-214). *)
Definition server_path (a : arch) : path := dir_parts (to_unix (bin_dir a ++ filename a)).
Definition server_dirs (a : arch) : path := dir_parts (to_unix (bin_dir a)).
Definition temp_path (a : arch) (uid : str) : path := server_dirs a ++ [filename a ++ uid].
(** Where the FUSE start command looks (cdc_fuse_manager.cc:123-127: remotePath, LD_LIBRARY_PATH). *)
Definition fuse_path : path := dir_parts (bin_dir Linux) ++ [fuse_file].
Definition lib_path : path := dir_parts (bin_dir Linux) ++ [lib_file].
