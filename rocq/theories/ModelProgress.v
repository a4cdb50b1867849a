(** Model of the progress display of cdc_rsync, cdc_rsync/progress_tracker.cc.

    Simplifications: counters are natural numbers (they do not wrap around); a fraction is
    kept as numerator and denominator, where the program divides doubles; what is printed is
    a record of what the text tells, not the text; estimated times and speeds are left out.
    Times are in milliseconds.  The asserts are left out. *)
From Verif Require Import Base Str.
Local Open Scope N_scope.

(** progress_tracker.h, enum State *)
Inductive mode := MIdle | MSearch | MCopy | MSyncSig | MSyncDiff | MDelete.

(** What a printed line tells. *)
Inductive line :=
| LStats (kind : nat) (files dirs : N)            (* :150-190, ReportFileStats *)
| LFound (files dirs : N)                         (* :371-376 *)
| LDeleted (f tf d td : N)                        (* :321-326 *)
| LDeletedPath (path : bytes) (n total : N)       (* :329-340 *)
| LTotal (curr total : N)                         (* :344-364, GetTotalProgressText or JSON *)
| LFile (op : mode) (path : bytes) (curr total : N) (all_curr all_total : N).  (* :378-402, OutputFileProgress *)

(** A call of ProgressPrinter::Print: the line and the argument |newline|. *)
Record printed := mkp { p_line : line; p_newline : bool }.

(** The constructor's arguments, :118-129; display_delay_sec_. *)
Record config := mkc { quiet : bool; tty : bool; only_total : bool }.
Definition delay (c : config) : N := if tty c then 100 else 1000.

(** progress_tracker.h:170-236 *)
Record tracker := mkt {
  t_mode : mode;
  files_found : N; dirs_found : N;
  cur_path : bytes; cur_size : N;
  cur_copied : N; all_copied : N; all_to_copy : N;
  cur_sig : N; all_sig : N; all_to_sig : N; server_size : N;
  cur_diffed : N; all_diffed : N; all_to_diff : N;
  files_deleted : N; all_files_to_delete : N; dirs_deleted : N; all_dirs_to_delete : N;
  print_timer : N }.

(** The members' initial values; the timer starts with the object. *)
Definition fresh (now : N) : tracker := mkt MIdle 0 0 [] 0 0 0 0 0 0 0 0 0 0 0 0 0 0 0 now.

(** The public functions. *)
Inductive call :=
| StartFindFiles | FileFound | DirFound
| FileStats (missing extraneous matching changed : N) (missing_bytes changed_client changed_server : N)
            (missing_dirs extraneous_dirs matching_dirs : N)
| StartCopy (path : bytes) (size : N) | CopyProgress (n : N)
| StartSync (path : bytes) (client_size server_size : N) | SyncProgress (client server : N)
| StartDelete | FileDeleted (path : bytes) | DirDeleted (path : bytes)
| Finish.

(** :31 *)
Definition kSigFactor : N := 40.
(** GetTotalProgress, :505-510: numerator and denominator as given to GetProgress *)
Definition total_curr (t : tracker) : N := all_copied t + all_diffed t + all_sig t / kSigFactor.
Definition total_all (t : tracker) : N := all_to_copy t + all_to_diff t + all_to_sig t / kSigFactor.
(** GetProgress(curr, total), :95-98: the quotient of curr and max(1, total), clamped to 1 *)
Definition progress (curr total : N) : N * N := (N.min curr (N.max 1 total), N.max 1 total).
Definition is_one (p : N * N) : bool := fst p =? snd p.

Definition set_timer (t : tracker) (now : N) : tracker :=
  mkt (t_mode t) (files_found t) (dirs_found t) (cur_path t) (cur_size t) (cur_copied t) (all_copied t) (all_to_copy t)
      (cur_sig t) (all_sig t) (all_to_sig t) (server_size t) (cur_diffed t) (all_diffed t) (all_to_diff t)
      (files_deleted t) (all_files_to_delete t) (dirs_deleted t) (all_dirs_to_delete t) now.
Definition set_mode (t : tracker) (m : mode) : tracker :=
  mkt m (files_found t) (dirs_found t) (cur_path t) (cur_size t) (cur_copied t) (all_copied t) (all_to_copy t)
      (cur_sig t) (all_sig t) (all_to_sig t) (server_size t) (cur_diffed t) (all_diffed t) (all_to_diff t)
      (files_deleted t) (all_files_to_delete t) (dirs_deleted t) (all_dirs_to_delete t) (print_timer t).

(** OutputFileProgress, :408-485: a finished file counts as complete, :411-413 *)
Definition file_line (t : tracker) (curr total : N) (finished : bool) : line :=
  let p := if finished then (1, 1) else progress curr total in
  let a := progress (total_curr t) (total_all t) in
  LFile (t_mode t) (cur_path t) (fst p) (snd p) (fst a) (snd a).

(** UpdateOutput, :299-406 *)
Definition update_output (c : config) (now : N) (finished : bool) (t : tracker) : tracker * list printed :=
  let early (fin : bool) := negb fin && (now - print_timer t <? delay c) in
  if quiet c then (t, [])
  else match t_mode t with
  | MDelete =>
    if (all_files_to_delete t + all_dirs_to_delete t =? 0) || (negb (only_total c) && finished) then (t, [])
    else if only_total c then
      if early finished then (t, [])
      else (set_timer t now, [mkp (LDeleted (files_deleted t) (all_files_to_delete t) (dirs_deleted t) (all_dirs_to_delete t)) finished])
    else (t, [mkp (LDeletedPath (cur_path t) (files_deleted t + dirs_deleted t) (all_files_to_delete t + all_dirs_to_delete t)) true])
  | m =>
    if only_total c && match m with MSearch => false | _ => true end then
      let p := progress (total_curr t) (total_all t) in
      let fin := finished && is_one p in
      if early fin then (t, []) else (set_timer t now, [mkp (LTotal (fst p) (snd p)) fin])
    else if early finished then (t, [])
    else (set_timer t now,
      match m with
      | MSearch => [mkp (LFound (files_found t) (dirs_found t)) finished]
      | MCopy => [mkp (file_line t (cur_copied t) (cur_size t) finished) finished]
      | MSyncSig | MSyncDiff => [mkp (file_line t (cur_diffed t + cur_sig t / kSigFactor) (cur_size t + server_size t / kSigFactor) finished) finished]
      | _ => []
      end)
  end.

(** Print of ReportFileStats, :181-185 *)
Definition print_stats (c : config) (l : list line) : list printed :=
  if quiet c then [] else map (fun x => mkp x true) l.

(** :133-297 *)
Definition do_call (c : config) (now : N) (k : call) (t : tracker) : tracker * list printed :=
  match t with
  | mkt m ff df p sz cc ac tc cs as_ ts ss cd ad td fd tfd dd tdd pt =>
    match k with
    | StartFindFiles => (mkt MSearch 0 df p sz cc ac tc cs as_ ts ss cd ad td fd tfd dd tdd pt, [])
    | FileFound => update_output c now false (mkt m (ff + 1) df p sz cc ac tc cs as_ ts ss cd ad td fd tfd dd tdd pt)
    | DirFound => update_output c now false (mkt m ff (df + 1) p sz cc ac tc cs as_ ts ss cd ad td fd tfd dd tdd pt)
    | FileStats mi ex ma ch mb cb sb md ed xd =>
      (mkt m ff df p sz cc ac mb cs as_ sb ss cd ad cb fd ex dd ed pt,
       print_stats c [LStats 0 mi md; LStats 1 ch 0; LStats 2 ma xd; LStats 3 ex ed])
    | StartCopy p' sz' => (mkt MCopy ff df p' sz' 0 ac tc cs as_ ts ss cd ad td fd tfd dd tdd pt, [])
    | CopyProgress n => update_output c now false (mkt m ff df p sz (cc + n) (ac + n) tc cs as_ ts ss cd ad td fd tfd dd tdd pt)
    | StartSync p' c' s' => (mkt MSyncDiff ff df p' c' cc ac tc 0 as_ ts s' 0 ad td fd tfd dd tdd pt, [])
    | SyncProgress n s =>
      let m' := if 0 <? n then MSyncDiff else if 0 <? s then MSyncSig else m in
      update_output c now false (mkt m' ff df p sz cc ac tc (cs + s) (as_ + s) ts ss (cd + n) (ad + n) td fd tfd dd tdd pt)
    | StartDelete => (mkt MDelete ff df p sz cc ac tc cs as_ ts ss cd ad td 0 tfd dd tdd pt, [])
    | FileDeleted p' => update_output c now false (mkt m ff df p' sz cc ac tc cs as_ ts ss cd ad td (fd + 1) tfd dd tdd pt)
    | DirDeleted p' => update_output c now false (mkt m ff df p' sz cc ac tc cs as_ ts ss cd ad td fd tfd (dd + 1) tdd pt)
    | Finish => let (t', o) := update_output c now true t in (set_mode t' MIdle, o)
    end
  end.

(** A sequence of calls with their times; the outputs of each. *)
Fixpoint calls (c : config) (l : list (N * call)) (t : tracker) : tracker * list (list printed) :=
  match l with
  | [] => (t, [])
  | (now, k) :: r => let (t1, o) := do_call c now k t in let (t2, os) := calls c r t1 in (t2, o :: os)
  end.

(** ** Formatting *)
Definition len (s : bytes) : N := N.of_nat (length s).
(** PaddRight, :34-38 *)
Definition padd_right (s : bytes) (size : N) : bytes := s ++ repeat 32 (N.to_nat (size - len s)).
(** ShortenFilePath, :43-48; "..." *)
Definition shorten (p : bytes) (max_len : N) : bytes :=
  if (max_len <? len p) && (3 <=? max_len) then [46; 46; 46] ++ skipn (N.to_nat (len p - max_len + 3)) p else p.
(** The text given to Print for a file, :477-483, 333-338: |txt| is the part behind the path.
    width - txt.size() is computed in int and may be negative. *)
Definition file_text (width : N) (path txt : bytes) : bytes :=
  let fw := N.max 12 (width - len txt) in padd_right (shorten path fw) fw ++ txt.
(** ConsoleProgressPrinter::Print, :104-115: \n is 10, \r is 13 *)
Definition console (q is_tty : bool) (text : bytes) (newline : bool) (width : N) : bytes :=
  if q then []
  else (if is_tty then padd_right text width else text) ++ [if newline || negb is_tty then 10 else 13].
(** FormatIntBytes, :55-64: the number and the index of the unit; |n| units are left *)
Fixpoint format_int (n : nat) (unit : N) (size : N) : N * N :=
  match n with
  | O => (size, unit)
  | S n' => if 9999 <? size then format_int n' (unit + 1) (size / 1024) else (size, unit)
  end.
Definition format_int_bytes (size : N) : N * N := format_int 7 0 size.
(** FormatTime, :80-92: hours, minutes, seconds of a number of seconds *)
Definition format_time (sec : N) : N * N * N :=
  let h := sec / 3600 in let s1 := sec - h * 3600 in let m := s1 / 60 in (h, m, s1 - m * 60).
