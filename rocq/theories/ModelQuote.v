(** Model of the quoting functions of common/remote_util.cc. *)
From Verif Require Import Base.
Local Open Scope N_scope.
(** Byte strings. *)
Local Notation str := (list N).

(** The first regex_replace of QuoteForWindows (remote_util.cc:241-242): every longest
    run of backslashes before a quotation mark or at the end is doubled; [n]: the length
    of the run read so far.  ($ matches only at the end of the string.) *)
Fixpoint double_runs (n : nat) (s : str) : str :=
  match s with
  | [] => repeat 92 (n + n)
  | c :: r => if c =? 92 then double_runs (S n) r
              else if c =? 34 then repeat 92 (n + n) ++ c :: double_runs 0 r
              else repeat 92 n ++ c :: double_runs 0 r
  end.
(** regex_replace of one character (244, 251-254). *)
Definition replace (c : N) (by_ : str) (s : str) : str := flat_map (fun d => if d =? c then by_ else [d]) s.
(** QuoteForWindows (239-247). *)
Definition quote_for_windows (s : str) : str := 34 :: replace 34 [92; 34] (double_runs 0 s) ++ [34].

(** regex_match with ^[a-z][-a-z0-9]* (272-273). *)
Definition is_user (u : str) : bool :=
  match u with
  | [] => false
  | c :: r => ((97 <=? c) && (c <=? 122)) && forallb (fun d => (d =? 45) || ((97 <=? d) && (d <=? 122)) || ((48 <=? d) && (d <=? 57))) r
  end.
(** escaped.find('/'), size() if there is none (268-270). *)
Fixpoint find_slash (s : str) : nat := match s with c :: r => if c =? 47 then 0%nat else S (find_slash r) | [] => 0%nat end.
(** QuoteForSsh (249-285). *)
Definition quote_for_ssh (s : str) : str :=
  let escaped := replace 34 [92; 34] (replace 92 [92; 92] s) in
  let all := quote_for_windows (34 :: escaped ++ [34]) in
  match escaped with
  | 126 :: _ =>
      if (if list_eq_dec N.eq_dec escaped [126] then true else false) || (if list_eq_dec N.eq_dec escaped [126; 47] then true else false) then quote_for_windows escaped
      else
        let e := find_slash escaped in
        if (1 <? e)%nat && negb (is_user (firstn (e - 1) (skipn 1 escaped))) then all
        else if (e =? length escaped)%nat then quote_for_windows escaped
        else quote_for_windows (firstn (e + 1) escaped ++ 34 :: skipn (e + 1) escaped ++ [34])
  | _ => all
  end.

(** ScpToSftpCommand (75-94); [a]: what has been passed. *)
Definition to_lower (c : N) : N := if (65 <=? c) && (c <=? 90) then c + 32 else c.
Fixpoint scp_to_sftp_from (a s : str) : str :=
  match s with
  | [] => []
  | x :: r =>
      if (match s with
          | c1 :: c2 :: c3 :: t => (to_lower c1 =? 115) && (to_lower c2 =? 99) && (to_lower c3 =? 112) &&
                                   (match t with [] => true | d :: _ => (d =? 0) || (d =? 46) || (d =? 32) end)
          | _ => false
          end)
      then a ++ [115; 102; 116; 112] ++ skipn 3 s
      else scp_to_sftp_from (a ++ [x]) r
  end.
Definition scp_to_sftp (s : str) : str := scp_to_sftp_from [] s.
