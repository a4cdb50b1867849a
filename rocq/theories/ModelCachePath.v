(** Model of cdc_stream/multi_session.cc: GetCacheDir, GetCachePath, and of
    common/util.cc: Utf8CodePointLen. [win]: built for Windows. The "C" locale is assumed for
    tolower; path::GetFullPath and blake3 are parameters. *)
From Verif Require Import Base ModelPath ModelText.
Local Notation str := (list N).
Local Open Scope N_scope.

(** str[i] of a NUL-terminated string; reading past the terminator is undefined. *)
Definition at_ (s : str) (i : nat) : outcome N := match nth_error (s ++ [0]) i with Some c => Ok c | None => UB end.
(** Is10 (util.cc:194) *)
Definition is10 (c : N) : bool := N.land c 192 =? 128.
Definition is10_at (s : str) (i : nat) : outcome bool := do c <- at_ s i; Ok (is10 c).
(** a && b, left to right *)
Definition and_then (a b : outcome bool) : outcome bool := do x <- a; if x then b else Ok false.
(** Util::Utf8CodePointLen (util.cc:187-204) *)
Definition code_point_len (s : str) : outcome nat :=
  do c <- at_ s 0;
  if c =? 0 then Ok 0%nat
  else if N.land c 128 =? 0 then Ok 1%nat
  else if N.land c 224 =? 192 then do b <- is10_at s 1; Ok (if b then 2 else 0)%nat
  else if N.land c 240 =? 224 then do b <- and_then (is10_at s 1) (is10_at s 2); Ok (if b then 3 else 0)%nat
  else if N.land c 248 =? 240 then do b <- and_then (is10_at s 1) (and_then (is10_at s 2) (is10_at s 3)); Ok (if b then 4 else 0)%nat
  else Ok 0%nat.

Definition kDirHashLen : nat := 8.
(** tolower in the "C" locale *)
Definition lower (c : N) : N := if (65 <=? c) && (c <=? 90) then c + 32 else c.
(** invalid_chars; strchr also finds the terminator (multi_session.cc:594-597) *)
Definition invalid (c : N) : bool := existsb (N.eqb c) [60; 62; 58; 34; 47; 92; 124; 63; 42; 0].

Section Cache.
Variable win : bool.
(** path::GetFullPath (path.cc:336-372) *)
Variable full : str -> str.
(** ContentId::FromDataString (content_id.cc:40-60) *)
Variable hash : str -> str.

(** path::PathSeparator() (path.h:53-60) *)
Definition native_sep : N := if win then 92 else 47.
(** The normalised directory (multi_session.cc:583-591). *)
Definition normal (dir : str) : str :=
  let d := full dir in
  let d := if win then map lower d else d in
  let d := if ends_with_sep d then d else d ++ [native_sep] in
  map (fun c => if c =? 92 then 47 else c) d.
(** GetCacheDir (multi_session.cc:582-600) *)
Definition cache_dir (dir : str) : str :=
  map (fun c => if invalid c then 95 else c) (normal dir) ++ firstn kDirHashLen (to_hex_string (hash (normal dir))).

(** JoinImpl (path.cc:78-88) with the native separator *)
Definition join_native (p a : str) : str :=
  match a with [] => p | _ => (if needs_sep p then p ++ [native_sep] else p) ++ a end.
(** The loop of GetCachePath (631-635). *)
Fixpoint eat (fuel start to_remove : nat) (s : str) : outcome nat :=
  if (start <? to_remove)%nat then
    match fuel with
    | O => OutOfFuel
    | S f => do l <- code_point_len (skipn start s); eat f (start + Nat.max l 1) to_remove s
    end
  else Ok start.
(** GetCachePath (603-639); [appdata] is the roaming application data folder or
    $HOME/.cache. Failing assertions are UB. *)
Definition cache_path (appdata dir : str) (max_len : nat) : outcome str :=
  let base := join_native (join_native appdata [99; 100; 99; 45; 102; 105; 108; 101; 45; 116; 114; 97; 110; 115; 102; 101; 114]) [99; 104; 117; 110; 107; 115] in
  let c := cache_dir dir in
  let total := (length base + 1 + length c)%nat in
  if (total <=? max_len)%nat then Ok (join_native base c)
  else if (length c <? kDirHashLen)%nat then UB
  else
    let to_remove := Nat.min (total - max_len) (length c - kDirHashLen) in
    do start <- eat (S to_remove) 0 to_remove c;
    if (start + kDirHashLen <=? length c)%nat then Ok (join_native base (skipn start c)) else UB.
End Cache.
