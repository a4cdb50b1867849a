(** Model of common/path_filter.cc.

    C strings are modelled with their memory: a NUL-free byte list [s] stands
    for the object "s followed by a terminating NUL"; reading behind that NUL
    is [UB].  (std::string contents with embedded NULs are out of scope: paths
    and patterns never contain them.) *)
From Verif Require Import Base.
Local Open Scope N_scope.

Definition ch_nul : byte := 0.
Definition ch_question : byte := 63. (* '?' *)
Definition ch_star : byte := 42.     (* '*' *)

(** Dereference of [path] at offset [p] from the start of the C string [s]. *)
Definition deref (s : bytes) (p : nat) : outcome byte :=
  if (p <? length s)%nat then Ok (nth p s 0)
  else if (p =? length s)%nat then Ok ch_nul
  else UB.

(** path_filter.cc:20-50 IsMatch(pattern, path, path_len).  [p] is the offset of
    the pointer [path] in the string [s], [len] is [path_len].  Note that the
    code advances [path] in the '?' and literal cases without decreasing
    [path_len]. *)
Fixpoint is_match (pat : bytes) (s : bytes) (p len : nat) {struct pat} : outcome bool :=
  match pat with
  | [] => do c <- deref s p; Ok (c =? ch_nul)
  | a :: rest =>
      if a =? ch_question then
        do c <- deref s p;
        if c =? ch_nul then Ok false else is_match rest s (S p) len
      else if a =? ch_star then
        match rest with
        | [] => Ok true
        | _ :: _ =>
            (fix try (k n : nat) {struct k} : outcome bool :=
               match k with
               | O => Ok false
               | S k' =>
                   do r <- is_match rest s (p + n)%nat (len - n)%nat;
                   if (r : bool) then Ok true else try k' (S n)
               end) len 0%nat
        end
      else
        do c <- deref s p;
        if c =? a then is_match rest s (S p) len else Ok false
  end.

(** path_filter.cc:52-54 *)
Definition is_match_string (pat s : bytes) : outcome bool := is_match pat s 0 (length s).

(** path_filter.h: Rule; path_filter.cc:77-78 *)
Inductive rule_type := Include | Exclude.
Record rule := { r_type : rule_type; r_pattern : bytes }.

(** path_filter.cc:68-75 PathFilter::IsMatch *)
Fixpoint filter_is_match (rules : list rule) (path : bytes) : outcome bool :=
  match rules with
  | [] => Ok true
  | r :: rest =>
      do m <- is_match_string (r_pattern r) path;
      if (m : bool) then Ok (match r_type r with Include => true | Exclude => false end)
      else filter_is_match rest path
  end.
