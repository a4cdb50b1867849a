(** Specification for C53: how Windows programs and the remote shell read a command. *)
From Verif Require Import Base.
Local Open Scope N_scope.
(** Byte strings. *)
Local Notation str := (list N).

Definition blank (c : N) : bool := (c =? 32) || (c =? 9).
Fixpoint skip_blanks (s : str) : str :=
  match s with c :: r => if blank c then skip_blanks r else s | [] => [] end.

(** * Windows (Microsoft's "Parsing C command-line arguments")

    Arguments are separated by blanks outside of quotes.  2n backslashes before a
    quotation mark stand for n backslashes, and the mark begins or ends quotes (within
    quotes, two of them stand for one); 2n+1 backslashes before a mark stand for n
    backslashes and a literal mark; other backslashes stand for themselves.
    [win_word s q n]: the rest of an argument and what follows it, after [n]
    backslashes; [q]: within quotes. *)
Fixpoint win_word (s : str) (q : bool) (n : nat) : str * str :=
  match s with
  | [] => (repeat 92 n, [])
  | c :: r =>
      if c =? 92 then win_word r q (S n)
      else if c =? 34 then
        if Nat.odd n then let '(w, t) := win_word r q 0 in (repeat 92 (n / 2) ++ 34 :: w, t)
        else match r with
             | d :: r2 =>
                 if q && (d =? 34) then let '(w, t) := win_word r2 true 0 in (repeat 92 (n / 2) ++ 34 :: w, t)
                 else let '(w, t) := win_word r (negb q) 0 in (repeat 92 (n / 2) ++ w, t)
             | [] => (repeat 92 (n / 2), [])
             end
      else if blank c && negb q then (repeat 92 n, s)
      else let '(w, t) := win_word r q 0 in (repeat 92 n ++ c :: w, t)
  end.
Fixpoint win_args_fuel (fuel : nat) (s : str) : list str :=
  match fuel, skip_blanks s with
  | S fuel, c :: r => let '(w, t) := win_word (c :: r) false 0 in w :: win_args_fuel fuel t
  | _, _ => []
  end.
Definition win_args (s : str) : list str := win_args_fuel (S (length s)) s.

(** * The remote shell

    Words are separated by blanks and newlines outside of quotes.  Within double quotes
    a backslash quotes $, `, the quotation mark, the backslash and the newline (which is
    dropped), and stands for itself otherwise; $ and ` start expansions.  Outside of
    quotes only names, '/' and a few more are read; None: an expansion, an operator, a
    quote that is not closed. *)
Definition lower (c : N) : bool := (97 <=? c) && (c <=? 122).
Definition digit (c : N) : bool := (48 <=? c) && (c <=? 57).
Definition name_char (c : N) : bool := lower c || digit c || ((65 <=? c) && (c <=? 90)) || (c =? 45) || (c =? 46) || (c =? 95).
Definition plain_char (c : N) : bool := name_char c || (c =? 47) || (c =? 44) || (c =? 58) || (c =? 61).
Definition sep (c : N) : bool := blank c || (c =? 10).
Definition before (c : N) (o : option (str * str)) : option (str * str) :=
  match o with Some (w, t) => Some (c :: w, t) | None => None end.
Fixpoint sh_text (s : str) (quoted : bool) : option (str * str) :=
  match s with
  | [] => if quoted then None else Some ([], [])
  | c :: r =>
      if c =? 34 then sh_text r (negb quoted)
      else if quoted then
        if (c =? 36) || (c =? 96) then None
        else if c =? 92 then
          match r with
          | d :: r2 => if (d =? 36) || (d =? 96) || (d =? 34) || (d =? 92) then before d (sh_text r2 true)
                       else if d =? 10 then sh_text r2 true else before 92 (sh_text r true)
          | [] => None
          end
        else before c (sh_text r true)
      else if sep c then Some ([], s)
      else if plain_char c then before c (sh_text r false) else None
  end.
(** A word is a text, possibly after the home directory of a user (of the current one,
    if the name is empty). *)
Fixpoint span (f : N -> bool) (s : str) : str * str :=
  match s with
  | c :: r => if f c then let '(a, b) := span f r in (c :: a, b) else ([], s)
  | [] => ([], [])
  end.
Definition word : Type := option str * str.
Definition sh_word (s : str) : option (word * str) :=
  match s with
  | 126 :: r =>
      let '(u, t) := span name_char r in
      match t with
      | [] => Some ((Some u, []), [])
      | c :: _ => if (c =? 47) || sep c then match sh_text t false with Some (w, t2) => Some ((Some u, w), t2) | None => None end else None
      end
  | _ => match sh_text s false with Some (w, t) => Some ((None, w), t) | None => None end
  end.
Fixpoint skip_seps (s : str) : str :=
  match s with c :: r => if sep c then skip_seps r else s | [] => [] end.
Fixpoint sh_words_fuel (fuel : nat) (s : str) : option (list word) :=
  match fuel, skip_seps s with
  | S fuel, c :: r => match sh_word (c :: r) with
                      | Some (w, t) => match sh_words_fuel fuel t with Some l => Some (w :: l) | None => None end
                      | None => None
                      end
  | _, _ => Some []
  end.
Definition sh_words (s : str) : option (list word) := sh_words_fuel (S (length s)) s.

(** Several of them in one command. *)
Fixpoint spaced (l : list str) : str :=
  match l with [] => [] | [s] => s | s :: r => s ++ 32 :: spaced r end.

(** * What is to be passed on: a path that may start with ~ or ~user *)
Definition user_name (u : str) : bool :=
  match u with [] => true | c :: r => lower c && forallb (fun d => lower d || digit d || (d =? 45)) r end.
Definition meant (s : str) : word :=
  match s with
  | 126 :: r => let '(u, t) := span (fun c => negb (c =? 47)) r in if user_name u then (Some u, t) else (None, s)
  | _ => (None, s)
  end.

(** * Replacing scp *)
Definition fold_case (c : N) : N := if (65 <=? c) && (c <=? 90) then c + 32 else c.
Definition scp_at (a b : str) (s : str) : Prop :=
  exists x, s = a ++ x ++ b /\ map fold_case x = [115; 99; 112] /\ match b with [] => True | c :: _ => c = 46 \/ c = 32 \/ c = 0 end.
