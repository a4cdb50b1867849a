(** Models of small text codecs: manifest/content_id.cc (hex strings),
    common/ansi_filter.cc, absl_helper/jedec_size_flag.cc,
    common/port_range_parser.cc. *)
From Verif Require Import Base.
Local Open Scope N_scope.

(** ** Content ids *)

(** content_id.cc:24-28 IntToHex; 255 is the char -1. *)
Definition int_to_hex (n : N) : byte :=
  if n <=? 9 then 48 + n else if n <=? 15 then 97 + n - 10 else 255.

(** content_id.cc:32-36 HexToInt; None is -1. *)
Definition hex_to_int (c : byte) : option N :=
  if (48 <=? c) && (c <=? 57) then Some (c - 48)
  else if (97 <=? c) && (c <=? 102) then Some (c - 97 + 10)
  else None.

(** content_id.h:32 kHashSize *)
Definition hash_size : nat := 20.

(** content_id.cc:62-71 ToHexString; an id is the byte string blake3_sum_160. *)
Fixpoint to_hex_string (id : bytes) : bytes :=
  match id with
  | [] => []
  | b :: r => int_to_hex (N.shiftr b 4) :: int_to_hex (N.land b 15) :: to_hex_string r
  end.

(** content_id.cc:81-89: the loop reading two characters at a time.  An odd
    length would read str[n+1] = the terminating NUL; the length check excludes
    it, here it is [UB] for clarity. *)
Fixpoint from_hex_loop (str : bytes) : outcome bytes :=
  match str with
  | [] => Ok []
  | [_] => UB
  | h :: l :: r =>
      match hex_to_int h, hex_to_int l with
      | Some hi, Some lo => do t <- from_hex_loop r; Ok ((N.shiftl hi 4 + lo) mod 256 :: t)
      | _, _ => Fail
      end
  end.

(** content_id.cc:74-92 FromHexString; [Fail] is the return value false. *)
Definition from_hex_string (str : bytes) : outcome bytes :=
  if Nat.eqb (length str) (hash_size * 2) then from_hex_loop str else Fail.

(** content_id.cc:95-98 GetByte *)
Definition get_byte (id : bytes) (pos : nat) : byte := nth pos id 0.

(** ** ANSI escape sequences *)

(** ansi_filter.cc:20-25 *)
Inductive ansi_state := NotInSequence | DCS | CS | OSC.

(** ansi_filter.cc:27-32 *)
Definition kBEL : byte := 0x07.
Definition kESC : byte := 0x1B.
Definition kST : byte := 0x9C.
Definition kDCSI : byte := 0x90.
Definition kCSI : byte := 0x9B.
Definition kOSCI : byte := 0x9D.
Definition ch_P : byte := 80.
Definition ch_lbracket : byte := 91.
Definition ch_rbracket : byte := 93.
Definition ch_backslash : byte := 92.

(** ansi_filter.cc:40-97: the loop.  [skip] is true if the previous iteration
    did ++n to consume this character as well. *)
Fixpoint ansi_loop (st : ansi_state) (skip : bool) (input : bytes) : bytes :=
  match input with
  | [] => []
  | ch :: rest =>
      if skip then ansi_loop st false rest
      else
        let next := match rest with [] => 0 | c :: _ => c end in
        let esc := ch =? kESC in
        match st with
        | NotInSequence =>
            if (esc && (next =? ch_P)) || (ch =? kDCSI) then ansi_loop DCS esc rest
            else if (esc && (next =? ch_lbracket)) || (ch =? kCSI) then ansi_loop CS esc rest
            else if (esc && (next =? ch_rbracket)) || (ch =? kOSCI) then ansi_loop OSC esc rest
            else ch :: ansi_loop NotInSequence false rest
        | DCS =>
            if (ch =? kST) || (esc && (next =? ch_backslash)) then ansi_loop NotInSequence esc rest
            else ansi_loop DCS false rest
        | CS =>
            if (0x40 <=? ch) && (ch <=? 0x7E) then ansi_loop NotInSequence false rest
            else ansi_loop CS false rest
        | OSC =>
            if (ch =? kBEL) || (ch =? kST) || (esc && (next =? ch_backslash))
            then ansi_loop NotInSequence esc rest
            else ansi_loop OSC false rest
        end
  end.

(** ansi_filter.cc:36-100 RemoveEscapeSequences *)
Definition remove_escape_sequences (input : bytes) : bytes :=
  ansi_loop NotInSequence false input.

(** ** Size flags *)

(** jedec_size_flag.cc:21-61: ToJedecUnit composed with LeftShiftAmount;
    None is JedecUnit::Unkown. *)
Definition unit_shift (c : byte) : option N :=
  if (c =? 98) || (c =? 66) then Some 0          (* b B *)
  else if (c =? 107) || (c =? 75) then Some 10   (* k K *)
  else if (c =? 109) || (c =? 77) then Some 20   (* m M *)
  else if (c =? 103) || (c =? 71) then Some 30   (* g G *)
  else if (c =? 116) || (c =? 84) then Some 40   (* t T *)
  else if (c =? 112) || (c =? 80) then Some 50   (* p P *)
  else None.

Definition is_digit (c : byte) : bool := (48 <=? c) && (c <=? 57).

(** absl::ParseFlag for uint64_t, restricted to plain decimal digit strings
    (absl additionally accepts surrounding blanks, a sign and 0x prefixes;
    those are not modelled).  Values of 2^64 and more are rejected. *)
Fixpoint parse_digits (acc : N) (s : bytes) : option N :=
  match s with
  | [] => Some acc
  | c :: r => if is_digit c then parse_digits (10 * acc + (c - 48)) r else None
  end.
Definition parse_u64 (s : bytes) : option N :=
  match s with
  | [] => None
  | _ => match parse_digits 0 s with
         | Some v => if v <? 2 ^ 64 then Some v else None
         | None => None
         end
  end.

(** jedec_size_flag.cc:65-88 AbslParseFlag.  The shift is a 64-bit shift. *)
Definition jedec_parse (text : bytes) : outcome N :=
  match text with
  | [] => Fail
  | _ =>
      let back := last text 0 in
      match unit_shift back with
      | Some k =>
          match parse_u64 (removelast text) with
          | Some v => Ok (N.shiftl v k mod 2 ^ 64)
          | None => Fail
          end
      | None =>
          if is_digit back then
            match parse_u64 text with
            | Some v => Ok (N.shiftl v 0 mod 2 ^ 64)
            | None => Fail
            end
          else Fail
      end
  end.

(** Decimal printing, used by AbslUnparseFlag (jedec_size_flag.cc:90-92) and by
    users who write port ranges. *)
Fixpoint dec_digits (fuel : nat) (n : N) : bytes :=
  match fuel with
  | O => []
  | S f => if n <? 10 then [48 + n] else dec_digits f (n / 10) ++ [48 + n mod 10]
  end.
Definition print_dec (n : N) : bytes := dec_digits (N.to_nat (N.size n) + 1) n.

(** ** Port ranges *)

Definition ch_minus : byte := 45.
Definition ch_plus : byte := 43.

(** absl::StrSplit(value, '-') *)
Fixpoint split_at (sep : byte) (s : bytes) : list bytes :=
  match s with
  | [] => [[]]
  | c :: r =>
      if c =? sep then [] :: split_at sep r
      else match split_at sep r with
           | [] => [[c]]
           | p :: ps => (c :: p) :: ps
           end
  end.

(** C isspace in the "C" locale. *)
Definition is_space (c : byte) : bool := (c =? 32) || ((9 <=? c) && (c <=? 13)).

Fixpoint skip_space (s : bytes) : bytes :=
  match s with
  | [] => []
  | c :: r => if is_space c then skip_space r else s
  end.

Fixpoint leading_digits (acc : N) (s : bytes) : N :=
  match s with
  | [] => acc
  | c :: r => if is_digit c then leading_digits (10 * acc + (c - 48)) r else acc
  end.

(** atoi: blanks, optional sign, digits; values that do not fit an int are
    undefined behaviour (C11 7.22.1). *)
Definition atoi (s : bytes) : outcome Z :=
  let s := skip_space s in
  let '(neg, s) :=
    match s with
    | c :: r => if c =? ch_minus then (true, r) else if c =? ch_plus then (false, r) else (false, s)
    | [] => (false, s)
    end in
  let v := Z.of_N (leading_digits 0 s) in
  let v := if neg then (- v)%Z else v in
  if ((- 2 ^ 31 <=? v) && (v <? 2 ^ 31))%Z then Ok v else UB.

(** port_range_parser.cc:24-37 Parse: result (ok, first, last). *)
Definition port_range_parse (value : bytes) : outcome (bool * N * N) :=
  match split_at ch_minus value with
  | [] => Ok (false, 0, 0)
  | p0 :: rest =>
      match rest with
      | _ :: _ :: _ => Ok (false, 0, 0)
      | _ =>
          do ifirst <- atoi p0;
          do ilast <- match rest with [] => Ok ifirst | p1 :: _ => atoi p1 end;
          if ((ifirst <=? 0) || (65535 <? ifirst))%Z then Ok (false, 0, 0)
          else if ((ilast <=? 0) || (65535 <? ilast) || (ilast <? ifirst))%Z then Ok (false, 0, 0)
          else Ok (true, Z.to_N ifirst, Z.to_N ilast)
      end
  end.
