(** What a URL and an scp command look like. *)
From Verif Require Import Base ModelAddr.
Local Open Scope N_scope.

Definition is_digit (c : byte) : Prop := 48 <= c <= 57.
(** (https?)://([^:^?/]+)(?::([0-9]+))?.* matches |u| with these groups; |port| is the optional
    one, with its colon. *)
Definition matches (u proto host port rest : bytes) : Prop :=
  u = proto ++ [58; 47; 47] ++ host ++ port ++ rest /\
  (proto = [104; 116; 116; 112] \/ proto = [104; 116; 116; 112; 115]) /\
  host <> [] /\ Forall (fun c => c <> 58 /\ c <> 94 /\ c <> 63 /\ c <> 47) host /\
  (port = [] \/ exists d, port = 58 :: d /\ d <> [] /\ Forall is_digit d) /\
  Forall (fun c => c <> 10 /\ c <> 13) rest.
(** The match that ECMAScript prefers: the longest host, then the longest port. *)
Definition best_match (u proto host port rest : bytes) : Prop :=
  matches u proto host port rest /\
  forall proto' host' port' rest', matches u proto' host' port' rest' ->
    proto' = proto /\ (length host' <= length host)%nat /\ (host' = host -> (length port' <= length port)%nat).
(** Same text but for the case of ASCII letters. *)
Definition lower_case (a b : bytes) : Prop :=
  Forall2 (fun x y => if (65 <=? x) && (x <=? 90) then y = x + 32 else y = x) a b.

(** |l| is |a|, the word scp in any case, and |b|, which is empty or starts with a blank, a dot or NUL. *)
Definition scp_at (l a b : bytes) : Prop :=
  exists s c p, l = a ++ s :: c :: p :: b /\ (s = 115 \/ s = 83) /\ (c = 99 \/ c = 67) /\ (p = 112 \/ p = 80) /\
    (b = [] \/ exists x r, b = x :: r /\ (x = 0 \/ x = 46 \/ x = 32)).
Definition has (p l : bytes) : Prop := exists a b, l = a ++ p ++ b.
Definition begins (p l : bytes) : Prop := exists b, l = p ++ b.
