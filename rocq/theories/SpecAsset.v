(** Specification for C26, C27, C43: what file a manifest entry describes. *)
From Verif Require Import Base Str ModelText ModelChunkMap ModelProvider SpecProvider ModelAsset.
Local Open Scope N_scope.

Definition blen (b : bytes) : N := N.of_nat (length b).
Definition total (bs : list bytes) : N := blen (concat bs).

Section Spec.
(** The chunk and the chunk list with a given content id. *)
Context (truth : cid -> option bytes) (lists : cid -> option (list cref)).

(** The chunks follow each other without gap, starting at [pos]. *)
Inductive layout : N -> list cref -> list bytes -> Prop :=
| layout_nil pos : layout pos [] []
| layout_cons r rs b bs : truth (cr_id r) = Some b -> layout (cr_off r + blen b) rs bs -> layout (cr_off r) (r :: rs) (b :: bs).

(** The indirect lists follow each other; offsets in a list are relative to it. *)
Inductive ind_layout : N -> list (N * cid) -> list bytes -> Prop :=
| ind_nil pos : ind_layout pos [] []
| ind_cons pos id rest refs bs bs' : lists id = Some refs -> layout 0 refs bs ->
    ind_layout (pos + total bs) rest bs' -> ind_layout pos ((pos, id) :: rest) (bs ++ bs').

(** The manifest entry describes a file with these contents. *)
Definition describes (fp : fproto) (content : bytes) : Prop :=
  exists d i, layout 0 (fp_chunks fp) d /\ ind_layout (total d) (fp_ind fp) i /\
    content = concat (d ++ i) /\ fp_size fp = blen content /\ blen content < 18446744073709551616.

(** (absolute offset, chunk id) of all chunks. *)
Definition abs_refs (off : N) (refs : list cref) : list (N * cid) := map (fun r => (off + cr_off r, cr_id r)) refs.
Inductive ind_refs : list (N * cid) -> list (N * cid) -> Prop :=
| ir_nil : ind_refs [] []
| ir_cons off id rest refs out : lists id = Some refs -> ind_refs rest out -> ind_refs ((off, id) :: rest) (abs_refs off refs ++ out).
Definition all_refs (fp : fproto) (out : list (N * cid)) : Prop :=
  exists o, ind_refs (fp_ind fp) o /\ out = abs_refs 0 (fp_chunks fp) ++ o.
End Spec.

(** [get] is a correct transfer of chunk ranges as long as [inv] holds of the cache:
    the ranges it marks done hold the requested bytes. *)
Definition good_get (truth : cid -> option bytes) (inv : cache -> Prop) (get : list task -> M (status * list task)) : Prop :=
  forall (ts : list task) (c : cache) (s : status) (ts' : list task) (c' : cache), inv c ->
    Forall (fun t => t_done t = false /\ t_data t = []) ts -> get ts c (s, ts') c' ->
    Forall2 same_request ts ts' /\ (forall t, In t ts' -> t_done t = true -> t_size t <> 0%nat -> delivered truth t).

(** A child of a directory: the first with that name. *)
Definition child_named {A} (name : A -> bytes) (l : list A) (n : bytes) : option A :=
  find (fun a => if list_eq_dec N.eq_dec (name a) n then true else false) l.
