(** Model of manifest/manifest_iterator.cc. The nodes of the list dirs_ have addresses; a new
    node gets any address that is not in use, possibly that of a node freed before (the code
    compares such addresses in UpdateRelPath). *)
From Verif Require Import Base ModelChunkMap ModelManifest.
From Verif Require ModelPath.
Local Notation str := (list N).

Section Iter.
(** GetProto for the id of an asset list; the allocator: [alloc k live] is the address of the
    [k]-th node allocated, when the nodes [live] exist. *)
Variables (store : cid -> option (list asset)) (alloc : nat -> list N -> N).

(** OpenedDirectory (manifest_iterator.cc:32-57). *)
Record od := mkod { o_addr : N; o_dir : asset; o_list : option (list asset); o_next : nat; o_next_list : nat; o_next_item : nat }.
(** dirs_ (the last element first), last_opened_dir_, rel_path_, status_ (manifest_iterator.h:105-110). *)
Record st := mkst { s_dirs : list od; s_last : option N; s_rel : str; s_ok : bool; s_tick : nat }.

(** dirs_.emplace_back. *)
Definition push (a : asset) (s : st) : st :=
  mkst (mkod (alloc (s_tick s) (map o_addr (s_dirs s))) a None 0 0 0 :: s_dirs s) (s_last s) (s_rel s) (s_ok s) (S (s_tick s)).
(** Open (66-71, 73-96) with Reset (156-161); [root]: root_dir of the manifest. *)
Definition opened (root : asset) : st := push root (mkst [] None [] true 0).
(** MutableAsset (100-106): the asset at an index, and the state after it. *)
Definition mutable_asset (a : asset) (s : st) : st := if type_eqb (a_type a) TDir then push a s else s.
(** UpdateRelPath (108-115). *)
Definition update_rel (d : od) (s : st) : st :=
  match s_last s with
  | Some x => if (x =? o_addr d)%N then s
              else mkst (s_dirs s) (Some (o_addr d)) (fold_left (fun acc e => ModelPath.append acc (a_name (o_dir e))) (rev (s_dirs s)) []) (s_ok s) (s_tick s)
  | None => mkst (s_dirs s) (Some (o_addr d)) (fold_left (fun acc e => ModelPath.append acc (a_name (o_dir e))) (rev (s_dirs s)) []) (s_ok s) (s_tick s)
  end.
Definition set_top (d : od) (s : st) : st :=
  match s_dirs s with [] => s | _ :: r => mkst (d :: r) (s_last s) (s_rel s) (s_ok s) (s_tick s) end.
Definition pop (s : st) : st := mkst (tl (s_dirs s)) (s_last s) (s_rel s) (s_ok s) (s_tick s).
Definition set_ok (b : bool) (s : st) : st := mkst (s_dirs s) (s_last s) (s_rel s) b (s_tick s).

(** One pass of NextEntry's loop (117-154). *)
Inductive res := RYield (a : asset) (s : st) | RCont (s : st) | RStop (s : st).
Definition iter (s : st) : res :=
  match s_dirs s with
  | [] => RStop s
  | d :: _ =>
      if s_ok s then
        let s := update_rel d s in
        match nth_error (a_dirs (o_dir d)) (o_next d) with
        | Some a => RYield a (mutable_asset a (set_top (mkod (o_addr d) (o_dir d) (o_list d) (S (o_next d)) (o_next_list d) (o_next_item d)) s))
        | None =>
            match (match o_list d with Some l => nth_error l (o_next_item d) | None => None end) with
            | Some a => RYield a (mutable_asset a (set_top (mkod (o_addr d) (o_dir d) (o_list d) (o_next d) (o_next_list d) (S (o_next_item d))) s))
            | None =>
                match nth_error (a_ind (o_dir d)) (o_next_list d) with
                | Some id =>
                    match store id with
                    | Some l => RCont (set_top (mkod (o_addr d) (o_dir d) (Some l) (o_next d) (S (o_next_list d)) 0) s)
                    | None => RStop (set_ok false (set_top (mkod (o_addr d) (o_dir d) (Some []) (o_next d) (S (o_next_list d)) 0) s))
                    end
                | None => RCont (pop s)
                end
            end
        end
      else RStop s
  end.
Fixpoint next_entry (fuel : nat) (s : st) : outcome (option asset * st) :=
  match fuel with
  | O => OutOfFuel
  | S f => match iter s with
           | RYield a s2 => Ok (Some a, s2)
           | RCont s2 => next_entry f s2
           | RStop s2 => Ok (None, s2)
           end
  end.
(** [k] calls of NextEntry, each followed by RelativePath (manifest_iterator.h:73). *)
Fixpoint calls (fuel k : nat) (s : st) : outcome (list (option (str * asset)) * st) :=
  match k with
  | O => Ok ([], s)
  | S k2 => do (r, s2) <- next_entry fuel s;
            do (l, s3) <- calls fuel k2 s2;
            Ok (match r with Some a => Some (s_rel s2, a) | None => None end :: l, s3)
  end.
End Iter.
