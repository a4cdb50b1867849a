(** Model of the chunk size distribution of cdc_indexer/main.cc: the buckets
    listed on the screen and the columns of the results file.

    Simplifications: counts are unbounded (uint64_t); an unordered_map is its
    list of entries; fractions are represented by their numerators; text output
    is left out. *)
From Verif Require Import Base Str ModelIndexer.
Local Open Scope N_scope.

(** What main makes of the size flags, main.cc:381-397; the asserts in between
    are the conditions [main_ok]. JedecSize flags are numbers (C20). *)
Definition main_cfg (mn av mx rb th : N) (h : hash_type) : icfg :=
  let mn := if mn =? 0 then av / 2 else mn in
  let mx := if mx =? 0 then w64 (2 * av) else mx in
  let rb := if rb =? 0 then mx else rb in
  {| read_block := rb; min_chunk := mn; avg_chunk := av; max_chunk := mx;
     step_size := N.max (mn / 4) 1024; threads := th; htype := h |}.
Definition main_ok (c : icfg) : Prop :=
  0 < avg_chunk c /\ min_chunk c < avg_chunk c /\ avg_chunk c < max_chunk c /\ htype c <> HUndefined.

(** sizes.find *)
Definition lookup (b : N) (m : list (N * N)) : N :=
  match find (fun x => fst x =? b) m with Some x => snd x | None => 0 end.

(** The first loop over the map, main.cc:220-229 *)
Record scan := { lo : N; hi : N; most : N; outside : N; total : N }.
Definition scan_one (fmin fmax : N) (x : scan) (e : N * N) : scan :=
  let '(k, v) := e in
  {| lo := if k <? lo x then k else lo x;
     hi := if hi x <? k then k else hi x;
     most := if most x <? v then v else most x;
     outside := outside x + (if k <? fmin then v else 0) + (if (0 <? fmax) && (fmax <? k) then v else 0);
     total := total x + v |}.
Definition scan_map (fmin fmax : N) (m : list (N * N)) : scan :=
  fold_left (scan_one fmin fmax) m {| lo := 2 ^ 31; hi := 0; most := 0; outside := 0; total := 0 |}.

(** The loop for powers of two, main.cc:232-237: buckets and the size reached *)
Fixpoint pow_rows (fuel : nat) (size stop : N) : outcome (list N * N) :=
  if size <? stop then
    match fuel with
    | O => OutOfFuel
    | S f => do r <- pow_rows f (w64 (2 * size)) stop; Ok (size :: fst r, snd r)
    end
  else Ok ([], size).
(** The loop for the steps, main.cc:240-244 *)
Fixpoint step_rows (fuel : nat) (st size stop : N) : outcome (list N) :=
  if size <=? stop then
    match fuel with
    | O => OutOfFuel
    | S f => do r <- step_rows f st (w64 (size + st)) stop; Ok (size :: r)
    end
  else Ok [].

(** ChunkSizeBuckets, main.cc:210-250. [found_all] is the condition of the
    final assert, which is compiled out of release builds. *)
Record buckets := { rows : list N; max_count : N; total_count : N; found_all : bool }.
Fixpoint lookups (l : list N) (m : list (N * N)) : N :=
  match l with [] => 0 | b :: r => lookup b m + lookups r m end.
Definition chunk_size_buckets (c : icfg) (m : list (N * N)) (fmin fmax : N) : outcome buckets :=
  let x := scan_map fmin fmax m in
  let first := if 0 <? fmin then fmin else lo x in
  do p <- pow_rows 64 first (N.min (min_chunk c) (hi x));
  let last := if hi x <? fmax then fmax else hi x in
  do q <- step_rows (S (S (N.to_nat (last / step_size c)))) (step_size c) (snd p) last;
  let l := fst p ++ q in
  Ok {| rows := l; max_count := most x; total_count := total x;
        found_all := total x =? lookups l m + outside x |}.

(** ShowChunkSizes, main.cc:252-263: the buckets and counts printed. *)
Definition show_chunk_sizes (c : icfg) (m : list (N * N)) : outcome (list (N * N)) :=
  do b <- chunk_size_buckets c m 0 0;
  Ok (map (fun r => (r, lookup r m)) (rows b)).

(** The chunk distribution of WriteResultsFile, main.cc:297-359: column header
    and numerator of the fraction. The average chunk size in :347 is an integer
    division by the number of unique chunks. *)
Fixpoint dist_columns (first : bool) (below above : N) (m : list (N * N)) (l : list N) : list (N * N) :=
  match l with
  | [] => []
  | b :: r =>
      (b, lookup b m + (if first then below else match r with [] => above | _ => 0 end))
      :: dist_columns false below above m r
  end.
Definition count_if (p : N -> bool) (m : list (N * N)) : N :=
  fold_left (fun a e => if p (fst e) then a + snd e else a) m 0.
Definition results_columns (c : icfg) (x : stats) (m : list (N * N)) : outcome (list (N * N)) :=
  do b <- chunk_size_buckets c m (min_chunk c) (max_chunk c);
  if unique_chunks x =? 0 then UB
  else Ok (dist_columns true (count_if (fun k => k <? min_chunk c) m)
             (count_if (fun k => max_chunk c <? k) m) m (rows b)).
