(** C78: reading and writing files as streams and as a whole. *)
From Verif Require Import Base ListX ModelStream SpecStream ProofStream.

(** ** StreamReadFileContents *)
(** Without a buffer: FailedPrecondition, and nothing is read. *)
Theorem C78_empty_buffer : forall H (h : handler H) fuel s f, stream_read fuel 0 h s f = Ok (mkr EmptyBuffer s f []).
Proof. reflexivity. Qed.

(** What is left of the file comes in pieces as large as the buffer, but for the last, none
    empty, in order, and then (nullptr, 0) if reading did not fail. It goes on until the
    handler has an error, and no further; the handler's error is the function's. *)
Theorem C78_read : forall H n (h : H -> option bytes -> bool * H) s f, 0 < n -> at_eof f = false ->
  exists ps tail st, cut n (remaining f) ps /\
    (reading_fails f /\ tail = [] /\ st = Broken \/ ~ reading_fails f /\ tail = [None] /\ st = Done) /\
    forall fuel, length (remaining f) < fuel -> exists r, stream_read fuel n (apart h) s f = Ok r /\
      let calls := map Some ps ++ tail in
      (r_status r = st /\ r_calls r = calls /\ accepts h s calls (r_state r) \/
       exists before c after s1, calls = before ++ c :: after /\ r_status r = Rejected /\ r_calls r = before ++ [c] /\
         accepts h s before s1 /\ h s1 c = (false, r_state r)).
Proof.
  intros H n h s f Hn He. pose proof (read_loop_apart n h Hn (S (length (remaining f))) s f He ltac:(lia)) as (_ & ps & _ & Hps & _).
  exists ps, (if faulty f then [] else [None]), (if faulty f then Broken else Done). split; [exact Hps|]. split.
  - destruct (faulty_spec f); [left|right]; auto.
  - intros fuel Hf. destruct (read_loop_apart n h Hn fuel s f He Hf) as (r & ps' & E & Hps' & Hend). exists r. split.
    + unfold stream_read. destruct n; [lia|exact E].
    + rewrite <- (cut_unique n _ _ _ Hps' Hps). exact Hend.
Qed.

(** Whatever the handler does, also with the file: the pieces are not empty and fit the
    buffer, only the last may be shorter, (nullptr, 0) can come only at the end, comes before
    every success, and never if reading failed. *)
Theorem C78_any_handler : forall H n (h : handler H) fuel s f r, 0 < n -> stream_read fuel n h s f = Ok r ->
  exists ps tail, r_calls r = map Some ps ++ tail /\ Forall (fun p => 0 < length p <= n) ps /\
    (forall i p, nth_error ps i = Some p -> S i < length ps -> length p = n) /\
    (tail = [] \/ tail = [None]) /\ (r_status r = Done -> tail = [None]) /\ (r_status r = Broken -> tail = []) /\ r_status r <> EmptyBuffer.
Proof. intros H n h fuel s f r Hn E. eapply read_loop_any; [exact Hn|]. unfold stream_read in E. destruct n; [lia|exact E]. Qed.

(** A handler may use the file: after a full piece that it accepts, reading goes on from the
    file as the handler left it, with the handler's new state. *)
Theorem C78_shared_file : forall H n (h : handler H) fuel s f s1 f2 r, 0 < n -> at_eof f = false -> n <= length (remaining f) ->
  h s (Some (firstn n (remaining f))) (mkfile (content f) (fault f) (pos f + n) false) = (true, s1, f2) ->
  stream_read fuel n h s1 f2 = Ok r ->
  stream_read (S fuel) n h s f = Ok (mkr (r_status r) (r_state r) (r_file r) (Some (firstn n (remaining f)) :: r_calls r)).
Proof.
  intros H n h fuel s f s1 f2 r Hn He Hl Hh E. unfold stream_read in *. destruct n as [|n]; [lia|]. cbn [read_loop].
  destruct (fread_spec (S n) f He) as (f1 & -> & Hc & Hf & Hp & _ & Heof).
  assert (Hd : length (firstn (S n) (remaining f)) = S n) by (rewrite firstn_length; lia). rewrite Hd in Hp, Heof. rewrite Nat.ltb_irrefl in Heof.
  assert (Ef1 : f1 = mkfile (content f) (fault f) (pos f + S n) false) by (destruct f1; cbn in *; congruence). rewrite Ef1. clear Ef1.
  destruct (firstn (S n) (remaining f)) as [|b l] eqn:El; [discriminate|]. rewrite Hd, Nat.eqb_refl. cbn [negb andb].
  match goal with |- context [h s ?c ?g] => replace (h s c g) with (true, s1, f2) by (symmetry; exact Hh) end. cbn [negb].
  match goal with |- context [read_loop fuel ?m h s1 f2] => replace (read_loop fuel m h s1 f2) with (Ok r) by (symmetry; exact E) end. reflexivity.
Qed.

(** It ends if the handler neither changes the content nor goes back in the file. *)
Theorem C78_ends : forall H n (h : handler H) s f, 0 < n ->
  (forall s c f, let f1 := snd (h s c f) in content f1 = content f /\ pos f <= pos f1) ->
  forall fuel, length (content f) < fuel -> exists r, stream_read fuel n h s f = Ok r.
Proof. intros H n h s f Hn Hh fuel Hf. unfold stream_read. destruct n; [lia|]. apply read_loop_ends; [lia|exact Hh|lia]. Qed.

(** ** StreamWriteFileContents *)
(** What the handler gives until its first empty piece or its error is written in order, and
    its verdict is the function's; or there is not enough room, the function says so, and
    what was written is the beginning of it. *)
Theorem C78_write : forall W b (h : W -> option bytes * W) s ps st s' o fuel,
  gives h s ps st s' -> length ps < fuel -> length (pending o) <= room o ->
  exists st1 s1 o1, write_loop fuel b h s o = Ok (st1, s1, o1) /\
    (st1 = st /\ s1 = s' /\ disk o1 ++ pending o1 = (disk o ++ pending o) ++ concat ps \/
     st1 = Broken /\ room o < length (pending o) + length (concat ps) /\
       exists lost, (disk o ++ pending o) ++ concat ps = (disk o1 ++ pending o1) ++ lost).
Proof.
  intros W b h s ps st s' o fuel G Hf Hr. destruct (write_loop_gives h b s ps st s' G fuel o Hf Hr) as (st1 & s1 & o1 & E & [[(A & B & C & D)|(A & B & C & D)]|H]);
  exists st1, s1, o1; (split; [exact E|]); [left|left|right]; auto.
Qed.
(** With enough room, after fclose the file has exactly the pieces. *)
Theorem C78_write_all : forall W b (h : W -> option bytes * W) s ps s' space fuel,
  gives h s ps Done s' -> length ps < fuel -> length (concat ps) <= space ->
  exists o1, write_loop fuel b h s (mko [] [] space) = Ok (Done, s', o1) /\ fst (fclose o1) = true /\ disk (snd (fclose o1)) = concat ps.
Proof.
  intros W b h s ps s' space fuel G Hf Hs.
  destruct (write_loop_gives h b s ps Done s' G fuel (mko [] [] space) Hf ltac:(cbn; lia)) as (st1 & s1 & o1 & E & [[(-> & -> & C & D)|(A & B & C & D)]|(A & B & _)]); cbn [pending room length] in *; try lia.
  exists o1. split; [exact E|]. rewrite (fclose_fits o1 D). split; [reflexivity|exact C].
Qed.
(** Copying a file through pieces of any size and a buffer of any size copies it. *)
Theorem C78_copy : forall n b f ps, at_eof f = false -> cut n (remaining f) ps -> forall space, length (remaining f) <= space ->
  let next (l : list bytes) := match l with [] => (Some [], []) | p :: r => (Some p, r) end in
  forall fuel, length ps < fuel -> exists o1, write_loop fuel b next ps (mko [] [] space) = Ok (Done, [], o1) /\ disk (snd (fclose o1)) = remaining f.
Proof.
  intros n b f ps He (H1 & H2 & H3) space Hs next fuel Hf. destruct (C78_write_all _ b next ps ps [] space fuel) as (o1 & E & _ & Hd); try assumption.
  - clear -H2. induction ps as [|p ps IH]; [apply gives_end; reflexivity|]. inversion H2; subst. econstructor; [|reflexivity|auto]. intros ->. cbn in *. lia.
  - rewrite H1. exact Hs.
  - exists o1. split; [exact E|]. rewrite Hd. exact H1.
Qed.

(** ** WriteFile *)
Theorem C78_write_file : forall b data space, length data <= space -> write_file b data space = (true, data, 0).
Proof.
  intros b data space H. unfold write_file. destruct (fwrite_ok b data (mko [] [] space)) as (o1 & -> & Hw & Hle); [exact H|].
  rewrite (fclose_fits o1 Hle). cbn. rewrite Hw. reflexivity.
Qed.
Theorem C78_write_file_prefix : forall b data space, exists lost, data = snd (fst (write_file b data space)) ++ lost.
Proof.
  intros b data space. unfold write_file, fwrite. cbn [pending disk room app]. destruct (Nat.ltb (length data) b).
  - exists (skipn space data). cbn. symmetry. apply firstn_skipn.
  - unfold flush. cbn. destruct (Nat.leb (length data) space); cbn; [exists (skipn (space - length data) [] ++ skipn space data)|exists (skipn space data)].
    + rewrite firstn_nil, skipn_nil, app_nil_r. cbn. symmetry. apply firstn_skipn.
    + symmetry. apply firstn_skipn.
Qed.

(** ** ReadFile *)
(** A file that can be read and does not change meanwhile is read as a whole, and closed. *)
Theorem C78_read_file : forall n, n_tell n = N.of_nat (length (n_data n)) -> n_fault n = None -> (n_tell n <= kMemory)%N ->
  read_file_buffer (Some n) = (Got (n_data n), 0) /\ read_file_string (Some n) = (Got (n_data n), 0).
Proof.
  intros n Ht Hf Hm. unfold read_file_buffer, read_file_string.
  replace (N.ltb kMemory (n_tell n)) with false by (symmetry; apply N.ltb_ge; exact Hm).
  rewrite fread_opened. cbn [fst]. unfold remaining, opened. cbn [pos fault content]. rewrite Hf. cbn [skipn].
  rewrite Ht, Nat2N.id, firstn_all, Nat.eqb_refl. split; reflexivity.
Qed.
(** What is returned is never anything but what the path names, as much as it was said to be. *)
Theorem C78_read_file_sound : forall x d k, read_file_buffer (Some x) = (Got d, k) \/ read_file_string (Some x) = (Got d, k) ->
  k = 0 /\ N.of_nat (length d) = n_tell x /\ exists rest, n_data x = d ++ rest.
Proof.
  intros x d k H. assert (G : (n_tell x <= kMemory)%N /\ k = 0 /\ d = firstn (N.to_nat (n_tell x)) (remaining (opened x)) /\ length d = N.to_nat (n_tell x)).
  { unfold read_file_buffer, read_file_string in H. rewrite (fread_opened (N.to_nat (n_tell x))) in H. cbn [fst] in H.
    destruct (N.ltb_spec kMemory (n_tell x)); [destruct H as [H|H]; [destruct (fst (fread 1 (opened x)))|]; discriminate|].
    destruct (Nat.eqb_spec (length (firstn (N.to_nat (n_tell x)) (remaining (opened x)))) (N.to_nat (n_tell x))) as [E|E]; [|destruct H; discriminate].
    split; [assumption|]. destruct H as [H|H]; injection H as <- <-; auto. }
  destruct G as (_ & -> & Hd & Hl). split; [reflexivity|]. split; [lia|].
  unfold remaining, opened in Hd. cbn [pos fault content skipn] in Hd. destruct (n_fault x) as [q|]; subst d.
  - exists (skipn (Nat.min (N.to_nat (n_tell x)) q) (n_data x)). rewrite firstn_firstn. symmetry. apply firstn_skipn.
  - exists (skipn (N.to_nat (n_tell x)) (n_data x)). symmetry. apply firstn_skipn.
Qed.
Theorem C78_read_file_missing : read_file_buffer None = (Error, 0) /\ read_file_string None = (Error, 0).
Proof. split; reflexivity. Qed.

(** "Reads at most |len| bytes starting at |offset|": of a file in which one can seek, and for
    offsets below 2^63; what is behind the end is not there. *)
Theorem C78_read_range : forall n offset len, n_seekable n = true -> (offset < 2 ^ 63)%N -> n_fault n = None ->
  read_file_range (Some n) offset len = (Got (firstn len (skipn (N.to_nat offset) (n_data n))), 0).
Proof.
  intros n offset len Hs Ho Hf. unfold read_file_range. destruct len as [|len]; [reflexivity|].
  set (f := if N.eqb offset 0 then opened n else fseek offset n (opened n)).
  assert (Hff : f = mkfile (n_data n) (n_fault n) (N.to_nat offset) false).
  { unfold f. destruct (N.eqb_spec offset 0) as [->|_]; [reflexivity|]. unfold fseek. rewrite Hs. apply N.ltb_lt in Ho. rewrite Ho. reflexivity. }
  destruct (fread_spec (S len) f) as (f1 & -> & _ & _ & _ & _ & He); [rewrite Hff; reflexivity|].
  assert (Hr : remaining f = skipn (N.to_nat offset) (n_data n)) by (rewrite Hff; unfold remaining; cbn [pos fault content]; rewrite Hf; reflexivity).
  rewrite Hr in *. rewrite He. replace (faulty f) with false by (rewrite Hff; unfold faulty; cbn [fault]; rewrite Hf; reflexivity). cbn [negb].
  destruct (Nat.eqb_spec (length (firstn (S len) (skipn (N.to_nat offset) (n_data n)))) (S len)) as [E|E]; cbn [negb andb]; [reflexivity|].
  rewrite (proj2 (Nat.ltb_lt _ _)); [reflexivity|]. pose proof (firstn_le_length (S len) (skipn (N.to_nat offset) (n_data n))). rewrite firstn_length in *. lia.
Qed.
(** A fault within the range is an error. *)
Theorem C78_read_range_error : forall n offset len q, n_seekable n = true -> (offset < 2 ^ 63)%N -> n_fault n = Some q -> q <= length (n_data n) ->
  q < N.to_nat offset + len -> 0 < len -> read_file_range (Some n) offset len = (Error, 0).
Proof.
  intros n offset len q Hs Ho Hf Hq Hlt Hl. unfold read_file_range. destruct len as [|len]; [lia|].
  set (f := if N.eqb offset 0 then opened n else fseek offset n (opened n)).
  assert (Hff : f = mkfile (n_data n) (n_fault n) (N.to_nat offset) false).
  { unfold f. destruct (N.eqb_spec offset 0) as [->|_]; [reflexivity|]. unfold fseek. rewrite Hs. apply N.ltb_lt in Ho. rewrite Ho. reflexivity. }
  destruct (fread_spec (S len) f) as (f1 & -> & _ & _ & _ & _ & He); [rewrite Hff; reflexivity|].
  assert (Hr : remaining f = skipn (N.to_nat offset) (firstn q (n_data n))) by (rewrite Hff; unfold remaining; cbn [pos fault content]; rewrite Hf; reflexivity).
  rewrite He. replace (faulty f) with true by (rewrite Hff; unfold faulty; cbn [fault content]; rewrite Hf; symmetry; apply Nat.leb_le; exact Hq). cbn [negb].
  assert (Hshort : length (firstn (S len) (remaining f)) < S len) by (rewrite Hr, firstn_length, skipn_length, firstn_length; lia).
  rewrite (proj2 (Nat.ltb_lt _ _) Hshort). rewrite (proj2 (Nat.eqb_neq _ _)) by lia. reflexivity.
Qed.

(** ** Claims that are false *)
(** "Returns ok" does not mean written: what fclose says is not looked at (path.cc:976). *)
Theorem C78_refuted_write_file_ok : exists b data space, write_file b data space = (true, [], 0) /\ data <> [].
Proof. exists 4096, [1%N], 0. split; [reflexivity|discriminate]. Qed.
(** Files that could not be written or read as a whole stay open (path.cc:838, 886, 972). *)
Theorem C78_refuted_closed : (exists b data space, snd (write_file b data space) = 1) /\
  (exists n, n_fault n = Some 0 /\ read_file_buffer (Some n) = (Error, 1) /\ read_file_string (Some n) = (Error, 1)).
Proof. split; [exists 1, [1%N], 0; reflexivity|]. exists (mknode [1%N] (Some 0) 1 true). vm_compute. auto. Qed.
(** Reading a directory or a pipe is not an error: a directory's end is at 2^63-1, a pipe has none (-1).
    The string cannot be made so large, and what a pipe has is written to address 0. *)
Theorem C78_refuted_no_crash :
  read_file_string (Some (mknode [] (Some 0) (2 ^ 63 - 1) true)) = (Crash, 1) /\
  read_file_buffer (Some (mknode [] (Some 0) (2 ^ 63 - 1) true)) = (Error, 1) /\
  read_file_buffer (Some (mknode [1%N] None (2 ^ 64 - 1) false)) = (Crash, 1).
Proof. vm_compute. auto. Qed.
(** "starting at |offset|": where one cannot seek, the beginning is returned. *)
Theorem C78_refuted_offset : exists n offset, read_file_range (Some n) offset 1 = (Got [1%N], 0) /\
  n_data n = [1; 2]%N /\ offset = (2 ^ 63 + 1)%N /\ n_seekable n = true.
Proof. exists (mknode [1; 2]%N None 2 true), (2 ^ 63 + 1)%N. split; [vm_compute; reflexivity|]. auto. Qed.
Theorem C78_refuted_pipe : exists n, n_data n = [1; 2]%N /\ read_file_range (Some n) 1 1 = (Got [1%N], 0).
Proof. exists (mknode [1; 2]%N None (2 ^ 64 - 1) false). split; vm_compute; reflexivity. Qed.
(** A missing file is read without an error if nothing is to be read. *)
Theorem C78_refuted_missing_range : forall offset, read_file_range None offset 0 = (Got [], 0).
Proof. reflexivity. Qed.

(** ** Examples *)
Definition collector : list bytes -> option bytes -> bool * list bytes := fun l c => match c with Some d => (true, l ++ [d]) | None => (true, l) end.
Example C78_example_read : stream_read 9 2 (apart collector) [] (mkfile [1; 2; 3; 4; 5]%N None 0 false) =
  Ok (mkr Done [[1; 2]; [3; 4]; [5]]%N (mkfile [1; 2; 3; 4; 5]%N None 5 true) [Some [1; 2]; Some [3; 4]; Some [5]; None]%N).
Proof. vm_compute. reflexivity. Qed.
(** A handler that goes back to the beginning at the last piece: the end is the end. *)
Example C78_example_rewinding : exists r, stream_read 9 2 (fun (s : nat) c f => (true, s, mkfile (content f) (fault f) (if Nat.leb 3 (pos f) then 0 else pos f) false)) 0 (mkfile [1; 2; 3]%N None 0 false) = Ok r /\
  r_calls r = [Some [1; 2]; Some [3]; None]%N.
Proof. eexists. split; vm_compute; reflexivity. Qed.
(** A handler that reads on itself: it skips a byte after every piece. *)
Example C78_example_shared : exists r, stream_read 9 2 (fun (s : nat) c f => (true, s, mkfile (content f) (fault f) (S (pos f)) false)) 0 (mkfile [1; 2; 3; 4; 5; 6]%N None 0 false) = Ok r /\
  r_calls r = [Some [1; 2]; Some [4; 5]; None]%N.
Proof. eexists. split; vm_compute; reflexivity. Qed.
Example C78_example_fault : exists r, stream_read 9 2 (apart collector) [] (mkfile [1; 2; 3; 4; 5]%N (Some 3) 0 false) = Ok r /\
  r_status r = Broken /\ r_calls r = [Some [1; 2]; Some [3]]%N.
Proof. eexists. split; [vm_compute; reflexivity|]. split; reflexivity. Qed.
Example C78_example_gives : gives (fun l : list bytes => match l with [] => (Some [], []) | p :: r => (Some p, r) end) [[1]; [2; 3]]%N [[1]; [2; 3]]%N Done [].
Proof. econstructor; [discriminate|reflexivity|]. econstructor; [discriminate|reflexivity|]. apply gives_end. reflexivity. Qed.
