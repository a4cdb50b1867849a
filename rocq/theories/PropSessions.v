(** C56: the session manager (cdc_stream/session_manager.cc and the session table of
    cdc_stream/multi_session.cc). *)
From Verif Require Import Base ListX SpecSessions ModelSessions ProofSessions.
From Verif Require SpecPathFilter.
Local Notation str := (list N).

(** An instance is streamed from at most one directory. *)
Theorem C56_one_directory : forall key h t i k1 k2, history key h t -> streams t i k1 -> streams t i k2 -> k1 = k2.
Proof. intros key h t i k1 k2 H. exact (w_one _ (history_wf key h t H) i k1 k2). Qed.

(** Start: on success the instance is streamed from the given directory and from no other
    one; on failure it is streamed from nowhere it was not streamed from before; in every
    case no other instance is affected. *)
Theorem C56_start : forall key h t e i dir a t2, history key h t -> perform key e (Start i dir) t = (a, t2) ->
  (a = AOk -> forall k, streams t2 i k <-> k = key dir) /\
  (a <> AOk -> forall k, streams t2 i k -> streams t i k) /\
  (forall j k, j <> i -> (streams t2 j k <-> streams t j k)) /\ a <> ANotFound.
Proof.
  intros key h t e i dir a t2 H P. destruct (start_session_spec key e i dir t a t2 (history_wf key h t H) P) as (_ & O & S).
  split; [intros ->; exact S|]. split; [|split; [exact O|intros ->; exact S]]. intros Na. destruct a; [contradiction|contradiction|exact S|apply S].
Qed.
(** A healthy session is reused: nothing changes. *)
Theorem C56_start_reuses : forall key h t e i dir, history key h t -> streams t i (key dir) -> valid_dir e = true -> healthy e i = true ->
  perform key e (Start i dir) t = (AOk, t).
Proof.
  intros key h t e i dir _ (m & G & HI) V He. cbn. unfold start_session. rewrite V, G. cbn [negb]. cbv zeta. rewrite (proj2 (mem_In i (m_sessions m)) HI), He. reflexivity.
Qed.
(** A successful Start means: the instance has a healthy session for the directory, or its
    remote component was started and has acknowledged the manifest during this call. *)
Theorem C56_start_ok_runs : forall key h t e i dir t2, history key h t -> perform key e (Start i dir) t = (AOk, t2) ->
  valid_dir e = true /\ ((streams t i (key dir) /\ healthy e i = true) \/ (start_ok e i = true /\ ack_ok e i = true)).
Proof.
  intros key h t e i dir t2 _ P. cbn in P. unfold start_session in P. destruct (valid_dir e); cbn [negb] in P; [|discriminate]. split; [reflexivity|]. cbv zeta in P.
  assert (Ms : forall k m t1, ms_start e i k m t1 = (AOk, t2) -> start_ok e i = true /\ ack_ok e i = true).
  { intros k m t1 M. unfold ms_start in M. destruct (mem i (m_sessions m)), (m_failed m), (start_ok e i), (m_down m), (ack_ok e i); try discriminate; auto. }
  destruct (get (key dir) t) as [m|] eqn:G.
  - destruct (mem i (m_sessions m)) eqn:Mi.
    + apply mem_In in Mi. destruct (healthy e i); [left; split; [now exists m|reflexivity]|]. right. destruct (stop_ok e i); cbn [negb] in P; [|discriminate]. exact (Ms _ _ _ P).
    + right. destruct (stop_internal e i t) as (a0 & t1). destruct a0; try discriminate; (destruct (get (key dir) t1); [exact (Ms _ _ _ P)|]; destruct (init_ok e); [exact (Ms _ _ _ P)|discriminate]).
  - right. destruct (stop_internal e i t) as (a0 & t1). destruct a0; try discriminate; (destruct (get (key dir) t1); [exact (Ms _ _ _ P)|]; destruct (init_ok e); [exact (Ms _ _ _ P)|discriminate]).
Qed.
(** If the directory is invalid, the old session of the instance is stopped (if it can be). *)
Theorem C56_start_invalid : forall key h t e i dir a t2, history key h t -> valid_dir e = false -> stop_ok e i = true -> perform key e (Start i dir) t = (a, t2) ->
  a = AError /\ forall k, ~ streams t2 i k.
Proof.
  intros key h t e i dir a t2 H V So P. cbn in P. unfold start_session in P. rewrite V in P. cbn [negb] in P. inversion P; subst. split; [reflexivity|].
  destruct (stop_internal e i t) as (a0 & t1) eqn:S. destruct (stop_internal_spec _ _ _ _ _ (history_wf key h t H) S) as (_ & _ & X). cbn. intros k Y.
  destruct a0; [destruct X as (G & _); apply G in Y; tauto|destruct X as (-> & X); exact (X k Y)|destruct X as [(_ & X)|(G & _)]; [congruence|apply G in Y; tauto]|exact X].
Qed.

(** Stop: exactly the matching sessions end. *)
Theorem C56_stop : forall key h t e pat a t2, history key h t -> SpecPathFilter.nul_free pat ->
  (forall j k, streams t j k -> SpecPathFilter.nul_free j /\ j <> []) -> perform key e (Stop pat) t = (a, t2) ->
  (a = AOk -> forall j k, streams t2 j k <-> streams t j k /\ ~ SpecPathFilter.glob pat j) /\
  (a = ANotFound <-> forall j k, streams t j k -> ~ SpecPathFilter.glob pat j) /\ (a = ANotFound -> t2 = t) /\
  (forall j k, ~ SpecPathFilter.glob pat j -> (streams t2 j k <-> streams t j k)) /\ (forall j k, streams t2 j k -> streams t j k) /\ a <> ACrash.
Proof.
  intros key h t e pat a t2 H Np Nj P. pose proof (history_wf key h t H) as W. cbn in P. unfold stop_session in P.
  assert (Gl : forall j k, streams t j k -> (In j (match_sessions pat t) <-> SpecPathFilter.glob pat j)).
  { intros j k S. destruct (Nj j k S) as (A & B). rewrite (In_match_sessions pat t j W). rewrite (matches_glob pat j A Np B). split; [tauto|]. intros G. split; [exact G|]. now exists k. }
  destruct (match_sessions pat t) as [|x l] eqn:M.
  - inversion P; subst. repeat split; auto; try discriminate; try tauto. intros _ j k S G. apply (Gl j k S) in G. destruct G.
  - assert (HIn : forall i, In i (x :: l) -> exists k, streams t i k) by (intros i HI; rewrite <- M in HI; apply (In_match_sessions pat t i W) in HI; tauto).
    assert (Nd : NoDup (x :: l)) by (rewrite <- M; exact (match_sessions_NoDup pat t W)).
    destruct (stop_all_spec e (x :: l) t a t2 W Nd HIn P) as (_ & Oth & Sub & X).
    assert (Na : a <> ANotFound /\ a <> ACrash) by (destruct a; auto; split; discriminate).
    split; [|split; [|split; [intros ->; exfalso; tauto|split; [|split; [exact Sub|tauto]]]]].
    + intros -> j k. destruct X as (X & _). rewrite X. split; intros (A & B); (split; [exact A|]); intros C; apply B; apply (Gl j k A); exact C.
    + split; [intros ->; exfalso; tauto|]. intros Q. exfalso. destruct (HIn x (or_introl eq_refl)) as (k & S). apply (Q x k S). apply (Gl x k S). now left.
    + intros j k G. split; [apply Sub|]. intros S. apply Oth; [|exact S]. intros HI. apply G. apply (Gl j k S). exact HI.
Qed.
(** A successful Stop leaves no directory behind without a session, other than those that
    had none before. *)
Theorem C56_stop_removes_idle : forall key h t e pat t2 k, history key h t -> perform key e (Stop pat) t = (AOk, t2) -> idle t2 k -> idle t k.
Proof.
  intros key h t e pat t2 k H P. pose proof (history_wf key h t H) as W. cbn in P. unfold stop_session in P. destruct (match_sessions pat t) as [|x l] eqn:M; [discriminate|].
  rewrite <- M in P. refine (proj2 (proj2 (proj2 (proj2 (stop_all_spec e _ t AOk t2 W (match_sessions_NoDup pat t W) _ P)))) k).
  intros i HI. apply (In_match_sessions pat t i W) in HI. tauto.
Qed.
(** A successful Shutdown ends everything. *)
Theorem C56_shutdown : forall key h t e a t2, history key h t -> perform key e Shutdown t = (a, t2) -> (a = AOk -> t2 = []) /\ forall j k, streams t2 j k -> streams t j k.
Proof. intros key h t e a t2 H P. destruct (shutdown_spec e t a t2 (history_wf key h t H) P) as (_ & S & E). auto. Qed.

(** Until Shutdown is called the service does not crash. *)
Theorem C56_no_crash : forall key h t e o a t2, history key h t -> ~ In Shutdown (map fst h) -> perform key e o t = (a, t2) -> a <> ACrash.
Proof.
  intros key h t e o a t2 H N P ->. pose proof (history_wf key h t H) as W.
  assert (C : forall k, calm (get k t)) by (apply (runs_calm key [] h t wf_nil); [discriminate|exact H|exact N]).
  destruct o as [i d|p| |d].
  - destruct (start_session_spec key e i d t ACrash t2 W P) as (_ & _ & _ & k & m & G & D & F). assert (Ns : Start i d <> Shutdown) by discriminate. rewrite (perform_calm key e _ t ACrash t2 W Ns P C k m G D) in F. discriminate.
  - cbn in P. unfold stop_session in P. destruct (match_sessions p t) as [|x l] eqn:M; [discriminate|]. rewrite <- M in P.
    refine (proj2 (proj2 (proj2 (stop_all_spec e _ t ACrash t2 W (match_sessions_NoDup p t W) _ P)))). intros i HI. apply (In_match_sessions p t i W) in HI. tauto.
  - cbn in P. unfold shutdown in P. destruct (shutdown_loop e t) as ([|] & ?); discriminate.
  - discriminate.
Qed.
(** While every manifest can be built, whatever went wrong with earlier calls, Start works
    if nothing goes wrong with it. *)
Theorem C56_start_succeeds : forall key h t e i dir, history key h t -> ~ In Shutdown (map fst h) -> (forall d, ~ In (RunnerFails d) (map fst h)) ->
  valid_dir e = true -> init_ok e = true -> start_ok e i = true -> ack_ok e i = true -> stop_ok e i = true -> exists t2, perform key e (Start i dir) t = (AOk, t2).
Proof.
  intros key h t e i dir H N1 N2 V Ii So Ak St. cbn. pose proof (start_good key e i dir t (history_wf key h t H)) as G.
  assert (C : forall k, clean (get k t)) by (apply (runs_clean key [] h t wf_nil); [discriminate|exact H|exact N1|exact N2]).
  specialize (G C V Ii So Ak St). destruct (start_session key e i dir t) as (a & t2). cbn in G. subst. now exists t2.
Qed.

(** ** Refuted *)

Local Open Scope N_scope.
Definition exk (d : str) : str := d.
Definition i1 : str := [97]. Definition i2 : str := [98]. Definition d1 : str := [1]. Definition d2 : str := [2].
Definition no_start : env := mkenv true true (fun _ => false) (fun _ => true) (fun _ => true) (fun _ => true).
Definition no_stop : env := mkenv true true (fun _ => true) (fun _ => true) (fun i => negb (seqb i i2)) (fun _ => true).

Lemma history_snoc key h t e o : history key h t -> history key (h ++ [(o, fst (perform key e o t))]) (snd (perform key e o t)).
Proof. intros H. apply (h_op key [] h t e o _ _ H). destruct (perform key e o t); reflexivity. Qed.

(** A failed Start can leave a directory with an updater and a server, but no session. *)
Theorem C56_no_idle_refuted : exists key h t k, history key h t /\ h = [(Start i1 d1, AError)] /\ idle t k.
Proof.
  exists exk, [(Start i1 d1, AError)]. eexists. exists d1. split; [exact (history_snoc exk [] [] no_start (Start i1 d1) (h_nil exk []))|]. split; [reflexivity|].
  exists (mkms [] false false). split; reflexivity.
Qed.
(** Stop does not remove such a directory, whatever its pattern. *)
Theorem C56_idle_survives_stop : forall key h t e pat a t2 k, history key h t -> perform key e (Stop pat) t = (a, t2) -> idle t k -> idle t2 k.
Proof.
  intros key h t e pat a t2 k H P Ik. pose proof (history_wf key h t H) as W. cbn in P. unfold stop_session in P.
  destruct (match_sessions pat t) as [|x l]; [inversion P; subst; exact Ik|]. exact (stop_all_idle e k (x :: l) t a t2 W P Ik).
Qed.
(** If the first manifest of a directory without a session cannot be built, the directory
    can never be streamed again, whatever is done (short of stopping the service) and
    however well everything goes. *)
Theorem C56_dead_directory_refuted : exists key h t dir, history key h t /\ h = [(Start i1 dir, AError); (RunnerFails dir, AOk)] /\
  forall h2 t2 e i, runs key t h2 t2 -> ~ In Shutdown (map fst h2) -> fst (perform key e (Start i dir) t2) = AError.
Proof.
  exists exk, [(Start i1 d1, AError); (RunnerFails d1, AOk)]. eexists. exists d1.
  pose proof (history_snoc exk _ _ all_good (RunnerFails d1) (history_snoc exk [] [] no_start (Start i1 d1) (h_nil exk []))) as H. split; [exact H|]. split; [reflexivity|].
  intros h2 t2 e i R N. cbn [perform]. pose proof (history_wf _ _ _ H) as W. apply start_dead; [exact (runs_wf _ _ _ _ W R)|]. refine (runs_dead exk _ h2 t2 (exk d1) W _ R N).
  exists (mkms [] true false). repeat split.
Qed.
(** The same holds if the last session ends while the manifest is broken, through no fault
    of any call: the Stop fails, but the session is gone, and the directory is lost. *)
Theorem C56_dead_after_stop_refuted : exists key h t dir, history key h t /\ h = [(Start i1 dir, AOk); (RunnerFails dir, AOk); (Stop i1, AError)] /\ (forall k, ~ streams t i1 k) /\
  forall h2 t2 e i, runs key t h2 t2 -> ~ In Shutdown (map fst h2) -> fst (perform key e (Start i dir) t2) = AError.
Proof.
  exists exk, [(Start i1 d1, AOk); (RunnerFails d1, AOk); (Stop i1, AError)]. eexists. exists d1.
  pose proof (history_snoc exk _ _ all_good (Stop i1) (history_snoc exk _ _ all_good (RunnerFails d1) (history_snoc exk [] [] all_good (Start i1 d1) (h_nil exk [])))) as H. split; [exact H|]. split; [reflexivity|].
  match type of H with history _ _ ?t => assert (E : t = [(d1, mkms [] true true)]) by (vm_compute; reflexivity); rewrite E in * end.
  split. { intros k (m & G & HI). cbn -[seqb] in G. destruct (seqb k d1); inversion G; subst. destruct HI. }
  intros h2 t2 e i R N. cbn [perform]. pose proof (history_wf _ _ _ H) as W. apply start_dead; [exact (runs_wf _ _ _ _ W R)|]. refine (runs_dead exk _ h2 t2 (exk d1) W _ R N).
  exists (mkms [] true true). repeat split.
Qed.

(** ** Examples *)

(** Two instances, moved between two directories, then stopped by pattern. *)
Example ex_history : exists t, history exk
  [(Start i1 d1, AOk); (Start i2 d1, AOk); (Start i1 d2, AOk); (Start i2 d1, AOk); (Stop [42], AOk); (Stop [42], ANotFound)] t /\ t = [].
Proof.
  eexists. split; [|reflexivity].
  exact (history_snoc exk _ _ all_good (Stop [42]) (history_snoc exk _ _ all_good (Stop [42]) (history_snoc exk _ _ all_good (Start i2 d1) (history_snoc exk _ _ all_good (Start i1 d2) (history_snoc exk _ _ all_good (Start i2 d1) (history_snoc exk [] [] all_good (Start i1 d1) (h_nil exk []))))))).
Qed.
(** The middle of it: streams is as expected. *)
Example ex_streams : let t := snd (perform exk all_good (Start i1 d2) (snd (perform exk all_good (Start i2 d1) (snd (perform exk all_good (Start i1 d1) []))))) in
  streams t i1 d2 /\ streams t i2 d1 /\ ~ streams t i1 d1 /\ (forall j k, streams t j k -> SpecPathFilter.nul_free j /\ j <> []).
Proof.
  cbv zeta. match goal with |- streams ?t _ _ /\ _ => assert (E : t = [(d1, mkms [i2] false false); (d2, mkms [i1] false false)]) by (vm_compute; reflexivity); rewrite E end.
  split; [|split; [|split]].
  - exists (mkms [i1] false false). split; [reflexivity|now left].
  - exists (mkms [i2] false false). split; [reflexivity|now left].
  - intros (m & G & HI). cbn in G. inversion G; subst. cbn in HI. destruct HI as [X|[]]. discriminate.
  - intros j k (m & G & HI). cbn -[seqb] in G. destruct (seqb k d1); [|destruct (seqb k d2); [|discriminate]]; inversion G; subst; destruct HI as [<-|[]]; (split; [|discriminate]); unfold SpecPathFilter.nul_free; cbn; intuition discriminate.
Qed.
(** Stop of a pattern fails half-way: the sessions stopped so far are gone. *)
Example ex_partial_stop : let t := snd (perform exk all_good (Start i2 d1) (snd (perform exk all_good (Start i1 d1) []))) in
  perform exk no_stop (Stop [42]) t = (AError, [(d1, mkms [i2] false false)]).
Proof. reflexivity. Qed.
