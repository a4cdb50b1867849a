(** Proofs for C18: the network is deterministic up to the order of independent steps,
    so one run that ends well is enough. *)
From Verif Require Import Base ListX ModelCdc ModelFileDiff ModelBatch ModelProtocol SpecProtocol.
Local Open Scope N_scope.

(** The main thread of the server does not receive while tasks may be pending. *)
Fixpoint patient (busy : bool) (p : proc) : Prop :=
  match p with
  | PSend _ k => patient busy k
  | PRecv f => busy = false /\ forall m, match f m with Some k => patient false k | None => True end
  | PRecvAll _ _ k => busy = false /\ forall l, patient false (k l)
  | PFlush k => patient busy k
  | PFork _ k => patient true k
  | PJoin k => patient false k
  | _ => True
  end.
Definition wf (s : net) : Prop := exists busy, patient busy (n_server s) /\ (busy = false -> n_tasks s = []).

Section Net.
Variable size : packet -> N.
Variable cap_out cap_wire cap_in : N.
Notation step := (step size cap_out cap_wire cap_in).
Notation runs := (runs size cap_out cap_wire cap_in).
Notation stuck := (stuck size cap_out cap_wire cap_in).
Notation total := (total size).
Notation ch_send := (ch_send size cap_out).
Notation ch_to_wire := (ch_to_wire size cap_wire).
Notation ch_to_in := (ch_to_in size cap_in).

Lemma total_cons p l : total (p :: l) = size p + total l.
Proof. reflexivity. Qed.
Lemma total_app l l' : total (l ++ l') = total l + total l'.
Proof. induction l as [|p l IH]; [reflexivity|]. cbn [app]. rewrite !total_cons, IH. lia. Qed.

(** Channel operations commute. *)
Lemma send_wire m c c1 c2 : ch_send m c = Some c1 -> ch_to_wire c = Some c2 -> exists c3, ch_to_wire c1 = Some c3 /\ ch_send m c2 = Some c3.
Proof.
  unfold ModelProtocol.ch_send, ModelProtocol.ch_to_wire. destruct (N.ltb_spec (total (ch_out c)) cap_out) as [L|]; [|discriminate]. intros E. inversion E; subst; clear E. cbn [ch_out ch_wire ch_in].
  destruct (ch_out c) as [|p out]; [discriminate|]. destruct (N.ltb_spec (total (ch_wire c)) cap_wire); [|discriminate]. intros E. inversion E; subst; clear E. cbn [ch_out ch_wire ch_in app].
  rewrite total_cons in L. destruct (N.ltb_spec (total out) cap_out); [|lia]. eauto.
Qed.
Lemma send_in m c c1 c2 : ch_send m c = Some c1 -> ch_to_in c = Some c2 -> exists c3, ch_to_in c1 = Some c3 /\ ch_send m c2 = Some c3.
Proof.
  unfold ModelProtocol.ch_send, ModelProtocol.ch_to_in. destruct (total (ch_out c) <? cap_out) eqn:L; [|discriminate]. intros E. inversion E; subst; clear E. cbn [ch_out ch_wire ch_in].
  destruct (ch_wire c) as [|p w]; [discriminate|]. destruct (total (ch_in c) <? cap_in); [|discriminate]. intros E. inversion E; subst; clear E. cbn [ch_out ch_wire ch_in]. rewrite L. eauto.
Qed.
Lemma send_recv m c c1 p c2 : ch_send m c = Some c1 -> ch_recv c = Some (p, c2) -> exists c3, ch_recv c1 = Some (p, c3) /\ ch_send m c2 = Some c3.
Proof.
  unfold ModelProtocol.ch_send, ch_recv. destruct (total (ch_out c) <? cap_out) eqn:L; [|discriminate]. intros E. inversion E; subst; clear E. cbn [ch_out ch_wire ch_in].
  destruct (ch_in c) as [|q i]; [discriminate|]. intros E. inversion E; subst; clear E. cbn [ch_out ch_wire ch_in]. rewrite L. eauto.
Qed.
Lemma wire_in c c1 c2 : ch_to_wire c = Some c1 -> ch_to_in c = Some c2 -> exists c3, ch_to_in c1 = Some c3 /\ ch_to_wire c2 = Some c3.
Proof.
  unfold ModelProtocol.ch_to_wire, ModelProtocol.ch_to_in. destruct (ch_out c) as [|p out]; [discriminate|]. destruct (N.ltb_spec (total (ch_wire c)) cap_wire) as [L|]; [|discriminate]. intros E. inversion E; subst; clear E.
  cbn [ch_out ch_wire ch_in]. destruct (ch_wire c) as [|q w]; [discriminate|]. destruct (total (ch_in c) <? cap_in) eqn:L2; [|discriminate]. intros E. inversion E; subst; clear E. cbn [ch_out ch_wire ch_in app].
  rewrite total_cons in L. destruct (N.ltb_spec (total w) cap_wire); [|lia]. eauto.
Qed.
Lemma wire_recv c c1 p c2 : ch_to_wire c = Some c1 -> ch_recv c = Some (p, c2) -> exists c3, ch_recv c1 = Some (p, c3) /\ ch_to_wire c2 = Some c3.
Proof.
  unfold ModelProtocol.ch_to_wire, ch_recv. destruct (ch_out c) as [|q out]; [discriminate|]. destruct (total (ch_wire c) <? cap_wire) eqn:L; [|discriminate]. intros E. inversion E; subst; clear E.
  cbn [ch_out ch_wire ch_in]. destruct (ch_in c) as [|r i]; [discriminate|]. intros E. inversion E; subst; clear E. cbn [ch_out ch_wire ch_in]. rewrite L. eauto.
Qed.
Lemma in_recv c c1 p c2 : ch_to_in c = Some c1 -> ch_recv c = Some (p, c2) -> exists c3, ch_recv c1 = Some (p, c3) /\ ch_to_in c2 = Some c3.
Proof.
  unfold ModelProtocol.ch_to_in, ch_recv. destruct (ch_wire c) as [|q w]; [discriminate|]. destruct (N.ltb_spec (total (ch_in c)) cap_in) as [L|]; [|discriminate]. intros E. inversion E; subst; clear E.
  cbn [ch_out ch_wire ch_in]. destruct (ch_in c) as [|r i]; [discriminate|]. intros E. inversion E; subst; clear E. cbn [ch_out ch_wire ch_in app].
  rewrite total_cons in L. destruct (N.ltb_spec (total i) cap_in); [|lia]. eauto.
Qed.

Lemma wire_out c c1 : ch_to_wire c = Some c1 -> ch_out c <> [].
Proof. unfold ModelProtocol.ch_to_wire. destruct (ch_out c); discriminate. Qed.
Lemma to_in_out c c1 : ch_to_in c = Some c1 -> ch_out c1 = ch_out c.
Proof. unfold ModelProtocol.ch_to_in. destruct (ch_wire c); [discriminate|]. destruct (_ <? _); [|discriminate]. intros E. now inversion E. Qed.
Lemma recv_out c p c1 : ch_recv c = Some (p, c1) -> ch_out c1 = ch_out c.
Proof. unfold ch_recv. destruct (ch_in c); [discriminate|]. intros E. now inversion E. Qed.

(** Threads: the channel on which they send, the channel on which they receive. *)
Lemma thread_wire_snd p c d p1 c1 d1 c2 : thread_step size cap_out p c d = Some (p1, c1, d1) -> ch_to_wire c = Some c2 ->
  exists c3, thread_step size cap_out p c2 d = Some (p1, c3, d1) /\ ch_to_wire c1 = Some c3.
Proof.
  intros T W. destruct p; cbn [thread_step] in *; try discriminate.
  - destruct (ch_send p c) as [x|] eqn:S; [|discriminate]. inversion T; subst. destruct (send_wire _ _ _ _ S W) as (c3 & A & B). exists c3. now rewrite B.
  - destruct (ch_recv d) as [[m r]|]; [|discriminate]. inversion T; subst. eauto.
  - destruct (ch_recv d) as [[m r]|]; [|discriminate]. inversion T; subst. eauto.
  - apply wire_out in W. destruct (ch_out c); [easy|discriminate].
Qed.
Lemma thread_in_snd p c d p1 c1 d1 c2 : thread_step size cap_out p c d = Some (p1, c1, d1) -> ch_to_in c = Some c2 ->
  exists c3, thread_step size cap_out p c2 d = Some (p1, c3, d1) /\ ch_to_in c1 = Some c3.
Proof.
  intros T W. destruct p; cbn [thread_step] in *; try discriminate.
  - destruct (ch_send p c) as [x|] eqn:S; [|discriminate]. inversion T; subst. destruct (send_in _ _ _ _ S W) as (c3 & A & B). exists c3. now rewrite B.
  - destruct (ch_recv d) as [[m r]|]; [|discriminate]. inversion T; subst. eauto.
  - destruct (ch_recv d) as [[m r]|]; [|discriminate]. inversion T; subst. eauto.
  - rewrite (to_in_out _ _ W). destruct (ch_out c); [|discriminate]. inversion T; subst. eauto.
Qed.
Lemma thread_wire_rcv p c d p1 c1 d1 d2 : thread_step size cap_out p c d = Some (p1, c1, d1) -> ch_to_wire d = Some d2 ->
  exists d3, thread_step size cap_out p c d2 = Some (p1, c1, d3) /\ ch_to_wire d1 = Some d3.
Proof.
  intros T W. destruct p; cbn [thread_step] in *; try discriminate.
  - destruct (ch_send p c) as [x|] eqn:S; [|discriminate]. inversion T; subst. eauto.
  - destruct (ch_recv d) as [[m r]|] eqn:R; [|discriminate]. inversion T; subst. destruct (wire_recv _ _ _ _ W R) as (d3 & A & B). exists d3. now rewrite A.
  - destruct (ch_recv d) as [[m r]|] eqn:R; [|discriminate]. inversion T; subst. destruct (wire_recv _ _ _ _ W R) as (d3 & A & B). exists d3. now rewrite A.
  - destruct (ch_out c); [|discriminate]. inversion T; subst. eauto.
Qed.
Lemma thread_in_rcv p c d p1 c1 d1 d2 : thread_step size cap_out p c d = Some (p1, c1, d1) -> ch_to_in d = Some d2 ->
  exists d3, thread_step size cap_out p c d2 = Some (p1, c1, d3) /\ ch_to_in d1 = Some d3.
Proof.
  intros T W. destruct p; cbn [thread_step] in *; try discriminate.
  - destruct (ch_send p c) as [x|] eqn:S; [|discriminate]. inversion T; subst. eauto.
  - destruct (ch_recv d) as [[m r]|] eqn:R; [|discriminate]. inversion T; subst. destruct (in_recv _ _ _ _ W R) as (d3 & A & B). exists d3. now rewrite A.
  - destruct (ch_recv d) as [[m r]|] eqn:R; [|discriminate]. inversion T; subst. destruct (in_recv _ _ _ _ W R) as (d3 & A & B). exists d3. now rewrite A.
  - destruct (ch_out c); [|discriminate]. inversion T; subst. eauto.
Qed.

(** Two threads at the two ends. *)
Lemma thread_thread p q c d p1 c1 d1 q1 c2 d2 : thread_step size cap_out p c d = Some (p1, c1, d1) -> thread_step size cap_out q d c = Some (q1, d2, c2) ->
  exists c3 d3, thread_step size cap_out p c2 d2 = Some (p1, c3, d3) /\ thread_step size cap_out q d1 c1 = Some (q1, d3, c3).
Proof.
  intros T U. destruct p; cbn [thread_step] in T; try discriminate; destruct q; cbn [thread_step] in U; try discriminate; cbn [thread_step];
    repeat match goal with
    | H : match ch_send ?m ?x with _ => _ end = _ |- _ => destruct (ch_send m x) eqn:?; [|discriminate H]
    | H : match ch_recv ?x with _ => _ end = _ |- _ => destruct (ch_recv x) as [[? ?]|] eqn:?; [|discriminate H]
    | H : match ch_out ?x with _ => _ end = _ |- _ => destruct (ch_out x) eqn:?; [|discriminate H]
    | H : Some _ = Some _ |- _ => inversion H; subst; clear H
    end;
    repeat match goal with
    | A : ch_send ?m ?x = Some ?y, B : ch_recv ?x = Some (?p, ?z) |- _ =>
        let c3 := fresh "c3" in let E1 := fresh "E" in let E2 := fresh "E" in
        destruct (send_recv m x y p z A B) as (c3 & E1 & E2); clear A B; rewrite ?E1, ?E2
    end;
    repeat match goal with
    | A : ch_send ?m ?x = Some ?y |- context [ch_send ?m ?x] => rewrite A
    | A : ch_recv ?x = Some _ |- context [ch_recv ?x] => rewrite A
    | A : ch_recv ?x = Some (_, ?y), B : ch_out ?x = [] |- context [ch_out ?y] => rewrite (recv_out _ _ _ A), B
    | A : ch_out ?x = [] |- context [ch_out ?x] => rewrite A
    end; eauto.
Qed.

(** A thread that sends on the channel from which the patcher receives. *)
Lemma thread_patch p c d p1 c1 d1 m c2 : thread_step size cap_out p c d = Some (p1, c1, d1) -> ch_recv c = Some (m, c2) ->
  exists c3, thread_step size cap_out p c2 d = Some (p1, c3, d1) /\ ch_recv c1 = Some (m, c3).
Proof.
  intros T R. destruct p; cbn [thread_step] in *; try discriminate.
  - destruct (ch_send p c) as [x|] eqn:S; [|discriminate]. inversion T; subst. destruct (send_recv _ _ _ _ _ S R) as (c3 & A & B). exists c3. now rewrite B.
  - destruct (ch_recv d) as [[m' r]|]; [|discriminate]. inversion T; subst. eauto.
  - destruct (ch_recv d) as [[m' r]|]; [|discriminate]. inversion T; subst. eauto.
  - rewrite (recv_out _ _ _ R). destruct (ch_out c); [|discriminate]. inversion T; subst. eauto.
Qed.
(** The main thread of the server while tasks are pending. *)
Lemma busy_keeps busy p c d p1 c1 d1 : patient busy p -> busy = true -> thread_step size cap_out p c d = Some (p1, c1, d1) ->
  d1 = d /\ forall d', thread_step size cap_out p c d' = Some (p1, c1, d').
Proof.
  intros Pt -> T. destruct p; cbn [thread_step patient] in *; try discriminate.
  - destruct (ch_send p c); inversion T; subst. auto.
  - destruct Pt; discriminate.
  - destruct Pt; discriminate.
  - destruct (ch_out c); inversion T; subst. auto.
Qed.

Lemma patient_step busy p c d p1 c1 d1 : patient busy p -> thread_step size cap_out p c d = Some (p1, c1, d1) -> patient busy p1.
Proof.
  intros Pt T. destruct p; cbn [thread_step patient] in *; try discriminate.
  - destruct (ch_send p c); inversion T; subst. exact Pt.
  - destruct (ch_recv d) as [[m r]|]; inversion T; subst. destruct Pt as (-> & Pt). specialize (Pt m). destruct (f m); [exact Pt|exact I].
  - destruct (ch_recv d) as [[m r]|]; inversion T; subst. destruct Pt as (-> & Pt). destruct (stop m) as [[]|]; [apply Pt|split; [reflexivity|exact Pt]|exact I].
  - destruct (ch_out c); inversion T; subst. exact Pt.
Qed.

Lemma wf_step a s s' : wf s -> step a s = Some s' -> wf s'.
Proof.
  intros (busy & Pt & B) E. destruct a; cbn [ModelProtocol.step] in E.
  - destruct (thread_step _ _ _ _ _) as [[[p c] d]|]; inversion E; subst. exists busy. auto.
  - assert (Th : forall p, n_server s = p -> match thread_step size cap_out p (n_s2c s) (n_c2s s) with Some (p0, d, c) => Some (mk_net (n_client s) p0 (n_tasks s) (n_patched s) c d) | None => None end = Some s' -> wf s').
    { intros p Ep X. destruct (thread_step size cap_out p (n_s2c s) (n_c2s s)) as [[[p0 d] c]|] eqn:T; inversion X; subst. exists busy. split; [|exact B]. eapply patient_step; [exact Pt|exact T]. }
    destruct (n_server s) eqn:Es; try (eapply Th; [reflexivity|exact E]).
    + inversion E; subst. exists true. split; [exact Pt|discriminate].
    + destruct (n_tasks s); inversion E; subst. exists false. auto.
  - destruct (n_tasks s) as [|[i got] ts]; [discriminate|]. destruct (ch_recv (n_c2s s)) as [[m c]|]; [|discriminate].
    destruct busy; [|specialize (B eq_refl); discriminate].
    destruct (stop_patch m) as [[]|]; inversion E; subst; exists true; split; try exact Pt; discriminate.
  - destruct (ch_to_wire (n_c2s s)); inversion E; subst. exists busy. auto.
  - destruct (ch_to_in (n_c2s s)); inversion E; subst. exists busy. auto.
  - destruct (ch_to_wire (n_s2c s)); inversion E; subst. exists busy. auto.
  - destruct (ch_to_in (n_s2c s)); inversion E; subst. exists busy. auto.
Qed.

(** ** The diamond *)
Definition idx (a : actor) : nat := match a with AClient => 0 | AServer => 1 | APatcher => 2 | AWire1 => 3 | AWire2 => 4 | AWire3 => 5 | AWire4 => 6 end.

(** The step of the server, by cases. *)
Inductive sstep (s : net) : net -> Prop :=
| ss_thread p d c : thread_step size cap_out (n_server s) (n_s2c s) (n_c2s s) = Some (p, d, c) -> sstep s (mk_net (n_client s) p (n_tasks s) (n_patched s) c d)
| ss_fork i k : n_server s = PFork i k -> sstep s (mk_net (n_client s) k (n_tasks s ++ [(i, [])]) (n_patched s) (n_c2s s) (n_s2c s))
| ss_join k : n_server s = PJoin k -> n_tasks s = [] -> sstep s (mk_net (n_client s) k [] (n_patched s) (n_c2s s) (n_s2c s)).
Lemma sstep_iff s s' : step AServer s = Some s' <-> sstep s s'.
Proof.
  split.
  - intros E. cbn [ModelProtocol.step] in E.
    assert (Th : forall p, n_server s = p -> match thread_step size cap_out p (n_s2c s) (n_c2s s) with Some (p0, d, c) => Some (mk_net (n_client s) p0 (n_tasks s) (n_patched s) c d) | None => None end = Some s' -> sstep s s').
    { intros p Ep X. destruct (thread_step size cap_out p (n_s2c s) (n_c2s s)) as [[[p0 d] c]|] eqn:T; inversion X; subst. now apply ss_thread. }
    destruct (n_server s) eqn:Es; try (eapply Th; [reflexivity|exact E]).
    + inversion E; subst. now apply ss_fork.
    + destruct (n_tasks s) eqn:Et; inversion E; subst. now apply ss_join.
  - intros [p d c T|i k E|k E Et]; cbn [ModelProtocol.step].
    + destruct (n_server s); try (now rewrite T); discriminate.
    + now rewrite E.
    + now rewrite E, Et.
Qed.

Ltac use_wire H := match type of H with match ?z with _ => _ end = Some _ => destruct z eqn:?; [inversion H; subst; clear H|discriminate H] end.

Lemma diamond_lt a b s s1 s2 : wf s -> (idx a < idx b)%nat -> step a s = Some s1 -> step b s = Some s2 -> exists s3, step b s1 = Some s3 /\ step a s2 = Some s3.
Proof.
  intros (busy & Pt & Bz) L Ea Eb. destruct a; destruct b; cbn [idx] in L; try lia.
  - (* client, server *)
    cbn [ModelProtocol.step] in Ea. destruct (thread_step size cap_out (n_client s) (n_c2s s) (n_s2c s)) as [[[p c] d]|] eqn:T; inversion Ea; subst; clear Ea.
    apply sstep_iff in Eb. destruct Eb as [q d2 c2 U|i k E|k E Et].
    + destruct (thread_thread _ _ _ _ _ _ _ _ _ _ T U) as (c3 & d3 & A & B). eexists. split.
      * apply sstep_iff. apply ss_thread. cbn. exact B.
      * cbn. now rewrite A.
    + eexists. split; [apply sstep_iff; eapply ss_fork; cbn; exact E|]. cbn. now rewrite T.
    + eexists. split; [apply sstep_iff; eapply ss_join; cbn; [exact E|exact Et]|]. cbn. now rewrite T.
  - (* client, patcher *)
    cbn [ModelProtocol.step] in Ea, Eb. destruct (thread_step size cap_out (n_client s) (n_c2s s) (n_s2c s)) as [[[p c] d]|] eqn:T; inversion Ea; subst; clear Ea.
    destruct (n_tasks s) as [|[i got] ts] eqn:Et; [discriminate|]. destruct (ch_recv (n_c2s s)) as [[m c2]|] eqn:R; [|discriminate].
    destruct (thread_patch _ _ _ _ _ _ _ _ T R) as (c3 & A & B).
    destruct (stop_patch m) as [[]|] eqn:Sp; inversion Eb; subst; clear Eb; cbn; rewrite B, Sp, A; eauto.
  - (* client, wires *)
    cbn [ModelProtocol.step] in Ea, Eb. destruct (thread_step size cap_out (n_client s) (n_c2s s) (n_s2c s)) as [[[p c] d]|] eqn:T; inversion Ea; subst; clear Ea. use_wire Eb.
    destruct (thread_wire_snd _ _ _ _ _ _ _ T Heqo) as (c3 & A & B). cbn. rewrite A, B. eauto.
  - cbn [ModelProtocol.step] in Ea, Eb. destruct (thread_step size cap_out (n_client s) (n_c2s s) (n_s2c s)) as [[[p c] d]|] eqn:T; inversion Ea; subst; clear Ea. use_wire Eb.
    destruct (thread_in_snd _ _ _ _ _ _ _ T Heqo) as (c3 & A & B). cbn. rewrite A, B. eauto.
  - cbn [ModelProtocol.step] in Ea, Eb. destruct (thread_step size cap_out (n_client s) (n_c2s s) (n_s2c s)) as [[[p c] d]|] eqn:T; inversion Ea; subst; clear Ea. use_wire Eb.
    destruct (thread_wire_rcv _ _ _ _ _ _ _ T Heqo) as (c3 & A & B). cbn. rewrite A, B. eauto.
  - cbn [ModelProtocol.step] in Ea, Eb. destruct (thread_step size cap_out (n_client s) (n_c2s s) (n_s2c s)) as [[[p c] d]|] eqn:T; inversion Ea; subst; clear Ea. use_wire Eb.
    destruct (thread_in_rcv _ _ _ _ _ _ _ T Heqo) as (c3 & A & B). cbn. rewrite A, B. eauto.
  - (* server, patcher *)
    apply sstep_iff in Ea. cbn [ModelProtocol.step] in Eb. destruct (n_tasks s) as [|[i got] ts] eqn:Et; [discriminate|].
    destruct (ch_recv (n_c2s s)) as [[m c2]|] eqn:R; [|discriminate].
    assert (By : busy = true) by (destruct busy; [reflexivity|specialize (Bz eq_refl); discriminate]).
    destruct Ea as [p d c T|j k E|k E Et']; [| |congruence].
    + destruct (busy_keeps _ _ _ _ _ _ _ Pt By T) as (-> & K).
      destruct (stop_patch m) as [[]|] eqn:Sp; inversion Eb; subst s2; clear Eb; eexists; (split; [cbn; rewrite Et, R, Sp; reflexivity|apply sstep_iff; apply (ss_thread (mk_net _ _ _ _ _ _)); cbn; apply K]).
    + destruct (stop_patch m) as [[]|] eqn:Sp; inversion Eb; subst s2; clear Eb; eexists; (split; [|apply sstep_iff; eapply (ss_fork (mk_net _ _ _ _ _ _)); cbn; exact E]); cbn; rewrite Et; cbn; rewrite R, Sp; reflexivity.
  - (* server, wires *)
    apply sstep_iff in Ea. cbn [ModelProtocol.step] in Eb. use_wire Eb. destruct Ea as [p d c' T|j k E|k E Et].
    + destruct (thread_wire_rcv _ _ _ _ _ _ _ T Heqo) as (c3 & A & B). eexists. split; [cbn; rewrite B; reflexivity|apply sstep_iff; apply (ss_thread (mk_net _ _ _ _ _ _)); cbn; exact A].
    + eexists. split; [cbn; rewrite Heqo; reflexivity|apply sstep_iff; eapply (ss_fork (mk_net _ _ _ _ _ _)); cbn; exact E].
    + eexists. split; [cbn; rewrite Heqo; reflexivity|apply sstep_iff; eapply (ss_join (mk_net _ _ _ _ _ _)); cbn; [exact E|exact Et]].
  - apply sstep_iff in Ea. cbn [ModelProtocol.step] in Eb. use_wire Eb. destruct Ea as [p d c' T|j k E|k E Et].
    + destruct (thread_in_rcv _ _ _ _ _ _ _ T Heqo) as (c3 & A & B). eexists. split; [cbn; rewrite B; reflexivity|apply sstep_iff; apply (ss_thread (mk_net _ _ _ _ _ _)); cbn; exact A].
    + eexists. split; [cbn; rewrite Heqo; reflexivity|apply sstep_iff; eapply (ss_fork (mk_net _ _ _ _ _ _)); cbn; exact E].
    + eexists. split; [cbn; rewrite Heqo; reflexivity|apply sstep_iff; eapply (ss_join (mk_net _ _ _ _ _ _)); cbn; [exact E|exact Et]].
  - apply sstep_iff in Ea. cbn [ModelProtocol.step] in Eb. use_wire Eb. destruct Ea as [p d c' T|j k E|k E Et].
    + destruct (thread_wire_snd _ _ _ _ _ _ _ T Heqo) as (c3 & A & B). eexists. split; [cbn; rewrite B; reflexivity|apply sstep_iff; apply (ss_thread (mk_net _ _ _ _ _ _)); cbn; exact A].
    + eexists. split; [cbn; rewrite Heqo; reflexivity|apply sstep_iff; eapply (ss_fork (mk_net _ _ _ _ _ _)); cbn; exact E].
    + eexists. split; [cbn; rewrite Heqo; reflexivity|apply sstep_iff; eapply (ss_join (mk_net _ _ _ _ _ _)); cbn; [exact E|exact Et]].
  - apply sstep_iff in Ea. cbn [ModelProtocol.step] in Eb. use_wire Eb. destruct Ea as [p d c' T|j k E|k E Et].
    + destruct (thread_in_snd _ _ _ _ _ _ _ T Heqo) as (c3 & A & B). eexists. split; [cbn; rewrite B; reflexivity|apply sstep_iff; apply (ss_thread (mk_net _ _ _ _ _ _)); cbn; exact A].
    + eexists. split; [cbn; rewrite Heqo; reflexivity|apply sstep_iff; eapply (ss_fork (mk_net _ _ _ _ _ _)); cbn; exact E].
    + eexists. split; [cbn; rewrite Heqo; reflexivity|apply sstep_iff; eapply (ss_join (mk_net _ _ _ _ _ _)); cbn; [exact E|exact Et]].
  - (* patcher, wires *)
    cbn [ModelProtocol.step] in Ea, Eb. destruct (n_tasks s) as [|[i got] ts] eqn:Et; [discriminate|]. destruct (ch_recv (n_c2s s)) as [[m c2]|] eqn:R; [|discriminate]. use_wire Eb.
    destruct (wire_recv _ _ _ _ Heqo R) as (c3 & A & B). destruct (stop_patch m) as [[]|] eqn:Sp; inversion Ea; subst; clear Ea; cbn; rewrite ?Et, A, B, Sp; eauto.
  - cbn [ModelProtocol.step] in Ea, Eb. destruct (n_tasks s) as [|[i got] ts] eqn:Et; [discriminate|]. destruct (ch_recv (n_c2s s)) as [[m c2]|] eqn:R; [|discriminate]. use_wire Eb.
    destruct (in_recv _ _ _ _ Heqo R) as (c3 & A & B). destruct (stop_patch m) as [[]|] eqn:Sp; inversion Ea; subst; clear Ea; cbn; rewrite ?Et, A, B, Sp; eauto.
  - cbn [ModelProtocol.step] in Ea, Eb. destruct (n_tasks s) as [|[i got] ts] eqn:Et; [discriminate|]. destruct (ch_recv (n_c2s s)) as [[m c2]|] eqn:R; [|discriminate]. use_wire Eb.
    destruct (stop_patch m) as [[]|] eqn:Sp; inversion Ea; subst; clear Ea; cbn; rewrite ?Et, Heqo, R, Sp; eauto.
  - cbn [ModelProtocol.step] in Ea, Eb. destruct (n_tasks s) as [|[i got] ts] eqn:Et; [discriminate|]. destruct (ch_recv (n_c2s s)) as [[m c2]|] eqn:R; [|discriminate]. use_wire Eb.
    destruct (stop_patch m) as [[]|] eqn:Sp; inversion Ea; subst; clear Ea; cbn; rewrite ?Et, Heqo, R, Sp; eauto.
  - (* wires *)
    cbn [ModelProtocol.step] in Ea, Eb. use_wire Ea. use_wire Eb. destruct (wire_in _ _ _ Heqo Heqo0) as (c3 & A & B). cbn. rewrite A, B. eauto.
  - cbn [ModelProtocol.step] in Ea, Eb. use_wire Ea. use_wire Eb. cbn. rewrite Heqo, Heqo0. eauto.
  - cbn [ModelProtocol.step] in Ea, Eb. use_wire Ea. use_wire Eb. cbn. rewrite Heqo, Heqo0. eauto.
  - cbn [ModelProtocol.step] in Ea, Eb. use_wire Ea. use_wire Eb. cbn. rewrite Heqo, Heqo0. eauto.
  - cbn [ModelProtocol.step] in Ea, Eb. use_wire Ea. use_wire Eb. cbn. rewrite Heqo, Heqo0. eauto.
  - cbn [ModelProtocol.step] in Ea, Eb. use_wire Ea. use_wire Eb. destruct (wire_in _ _ _ Heqo Heqo0) as (c3 & A & B). cbn. rewrite A, B. eauto.
Qed.
Lemma diamond a b s s1 s2 : wf s -> a <> b -> step a s = Some s1 -> step b s = Some s2 -> exists s3, step b s1 = Some s3 /\ step a s2 = Some s3.
Proof.
  intros W N A B. assert (X : idx a <> idx b) by (destruct a, b; cbn; congruence). destruct (Nat.lt_ge_cases (idx a) (idx b)) as [L|L].
  - eapply diamond_lt; eassumption.
  - destruct (diamond_lt b a s s2 s1 W) as (s3 & P & Q); auto; [lia|]. eauto.
Qed.

(** One run that gets stuck decides all runs. *)
Lemma one_step n s t : runs n s t -> stuck t -> wf s -> forall a s1, step a s = Some s1 -> exists m, n = S m /\ runs m s1 t.
Proof.
  induction 1 as [s|n b s s' t E R IH]; intros St W a s1 Ea; [rewrite (St a) in Ea; discriminate|].
  destruct (Nat.eq_dec (idx a) (idx b)) as [X|X].
  - assert (a = b) by (destruct a, b; cbn in X; congruence). subst b. exists n. split; [reflexivity|]. congruence.
  - destruct (diamond a b s s1 s' W) as (s3 & P & Q); auto; [congruence|].
    destruct (IH St (wf_step _ _ _ W E) a s3 Q) as (m & -> & Rm). exists (S m). split; [reflexivity|]. eapply runs_S; eassumption.
Qed.
Lemma all_runs n s t : runs n s t -> stuck t -> wf s -> forall k u, runs k s u -> (k <= n)%nat /\ runs (n - k) u t.
Proof.
  intros R St W k u K. revert n R W. induction K as [s|k a s s1 u E K IH]; intros n R W; [split; [lia|]; now rewrite Nat.sub_0_r|].
  destruct (one_step n s t R St W a s1 E) as (m & -> & Rm). destruct (IH m Rm (wf_step _ _ _ W E)) as (A & B). split; [lia|]. exact B.
Qed.
Lemma runs_stuck n s t : runs n s t -> stuck s -> s = t.
Proof. intros R St. destruct R as [|n a s s1 t E R]; [reflexivity|]. rewrite (St a) in E. discriminate. Qed.
Lemma decided n s t : runs n s t -> stuck t -> wf s -> forall k u, runs k s u -> (k <= n)%nat /\ (stuck u -> u = t).
Proof. intros R St W k u K. destruct (all_runs n s t R St W k u K) as (A & B). split; [exact A|]. intros Su. exact (runs_stuck _ _ _ B Su). Qed.

Definition reach (s t : net) : Prop := exists n, runs n s t.
Lemma reach_refl s : reach s s.
Proof. exists 0%nat. constructor. Qed.
Lemma reach_step a s s1 t : step a s = Some s1 -> reach s1 t -> reach s t.
Proof. intros E (n & R). exists (S n). eapply runs_S; eassumption. Qed.
Lemma reach_trans s t u : reach s t -> reach t u -> reach s u.
Proof. intros (n & R) (m & Q). exists (n + m)%nat. induction R as [|n a s s1 t E R IH]; [exact Q|]. cbn. eapply runs_S; [exact E|auto]. Qed.
End Net.
