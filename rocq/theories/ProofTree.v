(** From the tidy trees of SpecManifest to the invariant of ProofManifest and back. *)
From Verif Require Import Base ListX Str ModelText ModelChunkMap ModelProvider ModelAsset ModelManifest SpecManifest ProofManifest.
Local Open Scope N_scope.

Section Tree.
Context (store : cid -> option (list asset)).
Notation node := (node store).

(** The lists of a tree. *)
Definition owned (L : lists) (root : asset) (id : cid) (p : path) : Prop :=
  exists b, node L root p = Some b /\ a_type b = TDir /\ In id (a_ind b).

Lemma owned_fun L root : tidy store L root -> forall id p q, owned L root id p -> owned L root id q -> p = q.
Proof. intros T id p q (b & A & B & C) (c & D & E & F). exact (tidy_unshared store L root T p q b c id A D B E C F). Qed.

Lemma tidy_ok L root : tidy store L root -> ok_at store (owned L root) L [] root.
Proof.
  intros T p b N Tb. cbn [app]. constructor.
  - eapply tidy_names; eassumption.
  - eapply tidy_lists; eassumption.
  - intros id I. exists b. auto.
  - intros id c I U Ic r d id' Nd Td Id. eapply (tidy_lazy store L root T p b id c r d); eassumption.
Qed.

Lemma ok_tidy (own : cid -> path -> Prop) L root : (forall id p q, own id p -> own id q -> p = q) -> ok_at store own L [] root -> tidy store L root.
Proof.
  intros F H. constructor.
  - intros p b N T. apply (H p b N T).
  - intros p b N T. apply (H p b N T).
  - intros p q b c id N M T U I J. apply (F id); [apply (H p b N T)|apply (H q c M U)]; assumption.
  - intros p b id c r d id' N T I U Ic Nd Td Id. apply (ok_lazy _ _ _ _ _ (H p b N T) id c I U Ic r d id' Nd Td Id).
Qed.

(** No list appears that was not there; loaded lists stay loaded. *)
Lemma step_available L root root' L' : tidy store L root -> step store (owned L root) [] root L root' L' ->
  available store L root -> available store L' root'.
Proof.
  intros T S A p b id N Tb I. pose proof (ok_own _ _ _ _ _ (st_ok _ _ _ _ _ _ _ S p b N Tb) id I) as (b0 & N0 & T0 & I0).
  destruct (A p b0 id N0 T0 I0) as [X|X]; [|now right]. left. intros Y. apply X. apply (st_mono _ _ _ _ _ _ _ S id Y).
Qed.
Lemma step_tidy L root root' L' : tidy store L root -> step store (owned L root) [] root L root' L' -> tidy store L' root'.
Proof. intros T S. eapply ok_tidy; [apply owned_fun; exact T|apply S]. Qed.

Lemma missing_not_available L root : missing_in store L root -> ~ available store L root.
Proof. intros (q & b & id & N & T & I & U & V) A. destruct (A q b id N T I); auto. Qed.
End Tree.

(** * Paths *)
Lemma split_loop_nonempty s : forall cur, Forall (fun n => n <> []) (split_unix_loop cur s).
Proof.
  induction s as [|c s IH]; intros cur; cbn [split_unix_loop].
  - destruct cur as [|x cur]; constructor; auto. intros E. apply (f_equal (@length _)) in E. rewrite rev_length in E. discriminate.
  - destruct (c =? 47); [|apply IH]. destruct cur as [|x cur]; [apply IH|]. constructor; [|apply IH].
    intros E. apply (f_equal (@length _)) in E. rewrite rev_length in E. discriminate.
Qed.
Lemma split_loop_free s : forall cur, ~ In 47 cur -> ~ In 92 cur -> ~ In 92 s -> Forall (fun n => ~ In 47 n /\ ~ In 92 n) (split_unix_loop cur s).
Proof.
  assert (R : forall x cur, ~ In x cur -> ~ In x (@rev byte cur)) by (intros x cur H I; apply H; now apply in_rev).
  induction s as [|c s IH]; intros cur A B C; cbn [split_unix_loop].
  - destruct cur as [|x cur]; constructor; auto.
  - cbn in C. destruct (N.eqb_spec c 47) as [->|D].
    + destruct cur as [|x cur]; [apply IH; auto|constructor; [split; apply R; assumption|apply IH; auto]].
    + apply IH; cbn; intuition congruence.
Qed.
Lemma to_unix_free s : ~ In 92 (to_unix s).
Proof. unfold to_unix. rewrite in_map_iff. intros (x & E & _). destruct (N.eqb_spec x 92); congruence. Qed.

Lemma split_loop_app c a b : c = 47 \/ c = 92 -> forall cur, split_unix_loop cur (to_unix (a ++ c :: b)) = split_unix_loop cur (to_unix a) ++ split_unix b.
Proof.
  intros C. assert (E : (if c =? 92 then 47 else c) = 47) by (destruct C; subst; reflexivity).
  induction a as [|x a IH]; intros cur; cbn [to_unix app map split_unix_loop].
  - rewrite E, N.eqb_refl. destruct cur; reflexivity.
  - destruct ((if x =? 92 then 47 else x) =? 47); [|apply IH]. destruct cur as [|y cur]; [apply IH|]. cbn [app]. f_equal. apply IH.
Qed.
Lemma split_loop_one n : ~ In 47 n -> ~ In 92 n -> forall cur, split_unix_loop cur (to_unix n) = match rev cur ++ n with [] => [] | x => [x] end.
Proof.
  induction n as [|c n IH]; intros A B cur; cbn [to_unix map split_unix_loop].
  - rewrite app_nil_r. destruct cur as [|x cur]; [reflexivity|]. destruct (rev (x :: cur)) eqn:E; [|reflexivity].
    apply (f_equal (@length _)) in E. rewrite rev_length in E. discriminate.
  - cbn in A, B. destruct (N.eqb_spec c 92) as [->|D]; [tauto|]. destruct (N.eqb_spec c 47) as [->|D2]; [tauto|].
    change (map _ n) with (to_unix n). rewrite IH by tauto. cbn [rev]. now rewrite <- app_assoc.
Qed.
