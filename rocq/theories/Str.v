(** std::string order: lexicographic on unsigned bytes
    (std::char_traits<char>::compare), used by every sort and ordered map in
    the repository that is keyed by a path. *)
From Verif Require Import Base ListX.
Local Open Scope N_scope.

(** std::string::compare *)
Fixpoint scmp (a b : bytes) : comparison :=
  match a, b with
  | [], [] => Eq
  | [], _ :: _ => Lt
  | _ :: _, [] => Gt
  | x :: a', y :: b' => match x ?= y with Eq => scmp a' b' | c => c end
  end.

(** std::string::operator< and operator== *)
Definition sltb (a b : bytes) : bool := match scmp a b with Lt => true | _ => false end.
Definition seqb (a b : bytes) : bool := match scmp a b with Eq => true | _ => false end.
Definition slt (a b : bytes) : Prop := scmp a b = Lt.
Definition sle (a b : bytes) : Prop := scmp a b <> Gt.

Lemma scmp_refl a : scmp a a = Eq.
Proof. induction a; cbn; auto. now rewrite N.compare_refl. Qed.

Lemma scmp_eq a b : scmp a b = Eq <-> a = b.
Proof.
  split; [|intros ->; apply scmp_refl].
  revert b. induction a as [|x a IH]; intros [|y b]; cbn; try discriminate; auto.
  destruct (N.compare_spec x y); try discriminate. intros E. subst. f_equal. auto.
Qed.

Lemma scmp_antisym a b : scmp b a = CompOpp (scmp a b).
Proof.
  revert b. induction a as [|x a IH]; intros [|y b]; cbn; auto.
  rewrite (N.compare_antisym x y). destruct (x ?= y); cbn; auto.
Qed.

Lemma slt_trans a b c : slt a b -> slt b c -> slt a c.
Proof.
  unfold slt. revert b c. induction a as [|x a IH]; intros [|y b] [|z c]; cbn; try discriminate; auto.
  destruct (N.compare_spec x y), (N.compare_spec y z); try discriminate; intros A B; subst.
  - rewrite N.compare_refl. eauto.
  - assert (E : y ?= z = Lt) by (apply N.compare_lt_iff; lia). now rewrite E.
  - assert (E : x ?= z = Lt) by (apply N.compare_lt_iff; lia). now rewrite E.
  - assert (E : x ?= z = Lt) by (apply N.compare_lt_iff; lia). now rewrite E.
Qed.

Lemma slt_irrefl a : ~ slt a a.
Proof. unfold slt. rewrite scmp_refl. discriminate. Qed.

Lemma sle_alt a b : sle a b <-> slt a b \/ a = b.
Proof.
  unfold sle, slt. rewrite <- scmp_eq. destruct (scmp a b); split; intros H; auto; try congruence.
  destruct H; discriminate.
Qed.

Lemma sle_trans a b c : sle a b -> sle b c -> sle a c.
Proof.
  rewrite !sle_alt. intros [H| ->] [K| ->]; auto. left. eapply slt_trans; eauto.
Qed.

Lemma sle_refl a : sle a a.
Proof. apply sle_alt. auto. Qed.

Lemma slt_le_trans a b c : slt a b -> sle b c -> slt a c.
Proof. rewrite sle_alt. intros H [K| <-]; auto. eapply slt_trans; eauto. Qed.

Lemma sle_lt_trans a b c : sle a b -> slt b c -> slt a c.
Proof. rewrite sle_alt. intros [K| ->]; auto. intros. eapply slt_trans; eauto. Qed.

Lemma scmp_gt a b : scmp a b = Gt <-> slt b a.
Proof. unfold slt. rewrite (scmp_antisym a b). destruct (scmp a b); split; cbn; auto; discriminate. Qed.

Lemma sltb_spec a b : reflect (slt a b) (sltb a b).
Proof. unfold sltb, slt. destruct (scmp a b); constructor; congruence. Qed.

Lemma seqb_spec a b : reflect (a = b) (seqb a b).
Proof.
  unfold seqb. destruct (scmp a b) eqn:E; constructor.
  - now apply scmp_eq.
  - intros ->. rewrite scmp_refl in E. discriminate.
  - intros ->. rewrite scmp_refl in E. discriminate.
Qed.

Lemma seqb_refl a : seqb a a = true.
Proof. unfold seqb. now rewrite scmp_refl. Qed.

Lemma sle_total a b : sle a b \/ slt b a.
Proof. unfold sle. rewrite <- scmp_gt. destruct (scmp a b); auto; left; discriminate. Qed.

(** A proper extension of a string is larger. *)
Lemma slt_extend a x s : slt a (a ++ x :: s).
Proof. unfold slt. induction a; cbn; auto. now rewrite N.compare_refl. Qed.

Definition str_eq_dec (a b : bytes) : {a = b} + {a <> b} := list_eq_dec N.eq_dec a b.

(** Membership of a string in a list, decidable. *)
Definition smem (a : bytes) (l : list bytes) : bool := existsb (seqb a) l.

Lemma smem_spec a l : reflect (In a l) (smem a l).
Proof.
  unfold smem. destruct (existsb (seqb a) l) eqn:E; constructor.
  - apply existsb_exists in E. destruct E as (x & I & E). destruct (seqb_spec a x); [now subst|discriminate].
  - intros I. assert (existsb (seqb a) l = true); [|congruence].
    apply existsb_exists. exists a. split; auto. apply seqb_refl.
Qed.
