(** List lemmas missing from the 8.16 standard library. *)
From Verif Require Import Base.

Lemma skipn_skipn {A} (x y : nat) (l : list A) : skipn x (skipn y l) = skipn (x + y) l.
Proof.
  revert l; induction y as [|y IH]; intros l.
  - now rewrite Nat.add_0_r.
  - rewrite Nat.add_succ_r. destruct l as [|a l]; [now rewrite !skipn_nil|].
    cbn [skipn]. apply IH.
Qed.

Lemma firstn_skipn_S {A} (l : list A) i n b :
  nth_error l i = Some b ->
  firstn (S n) (skipn i l) = b :: firstn n (skipn (S i) l).
Proof.
  revert i; induction l as [|x l IH]; intros [|i] H; simpl in *; try discriminate.
  - now inversion H.
  - destruct l; [destruct i; discriminate|]. now apply (IH i).
Qed.

Lemma firstn_S_snoc {A} (l : list A) i b :
  nth_error l i = Some b -> firstn (S i) l = firstn i l ++ [b].
Proof.
  revert i; induction l as [|x l IH]; intros [|i] H; simpl in *; try discriminate.
  - now inversion H.
  - f_equal. now apply IH.
Qed.

Lemma nth_error_lt_Some {A} (l : list A) i :
  i < length l -> exists b, nth_error l i = Some b.
Proof.
  intros H. destruct (nth_error l i) eqn:E; eauto.
  apply nth_error_None in E. lia.
Qed.

Lemma skipn_lt {A} (l : list A) n : 1 <= n <= length l -> length (skipn n l) < length l.
Proof. intros. rewrite skipn_length. lia. Qed.

Lemma firstn_app_exact {A} (l r : list A) : firstn (length l) (l ++ r) = l.
Proof. rewrite firstn_app, firstn_all, Nat.sub_diag, firstn_O, app_nil_r. reflexivity. Qed.

Lemma skipn_app_exact {A} (l r : list A) : skipn (length l) (l ++ r) = r.
Proof. rewrite skipn_app, skipn_all, Nat.sub_diag. reflexivity. Qed.

Lemma Forall2_impl {A B} (P Q : A -> B -> Prop) l1 l2 :
  (forall a b, P a b -> Q a b) -> Forall2 P l1 l2 -> Forall2 Q l1 l2.
Proof. intros H F. induction F; constructor; auto. Qed.
