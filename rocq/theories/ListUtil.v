(** General list lemmas missing from the 8.16 standard library. *)
From Coq Require Import List Arith Lia Bool Permutation.
Import ListNotations.

Lemma Forall2_len {A B} (R : A -> B -> Prop) xs ys : Forall2 R xs ys -> length xs = length ys.
Proof. induction 1; simpl; auto. Qed.

Lemma nth_error_ext {A} (xs ys : list A) :
  (forall i, nth_error xs i = nth_error ys i) -> xs = ys.
Proof.
  revert ys. induction xs; intros [|y ys] H; auto.
  - specialize (H 0); discriminate.
  - specialize (H 0); discriminate.
  - f_equal. { specialize (H 0). simpl in H. congruence. }
    apply IHxs. intros i. apply (H (S i)).
Qed.

Lemma nth_error_map' {A B} (f : A -> B) xs i :
  nth_error (map f xs) i = option_map f (nth_error xs i).
Proof. revert i. induction xs; intros [|i]; simpl; auto. Qed.

Lemma nth_error_seq' s n i : i < n -> nth_error (seq s n) i = Some (s + i).
Proof.
  revert s i. induction n; intros s [|i] H; simpl; try lia.
  - f_equal; lia.
  - rewrite IHn by lia. f_equal; lia.
Qed.

Lemma nth_error_firstn {A} n (l : list A) i :
  nth_error (firstn n l) i = if i <? n then nth_error l i else None.
Proof.
  revert l i. induction n; intros l i; simpl.
  - destruct i; auto.
  - destruct l; simpl. { destruct i; simpl; auto. destruct (S i <? S n); auto. }
    destruct i; simpl; auto. rewrite IHn. reflexivity.
Qed.

Lemma nth_error_skipn {A} n (l : list A) i : nth_error (skipn n l) i = nth_error l (n + i).
Proof. revert l. induction n; intros [|x l]; simpl; auto. destruct i; auto. Qed.

Lemma NoDup_filter' {A} (f : A -> bool) l : NoDup l -> NoDup (filter f l).
Proof.
  induction 1; simpl; [constructor|]. destruct (f x); auto. constructor; auto.
  rewrite filter_In. tauto.
Qed.

Lemma NoDup_app' {A} (l1 l2 : list A) :
  NoDup l1 -> NoDup l2 -> (forall x, In x l1 -> ~ In x l2) -> NoDup (l1 ++ l2).
Proof.
  induction 1; simpl; auto. intros H2 Hd. constructor.
  - rewrite in_app_iff. intros [Hx|Hx]; [contradiction|]. apply (Hd x); simpl; auto.
  - apply IHNoDup; auto.
Qed.

Lemma nth_error_inj {A} (l : list A) i j x :
  NoDup l -> nth_error l i = Some x -> nth_error l j = Some x -> i = j.
Proof.
  intros Hn Hi Hj. rewrite NoDup_nth_error in Hn. apply Hn.
  - apply nth_error_Some. congruence.
  - congruence.
Qed.
