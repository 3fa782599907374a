(** Finite sums of reals and tensorflow's [where]/comparisons on reals. *)
From Coq Require Import Reals List Bool Lra Lia Psatz.
Import ListNotations.
Open Scope R_scope.

Definition sumR (l : list R) : R := fold_right Rplus 0 l.

(** boolean tests on reals (tf comparisons) *)
Definition Reqb (x y : R) : bool := if Req_EM_T x y then true else false.
Definition Rltb (x y : R) : bool := if Rlt_dec x y then true else false.
Definition Rleb (x y : R) : bool := if Rle_dec x y then true else false.

Lemma Reqb_spec x y : reflect (x = y) (Reqb x y).
Proof. unfold Reqb; destruct (Req_EM_T x y); constructor; auto. Qed.
Lemma Rltb_spec x y : reflect (x < y) (Rltb x y).
Proof. unfold Rltb; destruct (Rlt_dec x y); constructor; auto. Qed.
Lemma Rleb_spec x y : reflect (x <= y) (Rleb x y).
Proof. unfold Rleb; destruct (Rle_dec x y); constructor; auto. Qed.

Lemma Reqb_true x y : x = y -> Reqb x y = true.
Proof. intros; destruct (Reqb_spec x y); auto; contradiction. Qed.
Lemma Reqb_false x y : x <> y -> Reqb x y = false.
Proof. intros; destruct (Reqb_spec x y); auto; contradiction. Qed.
Lemma Rltb_true x y : x < y -> Rltb x y = true.
Proof. intros; destruct (Rltb_spec x y); auto; contradiction. Qed.
Lemma Rltb_false x y : ~ x < y -> Rltb x y = false.
Proof. intros; destruct (Rltb_spec x y); auto; contradiction. Qed.

Lemma sumR_app l1 l2 : sumR (l1 ++ l2) = sumR l1 + sumR l2.
Proof. induction l1; simpl; lra. Qed.

Lemma sumR_map_plus {A} (f g : A -> R) l :
  sumR (map (fun x => f x + g x) l) = sumR (map f l) + sumR (map g l).
Proof. induction l; simpl; lra. Qed.

Lemma sumR_map_minus {A} (f g : A -> R) l :
  sumR (map (fun x => f x - g x) l) = sumR (map f l) - sumR (map g l).
Proof. induction l; simpl; lra. Qed.

Lemma sumR_map_scal {A} c (f : A -> R) l :
  sumR (map (fun x => c * f x) l) = c * sumR (map f l).
Proof. induction l; simpl; nra. Qed.

Lemma sumR_map_ext {A} (f g : A -> R) l :
  (forall x, In x l -> f x = g x) -> sumR (map f l) = sumR (map g l).
Proof. induction l; simpl; intros H; auto. rewrite IHl, H; auto. Qed.

Lemma sumR_map_le {A} (f g : A -> R) l :
  (forall x, In x l -> f x <= g x) -> sumR (map f l) <= sumR (map g l).
Proof.
  induction l; simpl; intros H; [lra|].
  pose proof (H a (or_introl eq_refl)).
  assert (sumR (map f l) <= sumR (map g l)) by (apply IHl; auto). lra.
Qed.

Lemma sumR_nonneg l : (forall x, In x l -> 0 <= x) -> 0 <= sumR l.
Proof.
  induction l; simpl; intros H; [lra|].
  pose proof (H a (or_introl eq_refl)). assert (0 <= sumR l) by auto. lra.
Qed.

Lemma sumR_map_0 {A} (l : list A) : sumR (map (fun _ => 0) l) = 0.
Proof. induction l; simpl; lra. Qed.

Lemma sumR_nonneg_0 l : (forall x, In x l -> 0 <= x) -> sumR l = 0 -> forall x, In x l -> x = 0.
Proof.
  induction l; simpl; intros H Hs x Hx; [contradiction|].
  pose proof (H a (or_introl eq_refl)). pose proof (sumR_nonneg l (fun y hy => H y (or_intror hy))).
  destruct Hx as [<-|Hx]; [lra|]. apply IHl; auto; lra.
Qed.

(** ln t <= t - 1 in the form used for convexity arguments *)
Lemma ln_le_sub1 t : 0 < t -> ln t <= t - 1.
Proof.
  intros Ht. destruct (Req_dec t 1) as [->|Hne]. { rewrite ln_1; lra. }
  pose proof (exp_ineq1 (ln t)) as H.
  assert (ln t <> 0). { intros E. apply Hne. rewrite <- (exp_ln t Ht), E. apply exp_0. }
  specialize (H H0). rewrite exp_ln in H by auto. lra.
Qed.

Lemma ln_lt_sub1 t : 0 < t -> t <> 1 -> ln t < t - 1.
Proof.
  intros Ht Hne. pose proof (exp_ineq1 (ln t)) as H.
  assert (ln t <> 0). { intros E. apply Hne. rewrite <- (exp_ln t Ht), E. apply exp_0. }
  specialize (H H0). rewrite exp_ln in H by auto. lra.
Qed.

Lemma ln_div' x y : 0 < x -> 0 < y -> ln (x / y) = ln x - ln y.
Proof.
  intros Hx Hy. unfold Rdiv. rewrite ln_mult; auto.
  - rewrite ln_Rinv; auto.
  - apply Rinv_0_lt_compat; auto.
Qed.

Lemma Rdiv_nonneg x y : 0 <= x -> 0 < y -> 0 <= x / y.
Proof. intros. apply Rmult_le_pos; auto. left; apply Rinv_0_lt_compat; auto. Qed.

Lemma ln_tangent y ys : 0 < y -> 0 < ys -> ln y - ln ys <= (y - ys) / ys.
Proof.
  intros Hy Hs. rewrite <- ln_div' by auto.
  assert (0 < y / ys) by (apply Rdiv_lt_0_compat; auto).
  pose proof (ln_le_sub1 _ H). replace ((y - ys)/ys) with (y/ys - 1) by (field; lra). auto.
Qed.
