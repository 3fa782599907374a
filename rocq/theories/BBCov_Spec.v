(** Penalised chi-square with full inverse covariance W. *)
From Coq Require Import Reals List.
From Verif Require Import BBStat_Spec.
Import ListNotations.
Open Scope R_scope.

Fixpoint sum_upto (n : nat) (f : nat -> R) : R :=
  match n with O => 0 | S k => sum_upto k f + f k end.

Definition quadform (n : nat) (W : nat -> nat -> R) (r : nat -> R) : R :=
  sum_upto n (fun i => sum_upto n (fun j => r i * W i j * r j)).
Definition symmetric (n : nat) (W : nat -> nat -> R) : Prop :=
  forall i j, (i < n)%nat -> (j < n)%nat -> W i j = W j i.
Definition psd (n : nat) (W : nat -> nat -> R) : Prop := forall r, 0 <= quadform n W r.

(** 1/2 (nobs - E)^T W (nobs - E) + penalty *)
Definition cov_chi2 (n : nat) (W : nat -> nat -> R) (nobs E : nat -> R) : R :=
  quadform n W (fun i => nobs i - E i) / 2.

(** one nuisance per bin *)
Definition cov_objective (n : nat) W nobs (E : (nat -> R) -> nat -> R) (k b0 b : nat -> R) : R :=
  cov_chi2 n W nobs (E b) + sum_upto n (fun i => gauss_constraint (k i) (b0 i) (b i)).
(** one nuisance per bin and process *)
Definition cov_objective2 (n m : nat) W nobs (E : (nat -> nat -> R) -> nat -> R)
  (k b0 b : nat -> nat -> R) : R :=
  cov_chi2 n W nobs (E b)
  + sum_upto n (fun i => sum_upto m (fun p => gauss_constraint (k i p) (b0 i p) (b i p))).
