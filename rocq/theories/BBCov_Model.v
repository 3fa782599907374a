(** Model of the covarianceFit branches of rabbit/bbstat/bbstat.py:614-665 (profiled beta
    when the data term uses a full inverse covariance W). Vectors and matrices are functions
    of bin (i < n) and process (p < m) indices. tf.linalg.solve / lu_solve are modelled by
    their contract: any vector satisfying the linear system. *)
From Coq Require Import Reals List Bool.
From Verif Require Import RBase BBStat_Model.
Import ListNotations.
Open Scope R_scope.

Definition rsum (n : nat) (f : nat -> R) : R := sumR (map f (seq 0 n)).
Definition matvec (n : nat) (A : nat -> nat -> R) (x : nat -> R) (i : nat) : R :=
  rsum n (fun j => A i j * x j).
Definition solves (n : nat) (A : nat -> nat -> R) (b x : nat -> R) : Prop :=
  forall i, (i < n)%nat -> matvec n A x i = b i.
Definition delta (i j : nat) : R := if Nat.eqb i j then 1 else 0.

Section CovFit.
  Variables (n m : nat) (W : nat -> nat -> R) (nobs : nat -> R).

  (** lite, normal-multiplicative: bbstat.py:616-634. [na] is n_active, [z] n_zero_var *)
  Definition A_lite_mult (na k : nat -> R) (i j : nat) : R :=
    safe_pos (na i) * W i j * safe_pos (na j) + delta i j * k i.
  Definition b_lite_mult (na z k b0 : nat -> R) (i : nat) : R :=
    safe_pos (na i) * matvec n W (fun j => nobs j - z j) i + k i * b0 i.
  Definition profile_cov_lite_mult (mask : nat -> bool) (b0 sol : nat -> R) (i : nat) : R :=
    if mask i then b0 i else sol i.

  (** full, normal-multiplicative: bbstat.py:635-663 *)
  Definition n2k (norm k : nat -> nat -> R) (mask : nat -> nat -> bool) (i : nat) : R :=
    rsum m (fun p => if mask i p then 0 else norm i p * norm i p / k i p).
  Definition A_full (d : nat -> R) (i j : nat) : R := d i * W i j + delta i j.
  Definition b_full_mult (norm k b0 : nat -> nat -> R) (mask : nat -> nat -> bool) (i : nat) : R :=
    n2k norm k mask i * matvec n W nobs i + rsum m (fun p => norm i p * b0 i p).
  Definition profile_cov_full_mult (norm k b0 : nat -> nat -> R) (mask : nat -> nat -> bool)
    (nbeta : nat -> R) (i p : nat) : R :=
    if mask i p then b0 i p
    else b0 i p - norm i p / k i p * matvec n W (fun j => nbeta j - nobs j) i.

  (** lite, normal-additive: bbstat.py:199-210 (betaauxlu) and 664-674 *)
  Definition A_lite_add (varb : nat -> R) (i j : nat) : R :=
    sqrt (varb i) * W i j * sqrt (varb j) + delta i j.
  Definition b_lite_add (varb nexp b0 : nat -> R) (i : nat) : R :=
    sqrt (varb i) * matvec n W (fun j => nobs j - nexp j) i + b0 i.

  (** full, normal-additive: bbstat.py:211-222 and 675-692 *)
  Definition varsum (varb : nat -> nat -> R) (i : nat) : R := rsum m (fun p => varb i p).
  Definition b_full_add (varb b0 : nat -> nat -> R) (nexp : nat -> R) (i : nat) : R :=
    varsum varb i * matvec n W (fun j => nobs j - nexp j) i
    + rsum m (fun p => sqrt (varb i p) * b0 i p).
  Definition profile_cov_full_add (varb b0 : nat -> nat -> R) (nexp nbeta : nat -> R)
    (i p : nat) : R :=
    b0 i p - sqrt (varb i p) * matvec n W (fun j => nbeta j + nexp j - nobs j) i.
End CovFit.
