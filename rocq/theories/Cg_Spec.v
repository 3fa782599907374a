(** Specification of the uncertainties without the Hessian. *)
From Coq Require Import Reals List Arith Bool.
From Verif Require Import RBase PyList Mat_Model Contour_Spec Cg_Model.
Import ListNotations.
Open Scope R_scope.

(** frozen parameters do not enter the likelihood of the fit: their rows and columns of the Hessian are zero, see Freeze_Model *)
Definition frozen_rows (n : nat) (H : nat -> nat -> R) (frozen : nat -> bool) : Prop := forall i j, (i < n)%nat -> (j < n)%nat -> frozen i = true -> H i j = 0.
(** H x = b *)
Definition solves (n : nat) (H : nat -> nat -> R) (b x : nat -> R) : Prop := forall i, (i < n)%nat -> sm n (fun j => H i j * x j) = b i.
(** squared length *)
Definition sqlen (n : nat) (v : nat -> R) : R := sm n (fun i => v i ^ 2).
Definition defect (n : nat) (H : nat -> nat -> R) (b x : nat -> R) (i : nat) : R := b i - sm n (fun j => H i j * x j).
(** smallest curvature along moves of floating parameters *)
Definition curvature (n : nat) (H : nat -> nat -> R) (frozen : nat -> bool) (m : R) : Prop := 0 < m /\ forall z, floating_move n frozen z -> m * sqlen n z <= form n H z.
(** position of parameters in the fit: parameters of interest, other parameters of the model, systematics *)
Definition noi_position (npoi npou k : nat) : nat := (npoi + npou + k)%nat.
(** a variance no larger than the true one, and smaller by at most rtol^2 / m *)
Definition close_below (rtol m true_value v : R) : Prop := v <= true_value <= v + rtol ^ 2 / m.
