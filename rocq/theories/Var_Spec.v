(** What the uncertainty of a prediction is: parameters and beta are estimated together, with the inverse of the joint
    curvature as their covariance; a prediction with derivatives (d, p) has the covariance d . zx' + p . zb' with another one,
    (zx', zb') the solution of the joint linear system for it. *)
From Coq Require Import Reals List Arith Bool.
From Verif Require Import RBase PyList Mat_Model Impacts_Spec.
Import ListNotations.
Open Scope R_scope.

(** response of the joint minimum to a unit of force along (d, p); parameters and beta that do not float stay *)
Definition joint_response (K : curvature) (fx fb : nat -> bool) (d p zx zb : nat -> R) : Prop :=
  (forall i, (i < k_n K)%nat -> if fx i then sm (k_n K) (fun l => k_Hxx K i l * zx l) + sm (k_m K) (fun k => k_Dxb K i k * zb k) = d i else zx i = 0) /\
  (forall k, (k < k_m K)%nat -> if fb k then sm (k_n K) (fun i => k_Dxb K i k * zx i) + sm (k_m K) (fun l => k_Hbb K k l * zb l) = p k else zb k = 0).
Definition joint_cov (K : curvature) (fx fb : nat -> bool) (d p d' p' : nat -> R) (v : R) : Prop :=
  exists zx zb, joint_response K fx fb d' p' zx zb /\ v = sm (k_n K) (fun i => d i * zx i) + sm (k_m K) (fun k => p k * zb k).
(** the joint curvature is positive for every direction of floating parameters and beta *)
Definition joint_quad (K : curvature) (zx zb : nat -> R) : R :=
  sm (k_n K) (fun i => sm (k_n K) (fun j => zx i * k_Hxx K i j * zx j)) + 2 * sm (k_n K) (fun i => sm (k_m K) (fun k => zx i * k_Dxb K i k * zb k))
  + sm (k_m K) (fun k => sm (k_m K) (fun l => zb k * k_Hbb K k l * zb l)).
Definition joint_min (K : curvature) (fx fb : nat -> bool) : Prop :=
  forall zx zb, (forall i, (i < k_n K)%nat -> fx i = false -> zx i = 0) -> (forall k, (k < k_m K)%nat -> fb k = false -> zb k = 0) ->
  (exists i, (i < k_n K)%nat /\ zx i <> 0) \/ (exists k, (k < k_m K)%nat /\ zb k <> 0) -> 0 < joint_quad K zx zb.
Definition joint_sym (K : curvature) : Prop :=
  (forall i j, (i < k_n K)%nat -> (j < k_n K)%nat -> k_Hxx K i j = k_Hxx K j i) /\ (forall k l, (k < k_m K)%nat -> (l < k_m K)%nat -> k_Hbb K k l = k_Hbb K l k).

(** what the fit provides: response J of the profiled beta and covariance C of the floating parameters *)
Definition profiled_beta (K : curvature) (fb : nat -> bool) (J : nat -> nat -> R) : Prop :=
  forall k i, (k < k_m K)%nat -> (i < k_n K)%nat ->
    if fb k then sm (k_m K) (fun l => k_Hbb K k l * J l i) = - k_Dxb K i k else J k i = 0.
Definition fit_cov (K : curvature) (J : nat -> nat -> R) (fx : nat -> bool) (C : nat -> nat -> R) : Prop :=
  forall i j, (i < k_n K)%nat -> (j < k_n K)%nat ->
    if (fx i && fx j)%bool then sm (k_n K) (fun l => k_prof K J i l * C l j) = (if Nat.eqb i j then 1 else 0) else C i j = 0.
(** derivative along a floating parameter with beta following *)
Definition total_derivative (m : nat) (J : nat -> nat -> R) (fx : nat -> bool) (d p : nat -> R) (i : nat) : R :=
  if fx i then d i + sm m (fun k => p k * J k i) else 0.

(** prefit uncertainty of a parameter: its constraint, or the given value if it has none *)
Definition prefit_sigma2 (cw : nat -> R) (err : R) (i : nat) (s2 : R) : Prop := (cw i = 0 -> s2 = err * err) /\ (cw i <> 0 -> s2 * cw i = 1).
(** size of a pair (down, up) around a centre *)
Definition shifted_by (c : R) (du : option (R * R)) (h : R) : Prop := exists lo hi, du = Some (lo, hi) /\ lo = c - h /\ hi = c + h.
