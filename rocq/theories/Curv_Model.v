(** The curvature of the bin-by-bin nuisances used for the uncertainty of predictions: rabbit/fitter.py:1343-1370 (_pd2ldbeta2)
    and 1479-1504.

    The entries of beta are flattened, one per bin (lite) or one per bin and process (full); [b_bin] is the bin of an entry,
    [b_slope] the derivative of the yield of the bin with respect to it, [b_k] the curvature of its constraint, which is
    quadratic (normal nuisances). Exact reals; the loss of a bin as in BBStat_Model with the derivatives of Bdiag_Model.
    A covariance fit is represented by its curvature matrix [full]. *)
From Coq Require Import List Reals Arith Bool.
From Verif Require Import PyList RBase BBStat_Model Mat_Model Impacts_Model Bdiag_Model.
Import ListNotations.
Local Open Scope R_scope.

Record betas := mkB {
  b_m : nat;                (* number of entries *)
  b_bin : nat -> nat; b_slope : nat -> R; b_k : nat -> R; b_centre : nat -> R;
  b_mask : nat -> bool; b_additive : bool;
  b_base : nat -> R;        (* yield of a bin at beta = 0 *)
  b_nobs : nat -> R; b_var : nat -> R }.

Definition same_bin (B : betas) (k l : nat) : bool := Nat.eqb (b_bin B k) (b_bin B l).
(** expected yield of a bin *)
Definition nexp_at (B : betas) (beta : nat -> R) (a : nat) : R :=
  b_base B a + sm (b_m B) (fun k => if Nat.eqb (b_bin B k) a then b_slope B k * beta k else 0).
(** gradient of the loss *)
Definition grad_at (l : lik) (B : betas) (beta : nat -> R) (k : nat) : R :=
  b_slope B k * dln l (b_nobs B (b_bin B k)) (b_var B (b_bin B k)) (nexp_at B beta (b_bin B k)) + b_k B k * (beta k - b_centre B k).
(** its derivatives *)
Definition data_curvature (l : lik) (B : betas) (beta : nat -> R) (a : nat) : R := ddln l (b_nobs B a) (b_var B a) (nexp_at B beta a).
Definition hess_at (l : lik) (B : betas) (beta : nat -> R) (k j : nat) : R :=
  (if same_bin B k j then data_curvature l B beta (b_bin B k) * b_slope B k * b_slope B j else 0) + (if Nat.eqb k j then b_k B k else 0).

(** fitter.py:1343-1370: tape.gradient of a vector is the gradient of its sum *)
Definition tape_gradient (m : nat) (H : nat -> nat -> R) (j : nat) : R := sm m (fun k => H k j).
Definition pd2ldbeta2 (covfit : option (nat -> nat -> R)) (profile : bool) (l : lik) (B : betas) (beta : nat -> R) : beta_curv :=
  let msk := if b_additive B then fun _ => false else b_mask B in
  match covfit, profile with
  | Some full, true => BFull full
  | None, true => BDiag msk (tape_gradient (b_m B) (hess_at l B beta))
  | _, false => BDiag msk (tape_gradient (b_m B) (fun k j => if Nat.eqb k j then b_k B k else 0))
  end.
(** fitter.py:1482-1504: the part of the variance of a prediction with derivatives [p] that is due to beta *)
Definition beta_part (covfit : option (nat -> nat -> R)) (profile : bool) (l : lik) (B : betas) (beta p : nat -> R) : result R :=
  q <- obs_q (pd2ldbeta2 covfit profile l B beta) (b_m B) p ;; Ok (sm (b_m B) (fun k => p k * q k)).
