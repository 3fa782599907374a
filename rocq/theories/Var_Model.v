(** Uncertainties of predictions: rabbit/fitter.py:737-761 (prefit uncertainties), 1430-1508 (_expected_with_variance),
    1591-1629 (_expected_variations) and rabbit_fit.py:490-500 (covariance used for prefit variations).

    A prediction is a list of [rows] numbers; D is its Jacobian with respect to the parameters (total derivative if beta is
    profiled) and P the one with respect to beta at fixed parameters, both as returned by automatic differentiation. Arrays are
    functions of their indices, flattened. Rounding is not modelled; NaN is None. *)
From Coq Require Import Reals List Arith Bool.
From Verif Require Import RBase PyList Mat_Model Impacts_Model.
Import ListNotations.
Open Scope R_scope.

(** fitter.py:737-749; tf.math.reciprocal of the entries that are kept *)
Definition prefit_variance (cw : nat -> R) (err : R) (i : nat) : R := if Reqb (cw i) 0 then err ^ 2 * 1 else / cw i.
(** fitter.py:751-761 *)
Definition prefit_covariance (cw : nat -> R) (err : R) (i j : nat) : R := if Nat.eqb i j then prefit_variance cw err i else 0.

(** fitter.py:1481-1501: q = (d2l/dbeta2)^-1 p for all rows; a solve of a singular matrix raises for any right-hand side *)
Definition row_qs (bb : option (nat * beta_curv)) (rows : nat) (P : nat -> nat -> R) : result (list (nat -> R)) :=
  match bb with
  | None => Ok (repeat (fun _ => 0) rows)
  | Some (m, c) => emap (fun a => obs_q c m (P a)) (seq 0 rows)
  end.
Definition nbeta (bb : option (nat * beta_curv)) : nat := match bb with None => O | Some (m, _) => m end.
Definition qrow (qs : list (nat -> R)) (a : nat) : nat -> R := nth a qs (fun _ => 0).
(** fitter.py:1470-1508: variances, and the covariance if asked for *)
Definition expected_with_variance (n : nat) (cov : nat -> nat -> R) (bb : option (nat * beta_curv)) (rows : nat) (D P : nat -> nat -> R)
  (compute_cov : bool) : result ((nat -> R) * option (nat -> nat -> R)) :=
  qs <- row_qs bb rows P ;;
  let m := nbeta bb in
  if compute_cov then
    let expcov := fun a b => sm n (fun i => D a i * mv n cov (D b) i) + sm m (fun k => P a k * qrow qs b k) in
    Ok (fun a => expcov a a, Some expcov)
  else
    Ok (fun a => sm n (fun j => sm n (fun k => D a j * cov j k * D a k)) + sm m (fun k => P a k * qrow qs a k), None).

(** fitter.py:1611-1629: shift of row a for parameter j *)
Definition variation_shift (n : nat) (cov : nat -> nat -> R) (D : nat -> nat -> R) (correlations : bool) (a j : nat) : option R :=
  if correlations then
    match tsqrt (cov j j) with
    | None => None
    | Some s => if Reqb s 0 then None else Some (sm n (fun k => D a k * (cov k j / s)))
    end
  else match tsqrt (cov j j) with None => None | Some s => Some (D a j * s) end.
(** down and up *)
Definition expected_variations (n : nat) (cov : nat -> nat -> R) (expected : nat -> R) (D : nat -> nat -> R) (correlations : bool)
  (a j : nat) : option (R * R) :=
  match variation_shift n cov D correlations a j with
  | None => None
  | Some d => Some (expected a - d, expected a + d)
  end.
(** rabbit_fit.py:490-515: the covariance replaced for prefit variations and put back afterwards *)
Definition prefit_variations (n : nat) (cw : nat -> R) (expected : nat -> R) (D : nat -> nat -> R) (a j : nat) : option (R * R) :=
  expected_variations n (prefit_covariance cw 1) expected D false a j.
