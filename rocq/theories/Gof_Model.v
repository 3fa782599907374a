(** Goodness of fit: rabbit/fitter.py:1839-1932 (_residuals_profiled, _residuals, _chi2), 1372-1416 (_dxdvars, _dndvars),
    rabbit/mappings/mapping.py:56-83 (_get_data) and rabbit_fit.py:663-667 (degrees of freedom of the saturated test).

    Arrays are functions of their indices. Derivatives are those of automatic differentiation and are passed in. tf.linalg.solve is
    elimination with pivoting and raises for a singular matrix; rounding, which decides about such a matrix in the program, is not
    modelled. The pseudo inverse is any matrix with the Penrose properties, which determine it. *)
From Coq Require Import Reals List Arith Bool ZArith.
From Verif Require Import RBase PyList Mat_Model Impacts_Model Var_Model.
Import ListNotations.
Open Scope R_scope.

Definition tsolve (n : nat) (A : nat -> nat -> R) (b : nat -> R) : result (nat -> R) :=
  match gsolve n A b with Some x => Ok x | None => Raise GenericException end.
(** mapping.py:70-79 and fitter.py:1862-1869: covariance of rows with the derivatives G with respect to the data; the variance of
    data without variances is the data itself *)
Definition data_cov (rows nobs : nat) (D : data_unc) (G : nat -> nat -> R) : result (nat -> nat -> R) :=
  match D with
  | DVar v => Ok (fun a b => sm nobs (fun k => G a k * v k * G b k))
  | DCovInv Vi => xs <- emap (fun b => tsolve nobs Vi (G b)) (seq 0 rows) ;; Ok (fun a b => sm nobs (fun k => G a k * qrow xs b k))
  end.
(** fitter.py:1900-1911: prediction minus data and its covariance; the prediction with fixed beta *)
Definition residuals (n : nat) (cov : nat -> nat -> R) (bb : option (nat * beta_curv)) (rows nobs : nat) (D P : nat -> nat -> R) (pred : nat -> R)
  (U : data_unc) (G : nat -> nat -> R) (data : nat -> R) : result ((nat -> R) * (nat -> nat -> R)) :=
  dc <- data_cov rows nobs U G ;;
  ec <- expected_with_variance n cov bb rows D P true ;;
  match ec with
  | (_, Some pc) => Ok (fun a => pred a - data a, fun a b => pc a b + dc a b)
  | (_, None) => Raise GenericException
  end.
(** fitter.py:1396-1415: derivative with respect to a source: explicit one plus the one through the fitted parameters *)
Definition dndvar (n : nat) (cov : nat -> nat -> R) (pdndx pdndv K : nat -> nat -> R) (a v : nat) : R :=
  pdndv a v + sm n (fun i => pdndx a i * dxdvar n cov K i v).
(** fitter.py:1871-1896; curvature of lbeta in beta and mixed with beta0, mask unless normal-additive *)
Definition var_beta0 (msk : nat -> bool) (s smix : nat -> R) (k : nat) : R := if msk k then 0 else s k / (smix k) ^ 2.
(** fitter.py:1839-1898; [dx0], [dn], [db] the derivatives of the residuals with respect to x0, data and beta0 *)
Definition residuals_profiled_cov (n rows nobs : nat) (cw : nat -> R) (U : data_unc) (bbb : option (nat * (nat -> R))) (dx0 dn db : nat -> nat -> R)
  : result (nat -> nat -> R) :=
  st <- data_cov rows nobs U dn ;;
  Ok (fun a b => sm n (fun j => dx0 a j * (var_x0 cw j * dx0 b j)) + st a b
                 + match bbb with None => 0 | Some (m, vb) => sm m (fun k => db a k * (vb k * db b k)) end).
(** fitter.py:1913-1924 without reduction of the degrees of freedom *)
Definition chi2_solve (rows : nat) (res : nat -> R) (res_cov : nat -> nat -> R) : result R :=
  x <- tsolve rows res_cov res ;; Ok (sm rows (fun a => res a * x a)).
(** with a reduction: the pseudo inverse Pi *)
Definition chi2_pinv (rows : nat) (res : nat -> R) (Pi : nat -> nat -> R) : R := sm rows (fun a => sm rows (fun b => res a * Pi a b * res b)).
Definition chi2_ndf (rows ndf_reduction : nat) : Z := (Z.of_nat rows - Z.of_nat ndf_reduction)%Z.
(** rabbit_fit.py:663-667 *)
Definition ndfsat (nobs nparams nsystnoconstraint : nat) : Z := (Z.of_nat nobs - Z.of_nat nparams - Z.of_nat nsystnoconstraint)%Z.
