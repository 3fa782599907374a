(** Model of the direct minimisation of a quadratic likelihood and of the covariance:
    rabbit/fitter.py:2316-2377 (minimize), 932-954 (Fitter.edmval_cov), rabbit/scipyhelpers.py:17-48,
    rabbit/tfhelpers.py:52-71, fitter.py:990-1020 (Hessian-free rows), over the reals. *)
From Coq Require Import Reals List Arith.
From Verif Require Import PyList Mat_Model.
Import ListNotations.
Open Scope R_scope.

(** fitter.py:2318-2340 *)
Definition newton_chol (n : nat) (grad : nat -> R) (hess : nat -> nat -> R) (x : nat -> R) : result (nat -> R) :=
  match chol n hess with
  | None => Raise ValueError
  | Some L => Ok (fun i => x i + chol_solve n L (fun i => - grad i) i)
  end.

(** scipy.sparse.linalg.cg without preconditioner and start value, atol=0: a step divides by p.(A p); where
    this is 0 floats give NaN, which never satisfies the stopping test *)
Definition norm (n : nat) (v : nat -> R) : R := sqrt (vdot n v v).
Record cgst := mkCg { cg_x : nat -> R; cg_r : nat -> R; cg_p : nat -> R; cg_rho : R }.
Definition cg_step (n : nat) (A : (nat -> R) -> nat -> R) (first : bool) (s : cgst) : option cgst :=
  let rho := vdot n (cg_r s) (cg_r s) in
  let p := if first then cg_r s else (fun i => cg_r s i + rho / cg_rho s * cg_p s i) in
  let q := A p in
  let pq := vdot n p q in
  if Req_EM_T pq 0 then None
  else let alpha := rho / pq in
       Some (mkCg (fun i => cg_x s i + alpha * p i) (fun i => cg_r s i - alpha * q i) p rho).
Fixpoint cg_loop (n : nat) (A : (nat -> R) -> nat -> R) (tol : R) (fuel : nat) (first : bool) (s : cgst) : option (nat -> R) :=
  match fuel with
  | O => None
  | S k => if Rlt_dec (norm n (cg_r s)) tol then Some (cg_x s)
           else match cg_step n A first s with None => None | Some s' => cg_loop n A tol k false s' end
  end.
Definition cg (n : nat) (A : (nat -> R) -> nat -> R) (rtol : R) (b : nat -> R) : option (nat -> R) :=
  if Req_EM_T (norm n b) 0 then Some b
  else cg_loop n A (rtol * norm n b) (10 * n) true (mkCg (fun _ => 0) b (fun _ => 0) 0).
(** fitter.py:2341-2377; [hessp] is the Hessian-vector product at the start point *)
Definition newton_cg (n : nat) (grad : nat -> R) (hessp : (nat -> R) -> nat -> R) (x : nat -> R) : result (nat -> R) :=
  match cg n hessp (/ 10000000000) (fun i => - grad i) with
  | None => Raise ValueError
  | Some dx => Ok (fun i => x i + dx i)
  end.

(** scipyhelpers.py:34-48 (lower=False: the factor is the transpose of the lower one of the transposed
    matrix) and tfhelpers.py:52-71; both return the estimated distance to minimum and the inverse *)
Definition scipy_edmval_cov (n : nat) (grad : nat -> R) (hess : nat -> nat -> R) : result (R * (nat -> nat -> R)) :=
  match chol n (fun i j => hess j i) with
  | None => Raise ValueError
  | Some L => Ok (1 / 2 * vdot n grad (chol_solve n L grad), cho_inv n L)
  end.
Definition tf_edmval_cov (n : nat) (grad : nat -> R) (hess : nat -> nat -> R) : result (R * (nat -> nat -> R)) :=
  match chol n hess with
  | None => Raise ValueError
  | Some L => Ok (1 / 2 * vdot n grad (chol_solve n L grad), fun i j => chol_solve n L (fun k => delta k j) i)
  end.
Definition lib_edmval_cov (gpu : bool) := if gpu then tf_edmval_cov else scipy_edmval_cov.

Fixpoint index_of (l : list nat) (i : nat) : option nat :=
  match l with
  | [] => None
  | a :: r => if Nat.eqb a i then Some O else match index_of r i with Some k => Some (S k) | None => None end
  end.
(** tf.tensor_scatter_nd_update of a block *)
Definition scatter_cov (cov : nat -> nat -> R) (fl : list nat) (block : nat -> nat -> R) (i j : nat) : R :=
  match index_of fl i, index_of fl j with Some a, Some b => block a b | _, _ => cov i j end.
(** fitter.py:932-954 *)
Definition edmval_cov (gpu : bool) (n : nat) (frozen : bool) (fl : list nat) (cov : nat -> nat -> R)
  (grad : nat -> R) (hess : nat -> nat -> R) : result (R * (nat -> nat -> R)) :=
  if frozen then
    r <- lib_edmval_cov gpu (List.length fl) (fun a => grad (nth a fl O)) (fun a b => hess (nth a fl O) (nth b fl O)) ;;
    Ok (fst r, scatter_cov cov fl (snd r))
  else lib_edmval_cov gpu n grad hess.
(** fitter.py:1002-1020 *)
Fixpoint cg_rows (n : nat) (A : (nat -> R) -> nat -> R) (rtol : R) (rows : list nat) : result (list (nat -> R)) :=
  match rows with
  | [] => Ok []
  | i :: r => match cg n A rtol (fun k => delta k i) with
              | None => Raise ValueError
              | Some c => cs <- cg_rows n A rtol r ;; Ok (c :: cs)
              end
  end.
Definition cov_rows_hessfree (n : nat) (A : (nat -> R) -> nat -> R) (rtol : R) (grad : nat -> R) (rows : list nat)
  : result (R * list (nat -> R)) :=
  match cg n A rtol grad with
  | None => Raise ValueError
  | Some v => cs <- cg_rows n A rtol rows ;; Ok (1 / 2 * vdot n grad v, cs)
  end.
