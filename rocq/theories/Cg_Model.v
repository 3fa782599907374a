(** Uncertainties without the Hessian: rabbit/fitter.py:956-1020 (edmval_cov_rows_hessfree) and bin/rabbit_fit.py:625-660.

    scipy.sparse.linalg.cg is its documented loop of conjugate gradients without preconditioner, started at zero, over the reals; rounding
    is not modelled. A division by zero makes the iterates NaN or infinite for good, so that the loop ends without convergence; the values
    are then not used and not modelled. Hessian-vector products are a function of the vector, as fitter.x does not change. *)
From Coq Require Import Reals List Arith Bool Lra.
From Verif Require Import RBase PyList Mat_Model.
Import ListNotations.
Open Scope R_scope.

Definition vnorm (n : nat) (v : nat -> R) : R := sqrt (vdot n v v).
(** CgInfo0 x: converged, or no iteration allowed (info is maxiter, which is 0 then); CgMax: info is maxiter *)
Inductive cgres := CgInfo0 (x : nat -> R) | CgMax.

(** for iteration in range(maxiter); [p] and [rho_prev] are those of the previous iteration, if any *)
Fixpoint cg_loop (n : nat) (hvp : (nat -> R) -> nat -> R) (tol : R) (fuel : nat) (prev : option ((nat -> R) * R)) (x r : nat -> R) : cgres :=
  match fuel with
  | O => CgMax
  | S fuel =>
    if Rltb (vnorm n r) tol then CgInfo0 x else
    let rho := vdot n r r in
    let p := match prev with
             | Some (p, rho_prev) => if Reqb rho_prev 0 then None else Some (fun i => p i * (rho / rho_prev) + r i)
             | None => Some r
             end in
    match p with
    | None => CgMax
    | Some p =>
      let q := hvp p in
      if Reqb (vdot n p q) 0 then CgMax else
      let alpha := rho / vdot n p q in
      cg_loop n hvp tol fuel (Some (p, rho)) (fun i => x i + alpha * p i) (fun i => r i - alpha * q i)
    end
  end.
Definition cg (n : nat) (hvp : (nat -> R) -> nat -> R) (b : nat -> R) (rtol atol : R) (maxiter : option nat) : cgres :=
  let bnrm := vnorm n b in
  let tol := Rmax atol (rtol * bnrm) in
  if Reqb bnrm 0 then CgInfo0 b else
  match match maxiter with Some m => m | None => (n * 10)%nat end with
  | O => CgInfo0 (fun _ => 0)
  | m => cg_loop n hvp tol m None (fun _ => 0) b
  end.
Definition cg_ok (r : cgres) : result (nat -> R) := match r with CgInfo0 x => Ok x | CgMax => Raise ValueError end.

(** fitter.py:1004-1018 *)
Fixpoint cov_rows (n : nat) (hvp : (nat -> R) -> nat -> R) (rtol : R) (maxiter : option nat) (rows : list nat) : result (list (nat -> R)) :=
  match rows with
  | [] => Ok []
  | i :: rest =>
    if Nat.ltb i n then
      c <- cg_ok (cg n hvp (delta i) rtol 0 maxiter) ;;
      cs <- cov_rows n hvp rtol maxiter rest ;; Ok (c :: cs)
    else Raise IndexError
  end.
(** fitter.py:956-1020 *)
Definition edmval_cov_rows_hessfree (n : nat) (hvp : (nat -> R) -> nat -> R) (grad : nat -> R) (rows : list nat) (rtol : R) (maxiter : option nat) : result (R * list (nat -> R)) :=
  v <- cg_ok (cg n hvp grad rtol 0 maxiter) ;;
  let edmval := / 2 * vdot n grad v in
  cs <- cov_rows n hvp rtol maxiter rows ;; Ok (edmval, cs).

(** rabbit_fit.py:635-660: variances of all parameters, None for NaN *)
Definition poi_noi_idx (npoi : nat) (noiidxs : list nat) : list nat := seq 0 npoi ++ map (fun i => i + npoi)%nat noiidxs.
Fixpoint set_opt (i : nat) (v : R) (l : list (option R)) : list (option R) :=
  match l, i with
  | [], _ => []
  | _ :: r, O => Some v :: r
  | x :: r, S i => x :: set_opt i v r
  end.
Fixpoint fill_variances (l : list (option R)) (rows : list (nat * (nat -> R))) : list (option R) :=
  match rows with
  | [] => l
  | (i, c) :: rest => fill_variances (set_opt i (c i) l) rest
  end.
Definition hessfree_step (n npoi : nat) (noiidxs : list nat) (hvp : (nat -> R) -> nat -> R) (grad : nat -> R) (rtol : R) : result (R * list (option R)) :=
  let idx := poi_noi_idx npoi noiidxs in
  o <- edmval_cov_rows_hessfree n hvp grad idx rtol None ;;
  Ok (fst o, fill_variances (repeat None n) (combine idx (snd o))).
