(** The diagnostics of the bin-by-bin nuisances: rabbit/fitter.py:2216-2234 (loss_val_grad_hess_beta) and
    bin/rabbit_fit.py:592-600.

    One nuisance per bin (lite mode), Poisson or chi-square likelihood, exact reals, with the profiled nuisances and the loss of
    BBStat_Model. The derivatives are those of automatic differentiation of the modelled expressions; C114_autodiff shows
    that they are derivatives. A bin of a masked channel has no data: its nuisance is its centre
    (bbstat.py:832-833) and only the constraint contributes. Regularisation is not modelled. *)
From Coq Require Import List Reals Bool Arith.
From Verif Require Import PyList RBase BBStat_Model Linear_Model.
Import ListNotations.
Local Open Scope R_scope.

Record lbin := mkLB { lb_info : bininfo; lb_procs : list lite_proc; lb_obs : option (R * R); lb_beta0 : R }.
Definition lb_profile (l : lik) (t : bbtype) (b : lbin) : R :=
  match lb_obs b with
  | Some (nobs, var) => profile_lite l t (lb_info b) (lb_procs b) nobs var (lb_beta0 b)
  | None => lb_beta0 b
  end.
Definition lb_nexp (t : bbtype) (b : lbin) (beta : R) : R := sumR (apply_lite t (lb_info b) (lb_procs b) beta).
Definition lb_loss (l : lik) (t : bbtype) (b : lbin) (beta : R) : R :=
  match lb_obs b with
  | Some (nobs, var) => loss_lite l t (lb_info b) (lb_procs b) nobs var (lb_beta0 b) beta
  | None => lbeta_bin t (lb_info b) (lb_beta0 b) beta
  end.

(** ** derivatives *)
Definition slope (t : bbtype) (b : lbin) : R :=
  match t with
  | NormalAdd =>
    sumR (map (fun p : lite_proc => sqrt (bi_varbeta (lb_info b)) * (if fst p then 0 else snd p) / safe_pos (n_active (lb_procs b))) (lb_procs b))
  | _ => sumR (map (fun p : lite_proc => if fst p || bi_mask (lb_info b) then 0 else snd p) (lb_procs b))
  end.
Definition dconstraint (t : bbtype) (b : lbin) (beta : R) : R :=
  let k := bi_kstat (lb_info b) in let b0 := lb_beta0 b in
  match t with
  | Gamma => k - k * (if Reqb b0 0 then 0 else b0 / beta)
  | NormalMult => if bi_mask (lb_info b) then 0 else (beta - b0) * k
  | NormalAdd => beta - b0
  end.
Definition ddconstraint (t : bbtype) (b : lbin) (beta : R) : R :=
  let k := bi_kstat (lb_info b) in let b0 := lb_beta0 b in
  match t with
  | Gamma => k * (if Reqb b0 0 then 0 else b0 / (beta * beta))
  | NormalMult => if bi_mask (lb_info b) then 0 else k
  | NormalAdd => 1
  end.
Definition dln (l : lik) (nobs var nexp : R) : R :=
  match l with Chisq => (nexp - nobs) / var | Poisson => 1 - (if Reqb nobs 0 then 0 else nobs / nexp) end.
Definition ddln (l : lik) (nobs var nexp : R) : R :=
  match l with Chisq => / var | Poisson => if Reqb nobs 0 then 0 else nobs / (nexp * nexp) end.
Definition lb_grad (l : lik) (t : bbtype) (b : lbin) (beta : R) : R :=
  match lb_obs b with Some (nobs, var) => slope t b * dln l nobs var (lb_nexp t b beta) | None => 0 end + dconstraint t b beta.
Definition lb_hess (l : lik) (t : bbtype) (b : lbin) (beta : R) : R :=
  match lb_obs b with Some (nobs, var) => slope t b * (slope t b * ddln l nobs var (lb_nexp t b beta)) | None => 0 end + ddconstraint t b beta.

(** fitter.py:2216-2234: derivatives at the profiled nuisances, without the masked ones; the loss of a bin depends on its own
    nuisance only, the Hessian is diagonal *)
Definition selected (bins : list lbin) : list lbin := filter (fun b => negb (bi_mask (lb_info b))) bins.
Definition grads (l : lik) (t : bbtype) (bins : list lbin) : list R := map (fun b => lb_grad l t b (lb_profile l t b)) (selected bins).
Definition hesss (l : lik) (t : bbtype) (bins : list lbin) : list R := map (fun b => lb_hess l t b (lb_profile l t b)) (selected bins).
(** rabbit_fit.py:597-598: what is logged is the pair of the value and the inverse of the Hessian *)
Definition edm_beta (gpu : bool) (l : lik) (t : bbtype) (bins : list lbin) : result (R * (nat -> nat -> R)) :=
  lib_edmval_cov gpu (List.length (selected bins)) (fun i => nth i (grads l t bins) 0)
    (fun i j => if Nat.eqb i j then nth i (hesss l t bins) 0 else 0).
