(** Asymptotic limits: rabbit/asymptotic_limits.py, bin/rabbit_limit.py:53-210 and 322-366.

    Exact reals. tfhelpers.normal_cdf and scipy norm.ppf are functions passed in. What a minimisation finds is
    arbitrary. The gradient of the likelihood is passed in; tensorflow differentiates sqrt(2 L) as L' / sqrt(2 L). *)
From Coq Require Import Reals List Arith ZArith Bool String.
From Verif Require Import RBase PyList PyDict Map_Model Freeze_Model Session_Model.
Import ListNotations.
Local Open Scope nat_scope.

(** ** asymptotic_limits.py:37-51 (initial vector) and 118-121 = 132-135 (scipy_constraint, scipy_constraint_grad) *)
Definition pack (idx : nat) (x1 x2 : list R) : list R := x1 ++ remove_at idx x2.
Definition unpack (idx : nat) (v : list R) : result (list R * list R) :=
  let nx := (List.length v + 1) / 2 in
  let x1 := firstn nx v in let x2 := skipn nx v in
  match nth_error x1 idx with
  | None => Raise IndexError
  | Some c => if Nat.leb idx (List.length x2) then Ok (x1, insert_at idx c x2) else Raise IndexError
  end.

Local Open Scope R_scope.
(** asymptotic_limits.py:58-61 *)
Definition qval (L Lmin : R) : R := sqrt (2 * (L - Lmin)).
Definition constraint (cdf : R -> R) (cl L1 L1min L2 L2min : R) : R :=
  let qmu := qval L1 L1min in let qA := qval L2 L2min in cl * cdf (qA - qmu) + cdf qmu - 1.
(** asymptotic_limits.py:72-102: g1, g2 are the gradients of the two likelihoods *)
Definition constraint_grad (pdf : R -> R) (cl L1 L1min L2 L2min : R) (idx : nat) (g1 g2 : list R) : list R :=
  let qmu := qval L1 L1min in let qA := qval L2 L2min in
  let d1 := map (fun g => (pdf qmu - cl * pdf (qA - qmu)) * (g / sqrt (2 * L1))) g1 in
  let d2 := map (fun g => cl * pdf (qA - qmu) * (g / sqrt (2 * L2))) g2 in
  set_at idx (nth idx d1 0 + nth idx d2 0) d1 ++ remove_at idx d2.
(** asymptotic_limits.py:153-160 *)
Definition objective (idx : nat) (v : list R) : R := - nth idx v 0.
Definition objective_jac (idx : nat) (v : list R) : list R := set_at idx (- / 1000) (map (fun _ => 0) v).

(** asymptotic_limits.py:196-218 *)
Definition qmu_sqrt (xobs xobs_err x : R) : R :=
  if Rltb xobs 0 then sqrt (((x - xobs) / xobs_err) * ((x - xobs) / xobs_err) - (xobs / xobs_err) * (xobs / xobs_err)) else (x - xobs) / xobs_err.
Definition gaussian_eq (cdf : R -> R) (xobs xobs_err xerr cl_s x : R) : R :=
  let qmu := qmu_sqrt xobs xobs_err x in let qA := x / xerr in cdf (- qmu) - cl_s * cdf (qA - qmu).
(** rabbit_limit.py:174-181 *)
Definition expected_limit (ppf : R -> R) (xbest xerr cl_s cl_b : R) : R :=
  let cl_sb := cl_s * cl_b in
  let qmuA := (ppf cl_b - ppf cl_sb) * (ppf cl_b - ppf cl_sb) in
  xbest + xerr * sqrt qmuA.
(** rabbit_limit.py:131-163: the value and error of the parameter, params and systs are the names of the model parameters
    and of the nuisances; poi, theta are get_poi() and get_theta() *)
Definition theta_at (theta : list R) (z : Z) : result R :=
  let n := Z.of_nat (List.length theta) in
  if ((- n <=? z) && (z <? n))%Z then Ok (nth (Z.to_nat (if z <? 0 then z + n else z)%Z) theta 0) else Raise IndexError.
Definition limit_value (npoi : nat) (params systs : list string) (poi theta : list R) (key : string) : result R :=
  match index_of key (params ++ systs) with
  | None => Raise RuntimeError
  | Some idx =>
    if smem key (firstn npoi params) then match nth_error poi idx with Some v => Ok v | None => Raise IndexError end
    else theta_at theta (Z.of_nat idx - Z.of_nat (List.length params))
  end.
Definition limit_err (is_poi allow_negative : bool) (x err : R) : R := if is_poi && negb allow_negative then 2 * err * sqrt x else err.

(** ** rabbit_limit.py:322-366, 53-85: the state of the two fitters when limits are computed; [x1], [x2] are the results
    of the two minimisations, [c] the covariance *)
Definition limit_states (env : senv) (dr : draws) (o : topts) (keys : list string) (f : Z) (values : list R) (variances : option (list R))
  (x1 x2 : list R) (c : option (list (list R))) (s : fstate) : result (fstate * fstate) :=
  s <- prefit_state env dr o f values variances s ;;
  let observations := if (0 <=? f)%Z then values else expected_yield env false s in
  s <- (if (0 <=? f)%Z then
          z1 <- freeze_params (v_rx env) (v_parms env) (f_fz s) keys ;;
          let s := set_x (set_fz s z1) x1 in
          s <- set_nobs env (expected_yield env false s) None s ;;
          z2 <- defreeze_params (v_rx env) (v_parms env) (f_fz s) keys ;; Ok (set_fz s z2)
        else Ok s) ;;
  let s := match c with Some c => set_cov s (Some c) | None => s end in
  let asimov := s in
  s <- (if (0 <=? f)%Z then s <- set_nobs env observations None s ;; Ok (set_x s x2) else Ok s) ;;
  Ok (asimov, s).
