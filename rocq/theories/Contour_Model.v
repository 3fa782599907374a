(** Likelihood contour scans: rabbit/fitter.py:2504-2750 (contour_scan) and bin/rabbit_fit.py:748-768.

    scipy.optimize.minimize is any terminating program that asks for values at points of its choice, possibly in view of earlier
    answers, and ends with a flag and a point. The parameters are a list of numbers, a number that is not finite or not real is None.
    The likelihood (loss_val_grad, loss_val_grad_hess, loss_val_grad_hessp) are functions of fitter.x alone; other state of the
    fitter does not change during a scan. Times and messages are left out. *)
From Coq Require Import Reals List Arith Bool String.
From Verif Require Import RBase PyList Mat_Model Impacts_Model.
Import ListNotations.
Open Scope R_scope.

(** np.array_equal *)
Fixpoint vec_eqb (a b : list R) : bool :=
  match a, b with
  | [], [] => true
  | x :: a', y :: b' => Reqb x y && vec_eqb a' b'
  | _, _ => false
  end.
Definition vscale (c : R) (v : list R) : list R := map (Rmult c) v.

Record clik := { cl_loss : list R -> R; cl_grad : list R -> list R; cl_hess : list R -> list (list R); cl_hessp : list R -> list R -> list R }.
(** an observable: expected value, its gradient and its Hessian product *)
Record cobs := { co_val : list R -> R; co_grad : list R -> list R; co_hessp : list R -> list R -> list R }.
(** fitter.x and the two caches *)
Record cstate := { cs_x : list R; cs_lg : option (list R * R * list R); cs_h : option (list R * list (list R)) }.
Inductive hmode := HExact | HHvp | HFrozen | HBfgs | HSr1 | HOther.

Definition hits {A} (key : A -> list R) (c : option A) (x : list R) : bool := match c with Some e => vec_eqb (key e) x | None => false end.
Definition assign (x : list R) (st : cstate) : cstate := {| cs_x := x; cs_lg := cs_lg st; cs_h := cs_h st |}.
(** 2520-2529 *)
Definition ensure_lg (L : clik) (nll_min q : R) (x : list R) (st : cstate) : cstate :=
  if hits (fun e => fst (fst e)) (cs_lg st) x then st else
  let st := assign x st in
  {| cs_x := cs_x st; cs_lg := Some (x, cl_loss L (cs_x st) - nll_min - / 2 * q, cl_grad L (cs_x st)); cs_h := cs_h st |}.
(** 2580-2592 *)
Definition ensure_hess (L : clik) (nll_min q : R) (x : list R) (st : cstate) : cstate :=
  if hits fst (cs_h st) x then st else
  let st := assign x st in
  {| cs_x := cs_x st; cs_lg := Some (x, cl_loss L (cs_x st) - nll_min - / 2 * q, cl_grad L (cs_x st)); cs_h := Some (x, cl_hess L (cs_x st)) |}.
Definition lg_val (st : cstate) : R := match cs_lg st with Some (_, v, _) => v | None => 0 end.
Definition lg_grad (st : cstate) : list R := match cs_lg st with Some (_, _, g) => g | None => [] end.
Definition h_hess (st : cstate) : list (list R) := match cs_h st with Some (_, h) => h | None => [] end.

(** what scipy asks for: constraint, its gradient, its Hessian for multipliers v, the product of that Hessian (a LinearOperator made
    at x with multipliers v) with p, the objective and its Hessian product *)
Inductive cquery := QFun (x : list R) | QJac (x : list R) | QHess (x v : list R) | QMatvec (x v p : list R) | QObj (x : list R) | QObjHess (x p : list R).
Inductive creply := RNum (v : R) | RVec (v : list R) | RMat (m : list (list R)) | RObj (v : R) (g : list R) | ROp.
Inductive strat := Done (success : bool) (x : list R) | Ask (qu : cquery) (k : creply -> strat).

(** 2550-2577, 2594-2609; [ph] the inverse of the covariance of mode "frozen" *)
Definition ask_hess (L : clik) (nll_min q : R) (hm : hmode) (ph : list (list R)) (x v : list R) (st : cstate) : creply * cstate :=
  match hm with
  | HExact => let st := ensure_hess L nll_min q x st in (RMat (map (vscale (nth 0 v 0)) (h_hess st)), st)
  | HHvp => (ROp, ensure_lg L nll_min q x st)
  | HFrozen => (RMat (map (vscale (nth 0 v 0)) ph), st)
  | _ => (ROp, st)
  end.
(** 2647-2699; [sign] -1 or 1 *)
Definition one_hot (n idx : nat) (v : R) : list R := map (fun i => if Nat.eqb i idx then v else 0) (seq 0 n).
Definition objective (fn : option cobs) (idx : nat) (x0 sign : R) (x : list R) (st : cstate) : creply * cstate :=
  let st := assign x st in
  match fn with
  | None => (RObj (- sign * (nth idx x 0 - x0)) (one_hot (List.length x) idx (- sign)), st)
  | Some o => (RObj (- sign * co_val o (cs_x st)) (vscale (- sign) (co_grad o (cs_x st))), st)
  end.
Definition objective_hess (fn : option cobs) (sign : R) (x p : list R) (st : cstate) : creply * cstate :=
  match fn with
  | None => (RVec (map (fun _ => 0) p), st)
  | Some o => let st := assign x st in (RVec (vscale (- sign) (co_hessp o (cs_x st) p)), st)
  end.
Definition serve (L : clik) (nll_min q : R) (hm : hmode) (ph : list (list R)) (fn : option cobs) (idx : nat) (x0 sign : R) (qu : cquery) (st : cstate) : creply * cstate :=
  match qu with
  | QFun x => let st := ensure_lg L nll_min q x st in (RNum (lg_val st), st)
  | QJac x => let st := ensure_lg L nll_min q x st in (RVec (lg_grad st), st)
  | QHess x v => ask_hess L nll_min q hm ph x v st
  | QMatvec x v p => let st := assign x st in (RVec (vscale (nth 0 v 0) (cl_hessp L (cs_x st) p)), st)
  | QObj x => objective fn idx x0 sign x st
  | QObjHess x p => objective_hess fn sign x p st
  end.
(** 2701-2713 *)
Fixpoint minimize (sv : cquery -> cstate -> creply * cstate) (s : strat) (st : cstate) : bool * list R * cstate :=
  match s with
  | Done ok x => (ok, x, st)
  | Ask qu k => let (r, st) := sv qu st in minimize sv (k r) st
  end.

(** 2632-2642 *)
Definition odiv (a b : R) : option R := if Reqb b 0 then None else Some (a / b).
Definition gauss_dx (cov : nat -> nat -> R) (n : nat) (frozen : nat -> bool) (q : R) (idx : nat) (k : nat) : option R :=
  if frozen k then Some 0 else
  match tsqrt (cov idx idx), tsqrt q with
  | Some s, Some rq => odiv (rq * cov k idx) s
  | _, _ => None
  end.
(** 2645 *)
Definition warm_start (cov : nat -> nat -> R) (frozen : nat -> bool) (q : R) (idx : nat) (sign : R) (xval : list R) : list (option R) :=
  map (fun k => match gauss_dx cov (List.length xval) frozen q idx k with Some d => Some (nth k xval 0 + sign * d) | None => None end) (seq 0 (List.length xval)).
Definition vminus (a b : list R) : list R := map (fun p => fst p - snd p) (combine a b).

(** 2644-2748: per sign the interval and the row of params_values, None for NaN *)
Fixpoint sides (L : clik) (cov : nat -> nat -> R) (frozen : nat -> bool) (nll_min q : R) (hm : hmode) (ph : list (list R)) (fn : option cobs) (idx : nat) (xval : list R)
  (opt : list (option R) -> strat) (signs : list R) (st : cstate) : list (option R) * list (option (list R)) * cstate :=
  match signs with
  | [] => ([], [], st)
  | sign :: rest =>
    let x0 := nth idx xval 0 in
    match minimize (serve L nll_min q hm ph fn idx x0 sign) (opt (warm_start cov frozen q idx sign xval)) st with
    | (ok, rx, st) =>
      let st := if ok then (match fn with None => st | Some _ => assign rx st end) else st in
      let val := match fn with None => nth idx rx 0 - x0 | Some o => co_val o (cs_x st) end in
      let st := assign xval st in
      match sides L cov frozen nll_min q hm ph fn idx xval opt rest st with
      | (iv, pv, st) => ((if ok then Some val else None) :: iv, (if ok then Some (vminus rx xval) else None) :: pv, st)
      end
    end
  end.
(** np.where(self.parms.astype(str) == param)[0][0] *)
Fixpoint find_param (param : string) (parms : list string) : option nat :=
  match parms with
  | [] => None
  | p :: r => if String.eqb p param then Some O else option_map S (find_param param r)
  end.
Definition contour_scan (L : clik) (cov : nat -> nat -> R) (parms : list string) (frozen : nat -> bool) (param : string) (nll_min q : R) (signs : list R) (fn : option cobs)
  (hm : hmode) (opt : list (option R) -> strat) (x : list R) : result (list (option R) * list (option (list R)) * list R) :=
  ph <- match hm with
        | HFrozen => ci <- ginv (List.length x) cov ;; Ok (map (fun i => map (ci i) (seq 0 (List.length x))) (seq 0 (List.length x)))
        | HOther => Raise ValueError
        | _ => Ok []
        end ;;
  match find_param param parms with
  | None => Raise IndexError
  | Some idx =>
    match sides L cov frozen nll_min q hm ph fn idx x opt signs {| cs_x := x; cs_lg := None; cs_h := None |} with
    | (iv, pv, st) => Ok (iv, pv, cs_x st)
    end
  end.

(** rabbit_fit.py:748-768: levels cl for every requested parameter (all if none is named); the table of displacements *)
Fixpoint scan_levels (scan : string -> R -> list R -> result (list (option R) * list (option (list R)) * list R)) (param : string) (levels : list R) (x : list R)
  : result (list (list (option (list R))) * list R) :=
  match levels with
  | [] => Ok ([], x)
  | cl :: r => o <- scan param (cl * cl) x ;; match o with (_, pv, x) => t <- scan_levels scan param r x ;; Ok (pv :: fst t, snd t) end
  end.
Fixpoint scan_params (scan : string -> R -> list R -> result (list (option R) * list (option (list R)) * list R)) (params : list string) (levels : list R) (x : list R)
  : result (list (list (list (option (list R)))) * list R) :=
  match params with
  | [] => Ok ([], x)
  | p :: r => o <- scan_levels scan p levels x ;; t <- scan_params scan r levels (snd o) ;; Ok (fst o :: fst t, snd t)
  end.
Definition contours (L : clik) (cov : nat -> nat -> R) (parms : list string) (frozen : nat -> bool) (requested : list string) (levels : list R)
  (opt : list (option R) -> strat) (x : list R) : result (list (list (list (option (list R)))) * list R) :=
  let nll := cl_loss L x in
  let ps := match requested with [] => parms | _ => requested end in
  scan_params (fun p q x => contour_scan L cov parms frozen p nll q [-1; 1] None HExact opt x) ps levels x.
