(** The L-curve of the regularisation: rabbit/regularization/lcurve.py, with the parts of the loss of rabbit/fitter.py:421, 2077-2120.

    Functions of the parameters (fitter.x, n of them) come with the gradient and the Hessian which autodiff gives for them; over the
    reals. The loss is  prof(x) + ext(x) + exp(2 tau) * (sum of the penalties)(x), where prof is ln + lc + lbeta with the nuisances beta
    of the bin-by-bin statistics profiled at every x (profile=True), and ext the sum of the external terms. The curve uses fixed, which
    is ln + lc + lbeta at the stored beta (profile=False); without bin-by-bin statistics lbeta is None (bbstat.py:375-376). The gradient
    of cholesky_solve is the one of the solution of the linear system. A value of None is NaN. *)
From Coq Require Import Reals List Arith.
From Verif Require Import PyList Mat_Model RBase.
Import ListNotations.
Open Scope R_scope.

Record fn := mkFn { fval : (nat -> R) -> R; fgrad : (nat -> R) -> nat -> R; fhess : (nat -> R) -> nat -> nat -> R }.
Definition fplus (f g : fn) : fn :=
  mkFn (fun x => fval f x + fval g x) (fun x i => fgrad f x i + fgrad g x i) (fun x i j => fhess f x i j + fhess g x i j).
Definition fzero : fn := mkFn (fun _ => 0) (fun _ _ => 0) (fun _ _ _ => 0).
(** tf.add_n *)
Definition add_n (l : list fn) : fn := fold_right fplus fzero l.
(** tf.math.log *)
Definition flog (f : fn) : fn :=
  mkFn (fun x => ln (fval f x)) (fun x i => fgrad f x i / fval f x)
    (fun x i j => fhess f x i j / fval f x - fgrad f x i * fgrad f x j / (fval f x * fval f x)).

Record setup := mkSetup { s_prof : fn; s_ext : option fn; s_regs : list fn; s_fixed : option fn }.
Definition loss (s : setup) : fn := match s_ext s with None => s_prof s | Some e => fplus (s_prof s) e end.
Definition penalty (s : setup) : fn := add_n (s_regs s).

Section Curvature.
  Variable n : nat.
  (** lcurve.py:24-33; [dxdtau2] is the derivative of dxdtau with respect to tau at fixed x *)
  Definition mixed (s : setup) (x : nat -> R) (tau : R) (i : nat) : R := 2 * exp (2 * tau) * fgrad (penalty s) x i.
  Definition hessian (s : setup) (x : nat -> R) (tau : R) (i j : nat) : R := fhess (loss s) x i j + exp (2 * tau) * fhess (penalty s) x i j.
  Definition dxdtau (L : nat -> nat -> R) (s : setup) (x : nat -> R) (tau : R) (i : nat) : R := - chol_solve n L (mixed s x tau) i.
  Definition dxdtau2 (L : nat -> nat -> R) (s : setup) (x : nat -> R) (tau : R) (i : nat) : R :=
    - chol_solve n L (fun k => 4 * exp (2 * tau) * fgrad (penalty s) x k
                               + 2 * exp (2 * tau) * mv n (fhess (penalty s) x) (dxdtau L s x tau) k) i.
  (** 60-61, 69-77 *)
  Definition first (f : fn) (x g : nat -> R) : R := vdot n (fgrad f x) g.
  Definition second (f : fn) (x g g2 : nat -> R) : R := sm n (fun i => g i * mv n (fhess f x) g i) + vdot n (fgrad f x) g2.
  (** 79-81 *)
  Definition curv (x1 y1 x2 y2 : R) : option R :=
    let d := x1 * x1 + y1 * y1 in if Reqb d 0 then None else Some ((y2 * x1 - x2 * y1) / Rpower d (3 / 2)).
  (** 8-83 *)
  Definition compute_curvature (s : setup) (x : nat -> R) (tau : R) : result (option R) :=
    match chol n (hessian s x tau) with
    | None => Raise GenericException
    | Some L =>
      match s_regs s with
      | [] => Raise TypeError
      | _ =>
        match s_fixed s with
        | None => Raise TypeError
        | Some d =>
          if Rleb (fval d x) 0 then Ok None
          else if Rleb (fval (penalty s) x) 0 then Ok None
          else let g := dxdtau L s x tau in let g2 := dxdtau2 L s x tau in
               let lx := flog d in let ly := flog (penalty s) in
               Ok (curv (first lx x g) (first ly x g) (second lx x g g2) (second ly x g g2))
        end
      end
    end.

  (** 91-110: [minimize] takes the current tau and the start point; tau is set back, the parameters are not *)
  Fixpoint scan_tau (minimize : R -> (nat -> R) -> nat -> R) (s : setup) (taus : list R) (x : nat -> R) : result (list (option R) * (nat -> R)) :=
    match taus with
    | [] => Ok ([], x)
    | t :: r => let x' := minimize t x in
                v <- compute_curvature s x' t ;; w <- scan_tau minimize s r x' ;; Ok (v :: fst w, snd w)
    end.
End Curvature.

(** 149-234: the value of -curvature and its two derivatives with respect to tau at fixed x come from autodiff *)
Section Optimise.
  Variables (minimize : R -> (nat -> R) -> nat -> R) (vgh : R -> (nat -> R) -> R * R * R).
  Definition sign (h : R) : R := if Rltb h 0 then -1 else 1.
  Definition safe_hess (h : R) : R := sign h * Rmax (Rabs h) (/ 100000000).
  Definition more (edm : R) : bool := (Rltb edm 0 || Rltb (/ 10000000000000000) edm)%bool.
  Record found := mkFound { o_tau : R; o_val : R; o_edm : R; o_x : nat -> R; o_seen : R (* tau at which o_val was computed *); o_grad : R; o_hess : R }.
  Definition newton (tau : R) (x : nat -> R) : found :=
    let x' := minimize tau x in
    let '(v, g, h) := vgh tau x' in
    let step := g / safe_hess h in
    mkFound (tau - step) v (1 / 2 * g * step) x' tau g h.
  Fixpoint opt_loop (fuel : nat) (o : found) : found :=
    match fuel with O => o | S k => if more (o_edm o) then opt_loop k (newton (o_tau o) (o_x o)) else o end.
  (** the loop body runs at least once, since edm starts with 1 *)
  Definition optimise (tau : R) (x : nat -> R) : found := opt_loop 49 (newton tau x).
  (** 226-234: what is returned and stored as best tau and largest curvature (bin/rabbit_fit.py:534-537) *)
  Definition optimize_tau (tau : R) (x : nat -> R) : R * R := (o_tau (optimise tau x), o_val (optimise tau x)).
End Optimise.
