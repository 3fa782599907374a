(** Contours in two parameters: rabbit/fitter.py:2752-2854 (contour_scan2D), rabbit/workspace.py:396-419 (contour_scan2D_hist) and
    bin/rabbit_fit.py:770-790.

    As in Contour_Model, scipy.optimize.minimize is any terminating program that asks for values at points of its choice and ends with
    a flag and a point; the likelihood is a function of fitter.x alone. scipy's own approximations of Hessians (SR1) ask nothing of
    the fitter. Messages are left out. Numbers are real numbers. *)
From Coq Require Import Reals List Arith Bool String Lra.
From Verif Require Import RBase PyList Contour_Model.
Import ListNotations.
Open Scope R_scope.

(** what is asked: likelihood constraint and its gradient, angle constraint and its gradient, objective, its gradient and its Hessian product *)
Inductive query2 := KFun (x : list R) | KJac (x : list R) | KAng (x : list R) | KAngJac (x : list R) | KObj (x : list R) | KObjJac (x : list R) | KObjHessp (x v : list R).
Inductive reply2 := PNum (v : R) | PVec (v : list R).
Inductive strat2 := Stop2 (success : bool) (x : list R) | Ask2 (qu : query2) (k : reply2 -> strat2).

(** a[idx] = v *)
Fixpoint set_at (i : nat) (v : R) (l : list R) : list R :=
  match l, i with
  | [], _ => []
  | _ :: r, O => v :: r
  | x :: r, S i => x :: set_at i v r
  end.
Definition zeros_like (l : list R) : list R := map (fun _ => 0) l.
(** 2801-2831; x and y the distances from the best fit [c] *)
Definition dxy (c x : list R) (i : nat) : R := nth i x 0 - nth i c 0.
Definition objective2 (c : list R) (a b : nat) (x : list R) : R := - (dxy c x a * dxy c x a + dxy c x b * dxy c x b).
Definition objective2_jac (c : list R) (a b : nat) (x : list R) : list R := set_at b (-2 * dxy c x b) (set_at a (-2 * dxy c x a) (zeros_like x)).
Definition objective2_hessp (a b : nat) (v : list R) : list R := set_at b (-2 * nth b v 0) (set_at a (-2 * nth a v 0) (zeros_like v)).
Definition angle_con (c : list R) (a b : nat) (t : R) (x : list R) : R := dxy c x a * sin t - dxy c x b * cos t.
Definition angle_jac (a b : nat) (t : R) (x : list R) : list R := set_at b (- cos t) (set_at a (sin t) (zeros_like x)).
(** 2754-2785: the likelihood functions move fitter.x, the state *)
Definition serve2 (L : clik) (nll_min cl : R) (c : list R) (a b : nat) (t : R) (qu : query2) (st : list R) : reply2 * list R :=
  match qu with
  | KFun x => let st := x in (PNum (cl_loss L st - nll_min - / 2 * (cl * cl)), st)
  | KJac x => let st := x in (PVec (cl_grad L st), st)
  | KAng x => (PNum (angle_con c a b t x), st)
  | KAngJac x => (PVec (angle_jac a b t x), st)
  | KObj x => (PNum (objective2 c a b x), st)
  | KObjJac x => (PVec (objective2_jac c a b x), st)
  | KObjHessp _ v => (PVec (objective2_hessp a b v), st)
  end.
Fixpoint minimize2 (sv : query2 -> list R -> reply2 * list R) (s : strat2) (st : list R) : bool * list R * list R :=
  match s with
  | Stop2 ok x => (ok, x, st)
  | Ask2 qu k => let (r, st) := sv qu st in minimize2 sv (k r) st
  end.
(** np.linspace(0, 2 * np.pi, n_points, endpoint=False) *)
Definition angles (n : nat) : list R := map (fun i => INR i * ((2 * PI - 0) / INR n) + 0) (seq 0 n).
(** 2796-2852: one pair per angle, None for NaN *)
Fixpoint scan_angles (L : clik) (nll_min cl : R) (c : list R) (a b : nat) (opt : list R -> strat2) (ts : list R) (st : list R) : list (option (R * R)) * list R :=
  match ts with
  | [] => ([], st)
  | t :: r =>
    match minimize2 (serve2 L nll_min cl c a b t) (opt c) st with
    | (ok, rx, st) =>
      let e := if ok then Some (nth a rx 0, nth b rx 0) else None in
      let st := c in
      let (es, st) := scan_angles L nll_min cl c a b opt r st in (e :: es, st)
    end
  end.
(** [x] is fitter.x before, the last component fitter.x after *)
Definition contour_scan2D (L : clik) (parms : list string) (pair : string * string) (nll_min cl : R) (n_points : nat) (opt : list R -> strat2) (x : list R)
  : result (list (option (R * R)) * list R) :=
  match find_param (fst pair) parms with
  | None => Raise IndexError
  | Some a =>
    match find_param (snd pair) parms with
    | None => Raise IndexError
    | Some b => Ok (scan_angles L nll_min cl x a b opt (angles n_points) x)
    end
  end.

(** workspace.py:396-419: the axis of pairs and the edges of the axis of angles (boost-histogram: bin i of a regular axis begins at
    start + (stop - start) * i / n) *)
Definition pair_label (p : string * string) : string := (fst p ++ "-" ++ snd p)%string.
Definition regular_edge (n : nat) (start stop : R) (i : nat) : R := start + (stop - start) * (INR i / INR n).
Definition angle_edge (n : nat) (i : nat) : R := let halfstep := PI / INR n in regular_edge n (- halfstep) (2 * PI - halfstep) i.
(** rabbit_fit.py:770-790: the code that follows the raise is never reached *)
Definition contour2D_step (requested : option (list (string * string))) : result unit :=
  match requested with Some _ => Raise NotImplementedError | None => Ok tt end.
