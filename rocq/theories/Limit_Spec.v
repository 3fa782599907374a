(** Gradients of functions of a vector, and the constraint of the limit as a function of the packed vector. *)
From Coq Require Import Reals List Arith.
From Verif Require Import RBase PyList Map_Model Limit_Model.
Local Open Scope R_scope.

(** derivative with respect to entry j *)
Definition partial (f : list R -> R) (v : list R) (j : nat) (d : R) : Prop := derivable_pt_lim (fun t => f (set_at j t v)) (nth j v 0) d.
Definition is_gradient (f : list R -> R) (v g : list R) : Prop := List.length g = List.length v /\ forall j, (j < List.length v)%nat -> partial f v j (nth j g 0).
(** what scipy sees: L1, L2 are the likelihoods of the fit to data and to the asimov data set *)
Definition constraint_at (cdf : R -> R) (cl : R) (L1 : list R -> R) (L1min : R) (L2 : list R -> R) (L2min : R) (idx : nat) (v : list R) : R :=
  match unpack idx v with Ok (x1, x2) => constraint cdf cl (L1 x1) L1min (L2 x2) L2min | Raise _ => 0 end.

(** what a distribution function needs for limits: positive, strictly increasing, continuous, its relative growth over a
    step does not increase (log-concave), and vanishing towards minus infinity *)
Definition distribution (F : R -> R) : Prop :=
  (forall x, 0 < F x) /\ (forall x y, x < y -> F x < F y) /\ (forall x, continuity_pt F x) /\
  (forall x y h, x <= y -> 0 <= h -> F x * F (y + h) <= F (x + h) * F y) /\
  (forall eps, 0 < eps -> exists m, forall x, x <= m -> F x < eps).
(** its relative growth strictly decreases *)
Definition strictly_log_concave (F : R -> R) : Prop := forall x y h, x < y -> 0 < h -> F x * F (y + h) < F (x + h) * F y.
(** the statistic of a measurement xobs +- err for a hypothesised value x >= 0: the distance in units of the error; for a negative
    measurement the root of the likelihood ratio to the value 0 *)
Definition stat (xobs err x q : R) : Prop :=
  (0 <= xobs /\ q = (x - xobs) / err) \/ (xobs < 0 /\ 0 <= q /\ q * q = ((x - xobs) * (x - xobs) - xobs * xobs) / (err * err)).
(** the ratio CLs of the probabilities under the two hypotheses *)
Definition cls (F : R -> R) (q qA : R) : R := F (- q) / F (qA - q).
