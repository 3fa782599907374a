(** What the L-curve is, with paths and derivatives of the standard library. *)
From Coq Require Import Reals List Arith.
From Verif Require Import Mat_Model.
Open Scope R_scope.

(** F has the gradient G: along every differentiable path the chain rule holds (Hadamard differentiability) *)
Definition has_gradient (n : nat) (F : (nat -> R) -> R) (G : (nat -> R) -> nat -> R) : Prop :=
  forall (path : R -> nat -> R) (t : R) (v : nat -> R), (forall i, (i < n)%nat -> derivable_pt_lim (fun s => path s i) t (v i)) ->
    derivable_pt_lim (fun s => F (path s)) t (sm n (fun i => G (path t) i * v i)).
Definition smooth (n : nat) (F : (nat -> R) -> R) (G : (nat -> R) -> nat -> R) (H : (nat -> R) -> nat -> nat -> R) : Prop :=
  has_gradient n F G /\ (forall i, (i < n)%nat -> has_gradient n (fun x => G x i) (fun x => H x i)) /\
  (forall x i j, (i < n)%nat -> (j < n)%nat -> H x i j = H x j i).
(** for every strength the point of the path minimises data term + exp(2 tau) penalty *)
Definition minima (F P : (nat -> R) -> R) (path : R -> nat -> R) : Prop :=
  forall t y, F (path t) + exp (2 * t) * P (path t) <= F y + exp (2 * t) * P y.
(** signed curvature of the plane curve (X, Y) at the parameter t *)
Definition is_curvature (X Y : R -> R) (t k : R) : Prop :=
  exists X1 Y1 X2 Y2, (forall s, derivable_pt_lim X s (X1 s)) /\ (forall s, derivable_pt_lim Y s (Y1 s)) /\
    derivable_pt_lim X1 t X2 /\ derivable_pt_lim Y1 t Y2 /\ 0 < X1 t * X1 t + Y1 t * Y1 t /\
    k = (X1 t * Y2 - Y1 t * X2) / Rpower (X1 t * X1 t + Y1 t * Y1 t) (3 / 2).
