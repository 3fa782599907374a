(** Specification of a direct fit: quadratic functions, their derivatives and minima, covariance blocks. *)
From Coq Require Import Reals List Arith.
From Verif Require Import PyList Mat_Model Mat_Proof.
Import ListNotations.
Open Scope R_scope.

(** a quadratic function, its gradient and its Hessian *)
Definition qfun (n : nat) (c : R) (b : nat -> R) (H : nat -> nat -> R) (x : nat -> R) : R := c + vdot n b x + 1 / 2 * quad n H x.
Definition qgrad (n : nat) (b : nat -> R) (H : nat -> nat -> R) (x : nat -> R) (i : nat) : R := b i + mv n H x i.
(** change of one coordinate *)
Definition shift (x : nat -> R) (i : nat) (t : R) (j : nat) : R := x j + (if Nat.eqb j i then t else 0).
Definition partial (f : (nat -> R) -> R) (x : nat -> R) (i : nat) (d : R) : Prop := derivable_pt_lim (fun t => f (shift x i t)) 0 d.
(** [z] is the only point with the smallest value *)
Definition unique_min (n : nat) (f : (nat -> R) -> R) (z : nat -> R) : Prop :=
  forall y, f z <= f y /\ (f y <= f z -> forall i, (i < n)%nat -> y i = z i).
(** tf.stop_gradient on the frozen coordinates: derivatives with respect to them are zero *)
Definition maskv (fl : nat -> bool) (v : nat -> R) (i : nat) : R := if fl i then v i else 0.
Definition maskm (fl : nat -> bool) (H : nat -> nat -> R) (i j : nat) : R := if fl i then (if fl j then H i j else 0) else 0.
Definition floats_only (n : nat) (fl : nat -> bool) (v : nat -> R) : Prop := forall i, (i < n)%nat -> fl i = false -> v i = 0.
Definition norm2 (n : nat) (v : nat -> R) : R := sqrt (sm n (fun i => v i ^ 2)).

(** sums over the floating parameters *)
Definition lsum (f : nat -> R) (l : list nat) : R := fold_right Rplus 0 (map f l).
Definition block_posdef (fl : list nat) (H : nat -> nat -> R) : Prop :=
  forall v, (exists i, In i fl /\ v i <> 0) -> 0 < lsum (fun i => lsum (fun j => v i * H i j * v j) fl) fl.
Definition block_sym (fl : list nat) (H : nat -> nat -> R) : Prop := forall i j, In i fl -> In j fl -> H i j = H j i.
