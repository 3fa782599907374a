(** The variance of a prediction with derivatives [p] when the likelihood has the curvature [H]: p . z with H z = p. *)
From Coq Require Import Reals Arith.
From Verif Require Import Mat_Model.
Local Open Scope R_scope.

Definition variance_of (m : nat) (H : nat -> nat -> R) (p : nat -> R) (v : R) : Prop :=
  exists z, (forall k, (k < m)%nat -> mv m H z k = p k) /\ v = sm m (fun k => p k * z k).
(** [H] is the derivative of [g] at [x] *)
Definition jacobian_at (m : nat) (g : (nat -> R) -> nat -> R) (x : nat -> R) (H : nat -> nat -> R) : Prop :=
  forall k j, (k < m)%nat -> (j < m)%nat -> derivable_pt_lim (fun u => g (fun i => x i + u * delta j i) k) 0 (H k j).
(** the total yield of bin [a] *)
Definition total_of (bin : nat -> nat) (slope : nat -> R) (a k : nat) : R := if Nat.eqb (bin k) a then slope k else 0.
