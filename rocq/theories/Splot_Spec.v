(** What plots of likelihood scans have to show. *)
From Coq Require Import Reals List.
From Verif Require Import RBase Mat_Model Contour_Spec.
Import ListNotations.
Local Open Scope R_scope.

(** points are ordered along x *)
Fixpoint ordered (l : list (R * R)) : Prop :=
  match l with
  | [] => True
  | p :: l => (forall q, In q l -> fst p <= fst q) /\ ordered l
  end.
(** -2 delta log L of a Gaussian likelihood with precision H, minimised over the other floating parameters *)
Definition profile1 (n : nat) (H : nat -> nat -> R) (frozen : nat -> bool) (i : nat) (d v : R) : Prop :=
  (exists z, floating_move n frozen z /\ z i = d /\ form n H z = v) /\
  forall z, floating_move n frozen z -> z i = d -> v <= form n H z.
Definition profile2 (n : nat) (H : nat -> nat -> R) (frozen : nat -> bool) (i j : nat) (d e v : R) : Prop :=
  (exists z, floating_move n frozen z /\ z i = d /\ z j = e /\ form n H z = v) /\
  forall z, floating_move n frozen z -> z i = d -> z j = e -> v <= form n H z.
(** the quadratic form of the inverse of a 2x2 covariance *)
Definition maha (a b c d e : R) : R := (c * d * d - 2 * b * d * e + a * e * e) / (a * c - b * b).
Definition cov2 (a b c : R) : Prop := 0 < a /\ 0 < c /\ 0 < a * c - b * b.
