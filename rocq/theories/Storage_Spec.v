(** What "lossless" means, independently of chunking. *)
From Coq Require Import List Bool.
Import ListNotations.

(** Element-wise agreement up to the representation of zero: a value either is returned
    unchanged, or it compares equal to zero and is returned as the canonical zero. *)
Definition same_value {V} (zero : V) (iszero : V -> bool) (written read : V) : Prop :=
  read = written \/ (iszero written = true /\ read = zero).

Definition same_values {V} (zero : V) (iszero : V -> bool) (written read : list V) : Prop :=
  Forall2 (same_value zero iszero) written read.
