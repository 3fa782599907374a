(** Statements about the diagnostics of the fit that do not refer to how systems are solved. *)
From Coq Require Import List Reals.
From Verif Require Import Mat_Model Mat_Proof Diag_Model.
Local Open Scope R_scope.

(** a direction that the matrix maps to zero *)
Definition singular (n : nat) (A : nat -> nat -> R) : Prop :=
  exists z, nonzero n z /\ forall i, (i < n)%nat -> mv n A z i = 0.
Definition solves (n : nat) (A : nat -> nat -> R) (b x : nat -> R) : Prop := forall i, (i < n)%nat -> mv n A x i = b i.
(** a parameter that the loss does not depend on *)
Definition dead (n : nat) (A : nat -> nat -> R) (i : nat) : Prop :=
  (i < n)%nat /\ forall j, (j < n)%nat -> A i j = 0 /\ A j i = 0.
(** the quadratic approximation of the loss around the point, and how far it can still fall *)
Definition approximation (n : nat) (g : nat -> R) (A : nat -> nat -> R) (d : nat -> R) : R :=
  sm n (fun i => g i * d i) + 1 / 2 * quad n A d.
Definition distance_to_minimum (n : nat) (g : nat -> R) (A : nat -> nat -> R) (e : R) : Prop :=
  exists d, (forall d', approximation n g A d <= approximation n g A d') /\
            e = approximation n g A (fun _ => 0) - approximation n g A d.

(** a plan that looks at a Hessian before its first iteration *)
Fixpoint hessian_first (f : vec -> values) (p : plan) : Prop :=
  match p with
  | PLoss x next => hessian_first f (next (v_loss (f x), v_grad (f x)))
  | PHess _ _ => True
  | _ => False
  end.
(** every Hessian that the plan looks at is regular *)
Fixpoint regular_along (n : nat) (f : vec -> values) (p : plan) : Prop :=
  match p with
  | PLoss x next => regular_along n f (next (v_loss (f x), v_grad (f x)))
  | PHess x next => ~ singular n (v_hess (f x)) /\ regular_along n f (next (v_hess (f x)))
  | PIter _ _ next => regular_along n f next
  | _ => True
  end.
