(** Dense linear algebra used by the fitter, over the reals: vectors are functions of the index, matrices
    of row and column, the dimension is passed separately.

    tf.linalg.cholesky and scipy.linalg.cholesky are the column (right-looking) algorithm, which only reads
    the lower triangle; a pivot that is not positive is the failure both libraries report (an exception, or
    NaN entries). cholesky_solve is forward and backward substitution; LAPACK's trtri inverts a triangular
    matrix column by column; scipyhelpers.py:17-31 multiplies this inverse with its transpose. Rounding is
    not modelled. *)
From Coq Require Import Reals Arith.
Open Scope R_scope.

Fixpoint sm (n : nat) (f : nat -> R) : R :=
  match n with O => 0 | S m => f O + sm m (fun i => f (S i)) end.
Definition vdot (n : nat) (x y : nat -> R) : R := sm n (fun i => x i * y i).
Definition mv (n : nat) (A : nat -> nat -> R) (x : nat -> R) (i : nat) : R := sm n (fun j => A i j * x j).
Definition mm (n : nat) (A B : nat -> nat -> R) (i j : nat) : R := sm n (fun k => A i k * B k j).
Definition delta (i j : nat) : R := if Nat.eqb i j then 1 else 0.

Fixpoint chol (n : nat) (A : nat -> nat -> R) : option (nat -> nat -> R) :=
  match n with
  | O => Some (fun _ _ => 0)
  | S m =>
    let d := A O O in
    if Rlt_dec 0 d then
      let l := fun i => A i O / sqrt d in
      match chol m (fun i j => A (S i) (S j) - l (S i) * l (S j)) with
      | None => None
      | Some L => Some (fun i j => match j with
                                   | O => l i
                                   | S j' => match i with O => 0 | S i' => L i' j' end
                                   end)
      end
    else None
  end.
(** L y = b *)
Fixpoint fsolve (n : nat) (L : nat -> nat -> R) (b : nat -> R) : nat -> R :=
  match n with
  | O => fun _ => 0
  | S m => let y0 := b O / L O O in
           let y := fsolve m (fun i j => L (S i) (S j)) (fun i => b (S i) - L (S i) O * y0) in
           fun i => match i with O => y0 | S i' => y i' end
  end.
(** L^T x = y *)
Fixpoint bsolve (n : nat) (L : nat -> nat -> R) (y : nat -> R) : nat -> R :=
  match n with
  | O => fun _ => 0
  | S m => let x := bsolve m (fun i j => L (S i) (S j)) (fun i => y (S i)) in
           fun i => match i with O => (y O - sm m (fun k => L (S k) O * x k)) / L O O | S i' => x i' end
  end.
Definition chol_solve (n : nat) (L : nat -> nat -> R) (b : nat -> R) : nat -> R := bsolve n L (fsolve n L b).
Definition trtri (n : nat) (L : nat -> nat -> R) (i j : nat) : R := fsolve n L (fun k => delta k j) i.
Definition cho_inv (n : nat) (L : nat -> nat -> R) (i j : nat) : R := sm n (fun k => trtri n L k i * trtri n L k j).
