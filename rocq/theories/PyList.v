(** Python/numpy list vocabulary shared by the models: slices, slice assignment, range. *)
From Coq Require Import List Arith Lia.
Import ListNotations.

(** [xs[a:b]] for nonnegative a, b (python clamps both ends to the length). *)
Definition pyslice {A} (a b : nat) (xs : list A) : list A := firstn (b - a) (skipn a xs).

(** [xs[a:b] = ys] on a fixed-size 1-D array, in the case used by the code: [ys] has the
    length of the (clamped) slice. *)
Definition splice {A} (a : nat) (ys xs : list A) : list A :=
  firstn a xs ++ ys ++ skipn (a + length ys) xs.

(** [range(0, n, step)] for step > 0. *)
Definition pyrange (n step : nat) : list nat :=
  map (fun k => k * step) (seq 0 ((n + step - 1) / step)).

Definition prodn (l : list nat) : nat := fold_right Nat.mul 1 l.
Definition sumn (l : list nat) : nat := fold_right Nat.add 0 l.

(** Outcome of a call: a value or a raised exception (identified by its class). *)
Inductive pyexc :=
| RuntimeError | ValueError | KeyError | IndexError | NotImplementedError | TypeError
| AssertionError | GenericException.
Inductive result (A : Type) := Ok (a : A) | Raise (e : pyexc).
Arguments Ok {A} _. Arguments Raise {A} _.

Definition rbind {A B} (r : result A) (f : A -> result B) : result B :=
  match r with Ok a => f a | Raise e => Raise e end.
Notation "x <- r ;; f" := (rbind r (fun x => f)) (at level 61, r at next level, right associativity).
