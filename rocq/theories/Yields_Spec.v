(** The documented prediction: per bin, the sum over processes of scale factor times varied
    template. *)
From Coq Require Import List Arith Bool String Reals.
From Verif Require Import RBase.
Import ListNotations.
Local Open Scope R_scope.

(** interpolation between the down (-1) and up (+1) slope; saturates at half a sigma *)
Definition switch (theta : R) : R :=
  if Rleb (1/2) theta then 1 else if Rleb theta (-1/2) then -1
  else (15 * (2 * theta) - 10 * (2 * theta)^3 + 3 * (2 * theta)^5) / 8.

(** variation of one (bin, process): [avg] and [half] are the average and half-difference
    effects of nuisance number s *)
Definition variation (nsyst : nat) (theta avg half : nat -> R) : R :=
  sumR (map (fun s => theta s * avg s + theta s * switch (theta s) * half s) (seq 0 nsyst)).

(** log-normal: r N exp(variation); normal: r N + r0 variation, with the scale factor r0 at the
    default parameters *)
Definition predict_lognormal (r nom var : R) : R := r * nom * exp var.
Definition predict_normal (r r0 nom var : R) : R := r * nom + r0 * var.
