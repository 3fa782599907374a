(** What the plots of uncertainties should show, without reference to the plotting code. *)
From Coq Require Import Reals List Arith Bool String.
From Verif Require Import RBase Cplot_Spec.
Import ListNotations.
Local Open Scope nat_scope.

(** percent of the prediction, or the number itself *)
Definition quoted (absolute : bool) (prediction x r : R) : Prop := if absolute then r = x else (r * prediction = 100 * x)%R.
(** the bins of a slice of a channel in the order of the plot; [c]: for each axis whether it is selected, and its size *)
Definition plot_bins (inverted : bool) (c : list (bool * nat)) (b : list nat) : list (list nat) :=
  if inverted then map (@rev nat) (filter (in_slice (rev (map fst c)) (rev b)) (cells (rev (map snd c))))
  else filter (in_slice (map fst c) b) (cells (map snd c)).
Definition slice_list (c : list (bool * nat)) : list (list nat) := cells (map snd (filter fst c)).
