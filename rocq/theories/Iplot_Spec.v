(** What the plots of the templates should show, without reference to the plotting code. *)
From Coq Require Import Reals List Arith Bool String.
From Verif Require Import RBase.
Import ListNotations.
Local Open Scope nat_scope.

(** a template depends on the bins of its axes only *)
Definition local (axes : list (string * nat)) (f : (string -> nat) -> R) : Prop :=
  forall g g', (forall n, In n (map fst axes) -> g n = g' n) -> f g = f g'.
(** all bins: one number per axis *)
Fixpoint cells (axes : list (string * nat)) : list (list nat) :=
  match axes with [] => [[]] | a :: r => flat_map (fun i => map (cons i) (cells r)) (seq 0 (snd a)) end.
(** the bin of the axis with this name *)
Fixpoint at_axis (axes : list (string * nat)) (v : list nat) (n : string) : nat :=
  match axes, v with
  | a :: axes, i :: v => if String.eqb n (fst a) then i else at_axis axes v n
  | _, _ => 0
  end.
Definition agrees (names : list string) (g g' : string -> nat) : bool := forallb (fun n => Nat.eqb (g n) (g' n)) names.
(** all that a template has in the bins that agree with [g] on the named axes *)
Definition content (axes : list (string * nat)) (names : list string) (f : (string -> nat) -> R) (g : string -> nat) : R :=
  sumR (map (fun v => f (at_axis axes v)) (filter (fun v => agrees names (at_axis axes v) g) (cells axes))).
Definition yield (axes : list (string * nat)) (f : (string -> nat) -> R) : R := content axes [] f (fun _ => 0).
(** subsequences *)
Inductive subseq {A} : list A -> list A -> Prop :=
| sub_nil : subseq [] []
| sub_skip x a b : subseq a b -> subseq a (x :: b)
| sub_take x a b : subseq a b -> subseq (x :: a) (x :: b).
(** a text without a character *)
Definition bare (c : Ascii.ascii) (s : string) : Prop := forall a b, s <> (a ++ String c b)%string.
